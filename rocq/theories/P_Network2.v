(** C89, the concrete case: three routers exchange their LSAs. *)
From Verif Require Import Base M_Nexthop L_Nexthop M_Tlv M_Adj M_Lsa M_Lsdb M_Codec M_Sync S_Lsdb S_Codec L_Codec P_Codec M_Wire M_Net S_Graph M_LinkState S_LinkState P_LinkState
  M_Hyperbolic M_RoutingTable M_Npt S_Npt M_Fib S_Fib S_Pipe M_Prefix M_Hello S_Hello M_Router S_Router S_Delivery
  X_Lsdb X_Router P_Router P_Router3 P_Router6 P_Router7 M_Network S_Network P_Network.
Open Scope Z_scope.

#[global] Instance EqDec_lsa : EqDec lsa.
Proof. unfold EqDec. decide equality; apply eq_dec. Defined.

(** ** The hypotheses as computations *)
Section B.
Variable w : list box.
Notation bstate := (bstate uriR angR dstR).
Notation btrace := (btrace uriR angR dstR).
Notation outs b i s := (db_outs (btrace b i s)).
Notation iw := (combine (seq 0 (length w)) w).
Lemma in_iw i b : In (i, b) iw <-> nth_error w i = Some b.
Proof.
  rewrite in_combine_seq. split; [intros (j & -> & H); exact H|intros H; now exists i].
Qed.

Definition saidb (t : ltype) (q : N) (o : out) : bool := match o with OPublish t' q' => eqb t t' && (q =? q')%N | _ => false end.
Definition gaveb (n : name) (d : option lsa) (o : out) : bool :=
  match o with
  | OData m l _ => eqb (firstn (length n) m) n && (length m =? length n + 2)%nat &&
      eqb d (match asked_type n with Some t => dec_lsa tp8 Some t (enc_lsa ts8 l) | None => None end)
  | _ => false
  end.
Definition gallowedb (past : gsched) (x : nat * (inp * gev)) : bool :=
  match nth_error w (fst x) with
  | None => false
  | Some b =>
    match snd (snd x) with
    | GvDb (ESync u q _) => existsb (fun y => negb (fst y =? fst x)%nat &&
        existsb (fun t => eqb u (buser (snd y) t) && existsb (saidb t q) (outs (snd y) (fst y) past)) [TAdj; TCoord; TName]) iw
    | GvDb (EFetchDone fid content) =>
        match get fid (s_fetch (g_db (bstate b (fst x) past))) with
        | Some f => existsb (fun y => existsb (gaveb (f_iname f) content) (outs (snd y) (fst y) past)) iw
        | None => false
        end
    | GvDb (EInterest i _ _ _) => Z.of_nat (length i) <? 2 ^ 63
    | _ => true
    end
  end.
Fixpoint gpossibleb (past rest : gsched) : bool :=
  match rest with [] => true | x :: r => gallowedb past x && gpossibleb (past ++ [x]) r end.
Notation gallowed := (gallowed uriR angR dstR ts8 tp8 Some w).
Notation gpossible := (gpossible uriR angR dstR ts8 tp8 Some w).

Lemma two_left {A} (n m : list A) : firstn (length n) m = n -> length m = (length n + 2)%nat -> exists a b, m = n ++ [a; b].
Proof.
  intros E L. rewrite <- (firstn_skipn (length n) m), E. assert (X : length (skipn (length n) m) = 2%nat) by (rewrite skipn_length; lia).
  destruct (skipn (length n) m) as [|a [|b [|c z]]]; try discriminate X. eauto.
Qed.
Lemma gallowedb_ok past x : gallowedb past x = true -> gallowed past x.
Proof.
  unfold gallowedb. intros H. destruct (nth_error w (fst x)) as [b|] eqn:E; [|discriminate H]. exists b. split; [exact E|].
  destruct (snd (snd x)) as [d|v|m r|v|v|k]; try exact I. destruct v; try exact I.
  - apply existsb_exists in H as ([j m] & Hj & H). cbn [fst snd] in H. apply andb_prop in H as [N H]. apply existsb_exists in H as (t & _ & H). apply andb_prop in H as [U H].
    apply existsb_exists in H as (o & Ho & H). destruct o; try discriminate H. cbn [saidb] in H. apply andb_prop in H as [T Q]. apply (proj1 (eqb_eq _ _)) in U, T. apply N.eqb_eq in Q. subst.
    exists j, m, t0. split; [now apply in_iw|]. split; [intros X; subst j; rewrite Nat.eqb_refl in N; discriminate N|]. split; [reflexivity|exact Ho].
  - destruct (get fid (s_fetch (g_db (bstate b (fst x) past)))) as [f|] eqn:F; [|discriminate H]. right.
    apply existsb_exists in H as ([j m] & Hj & H). cbn [fst snd] in H. apply existsb_exists in H as (o & Ho & H). destruct o as [| | | | | |dn dl dk| | | | |]; try discriminate H. cbn [gaveb] in H.
    apply andb_prop in H as [H D]. apply andb_prop in H as [A L]. apply (proj1 (eqb_eq _ _)) in A, D. apply Nat.eqb_eq in L. destruct (two_left _ _ A L) as (a & z & En).
    exists j, m, f, a, z, dl, dk. split; [now apply in_iw|]. split; [reflexivity|]. split; [rewrite <- En; exact Ho|exact D].
  - apply Z.ltb_lt in H. exact H.
Qed.
Lemma gpossibleb_ok rest : forall past, gpossible past -> gpossibleb past rest = true -> gpossible (past ++ rest).
Proof.
  induction rest as [|x r IH]; intros past P H; [now rewrite app_nil_r|]. cbn [gpossibleb] in H. apply andb_prop in H as [H1 H2].
  replace (past ++ x :: r) with ((past ++ [x]) ++ r) by (rewrite <- app_assoc; reflexivity). apply IH; [|exact H2]. constructor; [exact P|now apply gallowedb_ok].
Qed.

Definition dblb (z : Z) : bool := (z mod UNIT =? 0) && (Z.abs (z / UNIT) <? 2 ^ 53).
Lemma dblb_ok z : dblb z = true -> is_double z.
Proof.
  unfold dblb. intros H. apply andb_prop in H as [H1 H2]. apply Z.eqb_eq in H1. apply Z.ltb_lt in H2.
  assert (E : z = of_int (z / UNIT)) by (unfold of_int; assert (0 < UNIT) by reflexivity; pose proof (Z.div_mod z UNIT ltac:(lia)); lia).
  rewrite E. apply is_double_spec, double_int. exact H2.
Qed.
Definition legalb (n : name) : bool := forallb (fun c => (1 <=? ctype c)%N && (ctype c <? 2 ^ 32)%N) n.
Lemma legalb_ok n : legalb n = true -> legal_name n.
Proof. unfold legalb. rewrite forallb_forall. intros H c Hc. specialize (H c Hc). apply andb_prop in H as [A B]. apply N.leb_le in A. apply N.ltb_lt in B. auto. Qed.
Definition sentb (o : out) : bool :=
  match o with
  | OData _ l _ => legalb (l_origin l) && (l_seq l <? 2 ^ 64)%N && eqb (tp8 (ts8 (l_exp l))) (Some (l_exp l)) && (N.of_nat (String.length (enc_lsa ts8 l)) <? 2 ^ 64)%N &&
      match l_body l with
      | BAdj a => nodupb (map a_name a) && forallb (fun x => legalb (a_name x) && dblb (a_cost x)) a
      | BCoord r an => false
      | BName p => nodupb (map fst p) && forallb (fun x => legalb (fst x) && dblb (snd x) && (0 <=? snd x)) p
      end
  | _ => true
  end.
Lemma sentb_ok n l k : sentb (OData n l k) = true -> encodable ts8 tp8 Some l /\ fits (enc_lsa ts8 l) /\ forall p x, In (p, x) (body_names (l_body l)) -> 0 <= x.
Proof.
  unfold sentb. intros H. apply andb_prop in H as [H B]. apply andb_prop in H as [H F]. apply andb_prop in H as [H T]. apply andb_prop in H as [L Q].
  apply legalb_ok in L. apply N.ltb_lt in Q, F. apply (proj1 (eqb_eq _ _)) in T.
  assert (X : match l_body l with
    | BAdj a => NoDup (map a_name a) /\ forall x, In x a -> legal_name (a_name x) /\ Some (a_uri x) = Some (a_uri x) /\ is_double (a_cost x)
    | BCoord r an => is_double r /\ forall a, In a an -> is_double a
    | BName p => NoDup (map fst p) /\ forall x, In x p -> legal_name (fst x) /\ is_double (snd x)
    end /\ forall p x, In (p, x) (body_names (l_body l)) -> 0 <= x).
  { destruct (l_body l) as [a|r an|p]; [|discriminate B|]; apply andb_prop in B as [N B]; apply nodupb_ok in N; rewrite forallb_forall in B; cbn [body_names].
    - split; [|intros ? ? []]. split; [exact N|]. intros x Hx. specialize (B x Hx). apply andb_prop in B as [B1 B2]. split; [now apply legalb_ok|]. split; [reflexivity|now apply dblb_ok].
    - split.
      + split; [exact N|]. intros x Hx. specialize (B x Hx). apply andb_prop in B as [B _]. apply andb_prop in B as [B1 B2]. split; [now apply legalb_ok|now apply dblb_ok].
      + intros q x Hx. specialize (B _ Hx). apply andb_prop in B as [_ B]. now apply Z.leb_le in B. }
  destruct X as [X1 X2]. split; [|split; [exact F|exact X2]]. split; [exact L|]. split; [exact Q|]. split; [exact T|exact X1].
Qed.
Variable s : gsched.
Definition good_sentb : bool := forallb (fun y => forallb sentb (outs (snd y) (fst y) s)) iw.
Lemma good_sentb_ok : good_sentb = true -> good_sent uriR angR dstR ts8 tp8 Some w s.
Proof.
  unfold good_sentb. rewrite forallb_forall. intros H j m n l k E Ho. specialize (H (j, m) (proj2 (in_iw j m) E)). cbn [fst snd] in H. rewrite forallb_forall in H.
  exact (sentb_ok n l k (H _ Ho)).
Qed.
Definition settledb (p : name) : bool := forallb (fun y => (gc_max (b_conf (snd y)) =? 1)%N && caseb2 (b_conf (snd y)) (brun (snd y) (fst y) s) p) iw.
Lemma settledb_ok p : settledb p = true -> all_settled uriR angR dstR w s.
Proof.
  unfold settledb. rewrite forallb_forall. intros H i b E. specialize (H (i, b) (proj2 (in_iw i b) E)). cbn [fst snd] in H. apply andb_prop in H as [M H]. apply N.eqb_eq in M.
  destruct (caseb2_ok _ _ _ H) as (A1 & A2 & _). auto.
Qed.
Definition currentb : bool := forallb (fun y => forallb (fun x => forallb (fun l =>
  negb (eqb (l_origin l) (bname (snd y))) || existsb (fun l1 => eqb (l_key l1) (l_key l) && (l_seq l1 =? l_seq l)%N) (contents (g_db (bstate (snd x) (fst x) s))))
  (contents (g_db (bstate (snd y) (fst y) s)))) iw) iw.
Lemma currentb_ok : currentb = true -> all_current uriR angR dstR w s.
Proof.
  unfold currentb. rewrite forallb_forall. intros H i b j m l E E' Hl Ho _. specialize (H (j, m) (proj2 (in_iw j m) E')). rewrite forallb_forall in H.
  specialize (H (i, b) (proj2 (in_iw i b) E)). cbn [fst snd] in H. rewrite forallb_forall in H. specialize (H l Hl). rewrite Ho, eqb_refl in H. cbn [negb orb] in H.
  apply existsb_exists in H as (l1 & H1 & H). apply andb_prop in H as [K Q]. apply (proj1 (eqb_eq _ _)) in K. apply N.eqb_eq in Q. exists l1. auto.
Qed.
Definition plainb (p : name) : bool := forallb (fun b => negb (eqb p (bname b)) && forallb (fun x => negb (eqb p (fst (fst x)))) (u_nbs (b_start b))) w.
Lemma plainb_ok p : plainb p = true -> plain w p.
Proof.
  unfold plainb. rewrite forallb_forall. intros H b Hb. specialize (H b Hb). apply andb_prop in H as [A B]. rewrite forallb_forall in B. split.
  - intros X. rewrite X, eqb_refl in A. discriminate A.
  - intros u k Hx. specialize (B _ Hx). cbn [fst] in B. rewrite eqb_refl in B. discriminate B.
Qed.
Definition linksb : bool := forallb (fun b =>
  forallb (fun x => (snd x mod UNIT =? 0) && (0 <? snd x) && forallb (fun y => Bool.eqb (eqb (fst (fst x)) (fst (fst y))) (eqb (snd (fst x)) (snd (fst y)))) (u_nbs (b_start b))) (u_nbs (b_start b))) w.
Lemma linksb_ok : linksb = true -> good_links w.
Proof.
  unfold linksb. rewrite forallb_forall. intros H b Hb. specialize (H b Hb). rewrite forallb_forall in H. split.
  - intros n u k Hx. specialize (H _ Hx). apply andb_prop in H as [H _]. apply andb_prop in H as [A B]. cbn [snd] in A, B. apply Z.eqb_eq in A. apply Z.ltb_lt in B.
    assert (U : 0 < UNIT) by reflexivity. pose proof (Z.div_mod k UNIT ltac:(lia)) as D. exists (k / UNIT). split; [unfold of_int; lia|]. nia.
  - intros n n' u u' k k' Hx Hy. specialize (H _ Hx). apply andb_prop in H as [_ H]. rewrite forallb_forall in H. specialize (H _ Hy). cbn [fst snd] in H. apply Bool.eqb_prop in H.
    split; intros X; [rewrite <- X, eqb_refl in H|rewrite <- X, (eqb_refl u) in H]; [symmetry in H|]; now apply (proj1 (eqb_eq _ _)) in H.
Qed.
Definition namesb (net : name) : bool :=
  negb (existsb (eqb (gen "nlsr"%string)) net) && negb (existsb (eqb (gen "LSA"%string)) net) && nodupb (map bname w) &&
  forallb (fun b => eqb (c_network (gc (b_conf b))) net && eqb (bname b) (net ++ b_site b) && eqb (c_lsaprefix (gc (b_conf b))) (lsa_prefix net) &&
    (Z.of_nat (length (lsa_prefix net ++ b_site b)) + 4 <? 2 ^ 63)) w.
Lemma namesb_ok net : namesb net = true -> one_network w.
Proof.
  unfold namesb. intros H. apply andb_prop in H as [H D]. apply andb_prop in H as [H C]. apply andb_prop in H as [A B]. apply nodupb_ok in C. rewrite forallb_forall in D.
  assert (X : forall z, negb (existsb (eqb z) net) = true -> ~ In z net).
  { intros z Hz Hi. rewrite (proj2 (existsb_exists _ _)) in Hz; [discriminate Hz|]. exists z. split; [exact Hi|apply eqb_refl]. }
  split.
  - exists net. split; [now apply X|]. split; [now apply X|]. intros b Hb. specialize (D b Hb). apply andb_prop in D as [D D4]. apply andb_prop in D as [D D3]. apply andb_prop in D as [D1 D2].
    apply (proj1 (eqb_eq _ _)) in D1, D2, D3. apply Z.ltb_lt in D4. auto.
  - intros i j b m E E' En. assert (L : forall i b, nth_error w i = Some b -> (i < length (map bname w))%nat).
    { intros i0 b0 H0. rewrite map_length. apply nth_error_Some. congruence. }
    apply (proj1 (NoDup_nth_error (map bname w)) C); [exact (L _ _ E)|]. rewrite (map_nth_error bname _ _ E), (map_nth_error bname _ _ E'). now rewrite En.
Qed.
End B.

(** ** The case *)

Definition boxN (me a b : name) (r : string) (ka kb : Z) (own : plist) : box :=
  Box (gcN 1 me) (nm ["site"; r]%string) (GRun None 0 T0 [(a, faceN a, of_int ka); (b, faceN b, of_int kb)] own None []).
Definition box1 : box := boxN selfX farX thirdX "r1" 10 25 [].
Definition box2 : box := boxN farX selfX thirdX "r2" 10 5 [].
Definition box3 : box := boxN thirdX selfX farX "r3" 25 5 [(X_Lsdb.pX, (of_int 7, [""%string]))].
Definition wN : list box := [box1; box2; box3].
Definition riseN (i : nat) (me a b : name) : gsched := map (pair i) (map at_
  [GvHello (HvDataset [(300, faceN a); (301, faceN b)])%N; GvFib (FvRegOk 2); GvFib (FvRegOk 4);
   GvHello (HvData 0 (helloN me a)); GvHello (HvData 2 (helloN me b)); GvTick (10 * SEC); GvDb (EFire 2)]).
(** Router [i] learns of, asks router [j] for, and gets its LSA of type [t], which is [l]. *)
Definition getN (i j : nat) (m : box) (t : ltype) (fid : nat) (l : lsa) : gsched :=
  [(i, at_ (GvDb (ESync (buser m t) (l_seq l) 300))); (j, at_ (GvDb (EInterest (buser m t ++ [number_comp (l_seq l)]) true 1 7)));
   (i, at_ (GvDb (EFetchDone fid (dec_lsa tp8 Some t (enc_lsa ts8 l)))))].
Definition adjN (n : name) (k : Z) : adjacent := Adj n (faceN n) (of_int k) SActive 0 0.
Definition alsaN (o a b : name) (ka kb : Z) : lsa := Lsa o 1 (T0 + 3600 * SEC) (BAdj [adjN a ka; adjN b kb]).
Definition nlsaN (o : name) (l : npl) : lsa := Lsa o 1 (T0 + 3600 * SEC) (BName l).
Definition adj1 := alsaN selfX farX thirdX 10 25.
Definition adj2 := alsaN farX selfX thirdX 10 5.
Definition adj3 := alsaN thirdX selfX farX 25 5.
Definition name1 := nlsaN selfX [].
Definition name2 := nlsaN farX [].
Definition name3 := nlsaN thirdX [(X_Lsdb.pX, of_int 7)].
Definition sN : gsched :=
  riseN 0 selfX farX thirdX ++ riseN 1 farX selfX thirdX ++ riseN 2 thirdX selfX farX ++
  getN 0 1 box2 TAdj 0 adj2 ++ getN 0 2 box3 TAdj 1 adj3 ++ getN 0 1 box2 TName 2 name2 ++ getN 0 2 box3 TName 3 name3 ++
  getN 1 0 box1 TAdj 0 adj1 ++ getN 1 2 box3 TAdj 1 adj3 ++ getN 1 0 box1 TName 2 name1 ++ getN 1 2 box3 TName 3 name3 ++
  getN 2 0 box1 TAdj 0 adj1 ++ getN 2 1 box2 TAdj 1 adj2 ++ getN 2 0 box1 TName 2 name1 ++ getN 2 1 box2 TName 3 name2 ++
  map (fun i => (i, at_ (GvTick (15 * SEC)))) [0; 1; 2]%nat ++ map (fun i => (i, at_ (GvCalc 0))) [0; 1; 2]%nat.

Lemma sN_possible : gpossibleb wN [] sN = true.
Proof. vm_cast_no_check (eq_refl true). Qed.
Lemma sN_checks : good_sentb wN sN && settledb wN sN X_Lsdb.pX && currentb wN sN && plainb wN X_Lsdb.pX && linksb wN && namesb wN netX = true.
Proof. vm_cast_no_check (eq_refl true). Qed.
Lemma sN_topology : P_Router3.topology (b_conf box1) uriR angR dstR (brun box1 0 sN) = topoN.
Proof. vm_cast_no_check (eq_refl topoN). Qed.
Lemma sN_serves : listsb (bdb uriR angR dstR box1 0 sN) thirdX X_Lsdb.pX = true.
Proof. vm_cast_no_check (eq_refl true). Qed.
(** r1 sends packets for the prefix to r2, r2 to r3. *)
Lemma sN_faces : map (fun x => faces_for (b_conf (snd x)) uriR angR dstR (brun (snd x) (fst x) sN) X_Lsdb.pX) (combine [0; 1; 2]%nat wN) = [[uri2]; [uri3]; []].
Proof. vm_cast_no_check (eq_refl [[uri2]; [uri3]; []]). Qed.

Example C89_delivered_example :
  one_network wN /\ good_links wN /\ gpossible uriR angR dstR ts8 tp8 Some wN sN /\ good_sent uriR angR dstR ts8 tp8 Some wN sN /\
  all_settled uriR angR dstR wN sN /\ all_current uriR angR dstR wN sN /\ plain wN X_Lsdb.pX /\
  nth_error wN 0 = Some box1 /\ origin_of uriR angR dstR wN sN X_Lsdb.pX thirdX /\
  walk (link uriR angR dstR wN sN) (bname box1) thirdX 15 /\ 15 < INF_DISTANCE.
Proof.
  pose proof sN_checks as H. apply andb_prop in H as [H C6]. apply andb_prop in H as [H C5]. apply andb_prop in H as [H C4]. apply andb_prop in H as [H C3]. apply andb_prop in H as [C1 C2].
  pose proof (namesb_ok wN netX C6) as A1. pose proof (linksb_ok wN C5) as A2.
  pose proof (gpossibleb_ok wN sN [] (gpossible_nil _ _ _ _ _ _ _) sN_possible : gpossible uriR angR dstR ts8 tp8 Some wN sN) as A3.
  pose proof (good_sentb_ok wN sN C1) as A4. pose proof (settledb_ok wN sN X_Lsdb.pX C2) as A5. pose proof (currentb_ok wN sN C3) as A6. pose proof (plainb_ok wN X_Lsdb.pX C4) as A7.
  split; [exact A1|]. split; [exact A2|]. split; [exact A3|]. split; [exact A4|]. split; [exact A5|]. split; [exact A6|]. split; [exact A7|]. split; [reflexivity|]. split; [|split; [|reflexivity]].
  - apply (@C89_prefixes uriR angR dstR ts8 tp8 Some wN sN 0 box1 thirdX X_Lsdb.pX A1 A3 A4 A6 eq_refl). exact (proj1 (listsb_ok _ _ _) sN_serves).
  - assert (L : forall u v k, usable topoN u v k -> link uriR angR dstR wN sN u v k).
    { intros u v k (a & b & X & Y & _ & _ & K). rewrite <- sN_topology in X, Y. exists a, b.
      split; [exact (proj1 (@C89_topology uriR angR dstR ts8 tp8 Some wN sN 0 box1 u v a A1 A2 A3 A4 A5 A6 eq_refl) X)|].
      split; [exact (proj1 (@C89_topology uriR angR dstR ts8 tp8 Some wN sN 0 box1 v u b A1 A2 A3 A4 A5 A6 eq_refl) Y)|exact K]. }
    change (bname box1) with selfX. change 15 with (10 + (5 + 0)). apply (@walk_cons _ _ _ _ _ _ _ (L _ _ _ linkN1)). apply (@walk_cons _ _ _ _ _ _ _ (L _ _ _ linkN2)). constructor.
Qed.
(** and so a packet that starts at r1 reaches r3. *)
Example C89_delivered_case : arrives (hands uriR angR dstR wN sN X_Lsdb.pX) (origin_of uriR angR dstR wN sN X_Lsdb.pX) selfX.
Proof.
  destruct C89_delivered_example as (A1 & A2 & A3 & A4 & A5 & A6 & A7 & A8 & A9 & A10 & A11).
  exact (proj1 (@C89_delivered uriR angR dstR ts8 tp8 Some wN sN X_Lsdb.pX 0 box1 thirdX 15 A1 A2 A3 A4 A5 A6 A7 A8 A9 A10 A11)).
Qed.

Print Assumptions C89_topology.
Print Assumptions C89_prefixes.
Print Assumptions C89_faces.
Print Assumptions C89_delivered.

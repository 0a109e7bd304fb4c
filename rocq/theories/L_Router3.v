(** How the database and the routing table move together. *)
From Coq Require Import Sorting.Permutation.
From Verif Require Import Base M_Nexthop M_Tlv M_Adj M_Lsa M_Lsdb L_Lsdb S_Lsdb L_Lsdb2 L_Lsdb3 L_Lsdb6 M_LinkState M_Hyperbolic M_RoutingTable
  M_Npt S_Npt L_Npt4 M_Fib S_Pipe M_Prefix M_Hello M_Router S_Router L_Router L_Router2.
Open Scope Z_scope.
Set Implicit Arguments.

(** *** The database *)

Lemma filter_rel_notes o : out_notes (filter rel o) = out_notes o.
Proof.
  induction o as [|x o IH]; [reflexivity|]. cbn [filter]. unfold out_notes in *.
  destruct (rel x) eqn:E; cbn [flat_map]; rewrite IH; [reflexivity|]. destruct x; try reflexivity. discriminate.
Qed.

Definition key_of (x : kind * lsa) : name * ltype := l_key (snd x).
Definition body_at (k : name * ltype) (s : st) : option body := option_map l_body (find_lsa k s).

(** One notification at most, and it is about the only LSA whose body changed. *)
Lemma eff_notes c s x s' o : invS None s -> eff c s x s' o ->
  (out_notes o = [] /\ forall k, body_at k s' = body_at k s) \/
  (exists kd l a r, out_notes o = [(kd, l, a, r)] /\ (forall k, k <> l_key l -> body_at k s' = body_at k s) /\
     match kd with
     | KInstalled => body_at (l_key l) s = None /\ body_at (l_key l) s' <> None
     | KUpdated => body_at (l_key l) s <> None /\ body_at (l_key l) s' <> None
     | KRemoved => body_at (l_key l) s <> None /\ body_at (l_key l) s' = None
     end).
Proof.
  intros I E.
  assert (Off : forall l, offered s l s' ->
    (out_notes (offer_outs (find_lsa (l_key l) s) l) = [] /\ forall k, body_at k s' = body_at k s) \/
    (exists kd l0 a r, out_notes (offer_outs (find_lsa (l_key l) s) l) = [(kd, l0, a, r)] /\
       (forall k, k <> l_key l0 -> body_at k s' = body_at k s) /\
       match kd with
       | KInstalled => body_at (l_key l0) s = None /\ body_at (l_key l0) s' <> None
       | KUpdated => body_at (l_key l0) s <> None /\ body_at (l_key l0) s' <> None
       | KRemoved => body_at (l_key l0) s <> None /\ body_at (l_key l0) s' = None
       end)).
  { intros l O. unfold body_at. unfold offered in O. unfold offer_outs. destruct (find_lsa (l_key l) s) as [old|] eqn:F.
    - unfold offer in O. destruct (l_seq old <? l_seq l)%N.
      + unfold upd_notify. destruct (update_body (l_body old) (l_body l)) as [[[u b] ad] rm] eqn:U.
        destruct u.
        * right. exists KUpdated, l, ad, rm. split; [reflexivity|]. split.
          -- intros k Hk. rewrite O. eqb_case k (l_key l); [contradiction|reflexivity].
          -- rewrite F, O. eqb_case (l_key l) (l_key l); [|contradiction]. split; discriminate.
        * left. split; [reflexivity|]. intros k. rewrite O. eqb_case k (l_key l); [|reflexivity].
          rewrite F. cbn. unfold merged. rewrite U. cbn.
          assert (b = l_body old); [|congruence].
          unfold update_body in U. destruct (l_body old) as [m|r th|m], (l_body l) as [n|r' th'|n]; try congruence.
          -- destruct adl_eqb; congruence.
          -- destruct (_ && _); congruence.
          -- destruct (update_name m n) as [[[u1 r1] a1] d1] eqn:V. injection U as -> <- _ _.
             unfold update_name in V. f_equal. injection V as V1 V2 _ _. subst r1.
             apply Bool.orb_false_iff in V1 as [V1 V2].
             destruct (names_diff n m); [|discriminate]. destruct (names_diff m n); [|discriminate]. reflexivity.
      + left. split; [reflexivity|]. intros k. rewrite O. eqb_case k (l_key l); [now rewrite F|reflexivity].
    - right. exists KInstalled, l, [], []. split; [reflexivity|]. split.
      + intros k Hk. rewrite O. eqb_case k (l_key l); [contradiction|reflexivity].
      + rewrite F, O. eqb_case (l_key l) (l_key l); [|contradiction]. split; [reflexivity|discriminate]. }
  assert (Same : forall l, find_lsa (l_key l) s = Some l ->
     (forall k, find_lsa k s' = if eqb k (l_key l) then None else find_lsa k s) ->
     exists kd l0 a r, out_notes [ONotify KRemoved l [] []] = [(kd, l0, a, r)] /\
       (forall k, k <> l_key l0 -> body_at k s' = body_at k s) /\
       match kd with
       | KInstalled => body_at (l_key l0) s = None /\ body_at (l_key l0) s' <> None
       | KUpdated => body_at (l_key l0) s <> None /\ body_at (l_key l0) s' <> None
       | KRemoved => body_at (l_key l0) s <> None /\ body_at (l_key l0) s' = None
       end).
  { intros l F O. exists KRemoved, l, [], []. split; [reflexivity|]. unfold body_at. split.
    - intros k Hk. rewrite O. eqb_case k (l_key l); [contradiction|reflexivity].
    - rewrite F, O. eqb_case (l_key l) (l_key l); [|contradiction]. split; [discriminate|reflexivity]. }
  destruct E as [F _|fid f cq q origin ct t l _ _ _ _ _ _ _ _ _ _ O _|t q0 b _ Bt _ _ _ _ O|l tid _ F Ho Hk _|l tid _ F Ho Hk _|l tid _ F Ho Hk _].
  - left. split; [reflexivity|]. intros k. unfold body_at. now rewrite F.
  - now apply Off.
  - set (l := own c t (q0 + 1) (e_sys (fst x)) b) in *.
    assert (K : l_key l = (c_self c, t)) by (unfold l, own, l_key, l_type; cbn; now rewrite Bt).
    specialize (Off l O). rewrite K in Off.
    replace (out_notes _) with (out_notes (offer_outs (find_lsa (c_self c, t) s) l)); [exact Off|].
    unfold out_notes. rewrite !flat_map_app. cbn [flat_map app]. destruct (publishes _ _); reflexivity.
  - left. split; [reflexivity|]. intros k. unfold body_at. rewrite Hk.
    eqb_case k (l_key l); [rewrite F; reflexivity|reflexivity].
  - right. now apply Same.
  - right. assert (K : l_key l = (c_self c, TAdj)) by (apply (find_key I F)).
    rewrite <- K in F, Hk. now apply Same.
Qed.

Section Db.
Variables (c : conf) (uri_of : name -> string).
Notation self := (c_self c).

Definition own_after (b : bool) (x : kind * lsa) : bool :=
  if eqb (l_key (snd x)) (self, TAdj)
  then match fst x with KInstalled => true | KRemoved => false | KUpdated => b end else b.
Definition present (s : st) : bool := match find_lsa (self, TAdj) s with Some _ => true | None => false end.
Lemma present_body s : present s = match body_at (self, TAdj) s with Some _ => true | None => false end.
Proof. unfold present, body_at. now destruct find_lsa. Qed.

Lemma db_run ys s : invS None s ->
  let s' := fst (run (step c) s ys) in let o := snd (run (step c) s ys) in
  invS None s' /\ present s' = fold_left own_after (map two (out_notes o)) (present s) /\
  forall t, (forall x, In x (map two (out_notes o)) -> l_type (snd x) <> t) -> forall n, body_at (n, t) s' = body_at (n, t) s.
Proof.
  revert s. induction ys as [|y ys IH]; intros s I; [cbn; auto|]. cbn [run].
  pose proof (step_eff c y I) as E. apply (eff_notes I) in E. rewrite filter_rel_notes in E.
  pose proof (invS_step c y I) as I1. destruct (step c s y) as [s1 o1]. cbn [fst snd] in *.
  specialize (IH s1 I1). destruct (run (step c) s1 ys) as [s2 o2]. cbn [fst snd] in *.
  destruct IH as (I2 & P2 & B2). split; [exact I2|].
  assert (App : out_notes (o1 ++ o2) = out_notes o1 ++ out_notes o2) by apply flat_map_app.
  rewrite App, map_app, fold_left_app. split.
  - rewrite P2. f_equal. rewrite !present_body. destruct E as [[-> E]|(kd & l & a & r & -> & E1 & E2)].
    + cbn. now rewrite E.
    + cbn. unfold own_after. cbn [snd fst two]. destruct (eq_dec (l_key l) (self, TAdj)) as [K|K].
      * rewrite K in *. eqb_case (self, TAdj) (self, TAdj); [|contradiction].
        destruct kd, E2 as [X Y]; destruct (body_at (self, TAdj) s), (body_at (self, TAdj) s1); congruence.
      * eqb_case (l_key l) (self, TAdj); [contradiction|]. rewrite E1 by congruence. reflexivity.
  - intros t H n. rewrite B2 by (intros x Hx; apply H, in_or_app; auto).
    destruct E as [[_ E]|(kd & l & a & r & En & E1 & _)]; [apply E|]. apply E1. intros K.
    apply (H (kd, l)); [rewrite En; left; reflexivity|]. cbn [snd]. unfold l_key in K. congruence.
Qed.

Lemma dbo_map o : dbo (map PDb o) = o.
Proof. unfold dbo. induction o as [|x o IH]; [reflexivity|]. cbn. now rewrite IH. Qed.
Lemma dbo_app a b : dbo (a ++ b) = dbo a ++ dbo b.
Proof. apply flat_map_app. Qed.

Lemma pstep_steps s x : exists ys,
  run (step c) (p_db s) ys = (p_db (fst (pstep uri_of c s x)), dbo (snd (pstep uri_of c s x))) /\
  (forall e fid l, In (e, EFetchDone fid l) ys -> exists sys a, x = PvDb sys a (EFetchDone fid l)) /\
  (forall e v, In (e, v) ys -> e_adl e = match x with PvDb _ a _ => a | PvCmd _ a _ _ => a end).
Proof.
  unfold pstep. destruct (s_dead (p_db s)) eqn:D; [exists []; split; [reflexivity|split; [intros ? ? ? []|intros ? ? []]]|].
  destruct x as [sys a v|sys a m w]; cbn [pstep_live].
  - assert (X : v <> EBuildName -> exists ys,
      run (step c) (p_db s) ys = (let (d, o) := step c (p_db s) (Env sys (pl_info (p_list s)) a, v) in (d, o)) /\
      (forall e fid l, In (e, EFetchDone fid l) ys -> exists sys' a', PvDb sys a v = PvDb sys' a' (EFetchDone fid l)) /\
      (forall e v, In (e, v) ys -> e_adl e = a)).
    { intros _. exists [(Env sys (pl_info (p_list s)) a, v)]. split; [|split].
      - cbn [run]. destruct (step c (p_db s) _). now rewrite app_nil_r.
      - intros e fid l [H|[]]. injection H as <- ->. eauto.
      - intros e v' [H|[]]. now injection H as <- _. }
    destruct v; try (destruct X as (ys & X1 & X2); [discriminate|]; exists ys; split; [|exact X2];
      rewrite X1; destruct (step c (p_db s) _) as [dd oo]; cbn [fst snd p_db]; now rewrite dbo_map).
    exists []. split; [reflexivity|split; [intros ? ? ? []|intros ? ? []]].
  - unfold do_cmd. destruct (list_cmd m (p_list s)) as [ch p']. destruct ch.
    + exists [(Env sys (pl_info p') a, EBuildName)]. split; [|split].
      * cbn [run]. unfold step. rewrite D. cbn [step_live]. destruct (build_name c _ (p_db s)) as [d o].
        destruct (saves m); [destruct (after_cmd _ _ _ _)|]; cbn [fst snd p_db]; now rewrite dbo_app, dbo_map.
      * intros e fid l [H|[]]. discriminate H.
      * intros e v' [H|[]]. now injection H as <- _.
    + exists []. split; [|split; intros; contradiction].
      cbn [run]. destruct (saves m); [destruct (after_cmd _ _ _ _)|]; reflexivity.
Qed.

Lemma prun_steps xs s : exists ys,
  run (step c) (p_db s) ys = (p_db (fst (run (pstep uri_of c) s xs)), dbo (snd (run (pstep uri_of c) s xs))) /\
  (forall e fid l, In (e, EFetchDone fid l) ys -> exists sys a, In (PvDb sys a (EFetchDone fid l)) xs) /\
  (forall e v, In (e, v) ys -> exists x, In x xs /\ e_adl e = match x with PvDb _ a _ => a | PvCmd _ a _ _ => a end).
Proof.
  revert s. induction xs as [|x xs IH]; intros s; [exists []; split; [reflexivity|split; [intros ? ? ? []|intros ? ? []]]|].
  destruct (pstep_steps s x) as (y1 & R1 & F1 & A1). cbn [run]. destruct (pstep uri_of c s x) as [s1 o1].
  cbn [fst snd] in *. destruct (IH s1) as (y2 & R2 & F2 & A2). destruct (run (pstep uri_of c) s1 xs) as [s2 o2].
  cbn [fst snd] in *. exists (y1 ++ y2). rewrite run_app, R1, R2, dbo_app. split; [reflexivity|]. split.
  - intros e fid l H. apply in_app_or in H as [H|H].
    + destruct (F1 _ _ _ H) as (sys & a & ->). exists sys, a. now left.
    + destruct (F2 _ _ _ H) as (sys & a & X). exists sys, a. now right.
  - intros e v H. apply in_app_or in H as [H|H].
    + exists x. split; [now left|now apply (A1 e v)].
    + destruct (A2 _ _ H) as (x' & X & Y). exists x'. split; [now right|exact Y].
Qed.
End Db.

(** *** What a calculation reads *)

Lemma In_adj_view s L a : invS None s -> (forall l, In l L <-> In l (contents s) /\ l_type l = TAdj) ->
  (In a (adj_view L) <-> exists al, body_at (al_origin a, TAdj) s = Some (BAdj al) /\
                           al_links a = map (fun a => (a_name a, link_cost a)) al).
Proof.
  intros I HL. unfold adj_view. rewrite in_flat_map. split.
  - intros (l & H1 & H2). apply HL in H1 as [H1 H3]. apply (In_contents l I) in H1.
    destruct (l_body l) as [al|r th|m] eqn:B; [|destruct H2|destruct H2]. destruct H2 as [<-|[]]. exists al. cbn.
    split; [|reflexivity]. unfold l_key in H1. rewrite H3 in H1. unfold body_at. rewrite H1. cbn. now rewrite B.
  - intros (al & H1 & H2). unfold body_at in H1. destruct (find_lsa (al_origin a, TAdj) s) as [l|] eqn:F; [|discriminate].
    injection H1 as H1. pose proof (find_key I F) as K. exists l. split.
    + apply HL. injection K as K1 K2. split; [|exact K2]. apply (In_contents l I). unfold l_key. now rewrite K1, K2.
    + rewrite H1. left. injection K as K1 _. destruct a as [ao al']. cbn in *. now subst.
Qed.

Lemma NoDup_keys_adj L : NoDup (map l_key L) -> NoDup (map al_origin (adj_view L)).
Proof.
  induction L as [|l L IH]; [constructor|]. cbn [map]. intros N. inversion N as [|? ? H1 H2]; subst. clear N.
  unfold adj_view. cbn [flat_map]. fold (adj_view L). destruct (l_body l) as [al|r th|m] eqn:B; [|now apply IH|now apply IH].
  cbn [map al_origin app]. constructor; [|now apply IH]. intros H. apply H1.
  apply in_map_iff in H as (a & E & H). unfold adj_view in H. apply in_flat_map in H as (l' & Hl & H).
  apply in_map_iff. exists l'. split; [|exact Hl]. destruct (l_body l') eqn:B'; [|destruct H|destruct H].
  destruct H as [<-|[]]. cbn in E. unfold l_key, l_type. now rewrite B, B', E.
Qed.

Lemma NoDup_arrange ord ks : NoDup ks -> NoDup (arrange ord ks).
Proof.
  intros N. unfold arrange. apply NoDup_app_intro; [apply NoDup_filter, NoDup_nodup|now apply NoDup_filter|].
  intros x H1 H2. apply filter_In in H1 as [H1 _]. apply filter_In in H2 as [_ H2]. apply nodup_In in H1.
  destruct (in_dec eq_dec x ord); [discriminate|contradiction].
Qed.

Lemma In_type_origins t s n : In n (type_origins t s) <-> In (n, t) (keys (s_store s)).
Proof.
  unfold type_origins. rewrite in_map_iff. split.
  - intros ([o t'] & E & H). apply filter_In in H as [H X]. cbn in *. apply eqb_eq in X. now subst.
  - intros H. exists (n, t). split; [reflexivity|]. apply filter_In. split; [exact H|]. cbn. apply eqb_refl.
Qed.

Lemma NoDup_type_origins t s : invS None s -> NoDup (type_origins t s).
Proof.
  intros I. pose proof (iS_nodup I) as N. unfold type_origins. revert N. generalize (keys (s_store s)).
  induction l as [|[o t'] l IH]; [constructor|]. intros N. inversion N as [|? ? H1 H2]; subst. clear N. cbn [filter].
  destruct (eqb (snd (o, t')) t) eqn:E; [|now apply IH]. cbn in *. apply eqb_eq in E. subst t'. constructor; [|now apply IH].
  intros H. apply H1. apply in_map_iff in H as ([o2 t2] & E & H). apply filter_In in H as [H X]. cbn in *.
  apply eqb_eq in X. now subst.
Qed.

Lemma In_lsas_of t ord s l : invS None s -> (In l (lsas_of t ord s) <-> In l (contents s) /\ l_type l = t).
Proof.
  intros I. unfold lsas_of. rewrite in_flat_map. split.
  - intros (o & _ & H). destruct (find_lsa (o, t) s) as [l'|] eqn:F; [|destruct H]. destruct H as [<-|[]].
    pose proof (find_key I F) as K. injection K as K1 K2. split; [|exact K2]. apply (In_contents l' I). unfold l_key. now rewrite K1, K2.
  - intros [H T]. pose proof H as H0. apply (In_contents l I) in H. exists (l_origin l). unfold l_key in H. rewrite T in H. rewrite H.
    split; [|now left]. apply In_arrange, In_type_origins. rewrite <- (contents_keys I). apply in_map_iff. exists l.
    split; [unfold l_key; now rewrite T|exact H0].
Qed.

Lemma NoDup_lsas_of t ord s : invS None s -> NoDup (map l_key (lsas_of t ord s)).
Proof.
  intros I. unfold lsas_of. pose proof (NoDup_arrange ord (NoDup_type_origins t I)) as N. revert N.
  generalize (arrange ord (type_origins t s)). induction l as [|o l IH]; [constructor|].
  intros N. inversion N as [|? ? H1 H2]; subst. clear N. cbn [flat_map]. rewrite map_app. destruct (find_lsa (o, t) s) as [l'|] eqn:F; [|now apply IH].
  pose proof (find_key I F) as K. cbn [map app]. constructor; [|now apply IH].
  rewrite K. intros H. apply H1. apply in_map_iff in H as (x & E & H). apply in_flat_map in H as (o2 & Ho & H).
  destruct (find_lsa (o2, t) s) as [x'|] eqn:F2; [|destruct H]. destruct H as [<-|[]].
  pose proof (find_key I F2) as K2. rewrite K2 in E. now injection E as ->.
Qed.

Lemma adj_same s s' L L' : invS None s -> invS None s' -> (forall n, body_at (n, TAdj) s' = body_at (n, TAdj) s) ->
  (forall l, In l L <-> In l (contents s) /\ l_type l = TAdj) -> NoDup (map l_key L) ->
  (forall l, In l L' <-> In l (contents s') /\ l_type l = TAdj) -> NoDup (map l_key L') ->
  Permutation (adj_view L) (adj_view L').
Proof.
  intros I I' B H1 N1 H2 N2. apply NoDup_Permutation.
  - eapply NoDup_map_inv, NoDup_keys_adj, N1.
  - eapply NoDup_map_inv, NoDup_keys_adj, N2.
  - intros a. rewrite (@In_adj_view s L a I H1), (@In_adj_view s' L' a I' H2). now rewrite B.
Qed.

Lemma In_adj_lsas s l : In l (adj_lsas s) <-> In l (contents s) /\ l_type l = TAdj.
Proof.
  unfold adj_lsas. rewrite filter_In. split; intros [H E]; (split; [exact H|]); [apply eqb_eq in E; exact E|rewrite E; apply eqb_refl].
Qed.
Lemma NoDup_filter_map A B (f : A -> B) p (l : list A) : NoDup (map f l) -> NoDup (map f (filter p l)).
Proof.
  induction l as [|x l IH]; [constructor|]. cbn [map filter]. inversion 1 as [|? ? H1 H2]; subst.
  destruct (p x); [|now apply IH]. cbn [map]. constructor; [|now apply IH]. intros X. apply H1.
  apply in_map_iff in X as (y & E & X). apply filter_In in X as [X _]. apply in_map_iff. eauto.
Qed.
Lemma NoDup_adj_lsas s : invS None s -> NoDup (map l_key (adj_lsas s)).
Proof. intros I. apply NoDup_filter_map. rewrite (contents_keys I). apply (iS_nodup I). Qed.

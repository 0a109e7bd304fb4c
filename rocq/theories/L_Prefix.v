(** Lemmas about the prefix list and about the own Name LSA under commands. *)
From Verif Require Import Base M_Nexthop M_Tlv M_Adj M_Lsa M_Lsdb S_Lsdb L_Lsdb L_Lsdb2 L_Lsdb3 L_Lsdb4
  M_Prefix S_Prefix.
Open Scope Z_scope.
Set Implicit Arguments.

(** ** The list *)

Definition srcs (m : plist) (n : name) : list string :=
  match get n m with Some (_, ss) => ss | None => [] end.

Lemma existsb_In A `{EqDec A} (x : A) l : existsb (eqb x) l = true <-> In x l.
Proof.
  rewrite existsb_exists. split; [|intros Hx; exists x; split; [exact Hx|apply eqb_refl]].
  intros (y & Hy & E). apply eqb_eq in E. now subst.
Qed.

Lemma existsb_In_false A `{EqDec A} (x : A) l : existsb (eqb x) l = false <-> ~ In x l.
Proof.
  pose proof (existsb_In x l) as I. destruct (existsb (eqb x) l).
  - split; [discriminate|]. intros X. exfalso. now apply X, I.
  - split; [|reflexivity]. intros _ X. apply I in X. discriminate.
Qed.

Definition wfp (m : plist) : Prop := NoDup (keys m) /\ forall n k ss, get n m = Some (k, ss) -> ss <> [].

Lemma insert_get n src k m n' :
  get n' (snd (pl_insert n src k m)) =
  if eqb n' n then Some (k, if existsb (eqb src) (srcs m n) then srcs m n else srcs m n ++ [src])
  else get n' m.
Proof.
  unfold pl_insert. fold (srcs m n). destruct (existsb _ _); cbn [snd]; apply get_set.
Qed.

Lemma insert_ret n src k m : fst (pl_insert n src k m) = negb (existsb (eqb src) (srcs m n)).
Proof. unfold pl_insert. fold (srcs m n). destruct (existsb _ _); reflexivity. Qed.

Lemma erase_get n src m n' :
  get n' (snd (pl_erase n src m)) =
  if eqb n' n then
    match get n m with
    | None => None
    | Some (k, ss) =>
        let ss' := filter (fun x => negb (eqb src x)) ss in
        if eqb ss' [] then None else Some (k, ss')
    end
  else get n' m.
Proof.
  unfold pl_erase. destruct (get n m) as [[k ss]|] eqn:E; cbn [snd].
  - destruct (eqb (filter _ ss) []); [apply get_del|apply get_set].
  - eqb_case n' n; [exact E|reflexivity].
Qed.

Lemma erase_ret n src m : fst (pl_erase n src m) = existsb (eqb src) (srcs m n).
Proof. unfold pl_erase, srcs. destruct (get n m) as [[k ss]|]; reflexivity. Qed.

Lemma wfp_insert n src k m : wfp m -> wfp (snd (pl_insert n src k m)).
Proof.
  intros [A B]. split.
  - unfold pl_insert. destruct (existsb _ _); cbn [snd]; now apply NoDup_set.
  - intros n' k' ss. rewrite insert_get. eqb_case n' n; [|eauto].
    intros E. injection E as <- <-. destruct (existsb _ _) eqn:X.
    + intros Y. unfold srcs in *. rewrite Y in X. discriminate.
    + destruct (srcs m n); discriminate.
Qed.

Lemma wfp_erase n src m : wfp m -> wfp (snd (pl_erase n src m)).
Proof.
  intros [A B]. split.
  - unfold pl_erase. destruct (get n m) as [[k ss]|]; cbn [snd]; [|exact A].
    destruct (eqb _ _); [now apply NoDup_del|now apply NoDup_set].
  - intros n' k' ss. rewrite erase_get. eqb_case n' n; [|eauto].
    destruct (get n m) as [[k0 ss0]|]; [|discriminate]. cbn zeta.
    destruct (eqb (filter _ ss0) []) eqn:X; [discriminate|]. intros E. injection E as <- <-.
    now apply eqb_neq in X.
Qed.

Lemma In_srcs_insert n src k m n' src' :
  In src' (srcs (snd (pl_insert n src k m)) n') <-> (n' = n /\ src' = src) \/ In src' (srcs m n').
Proof.
  unfold srcs at 1. rewrite insert_get. eqb_case n' n.
  - destruct (existsb (eqb src) (srcs m n)) eqn:X.
    + apply existsb_In in X. split; [auto|]. intros [[_ ->]|H]; auto.
    + rewrite in_app_iff. simpl. intuition.
  - fold (srcs m n'). intuition.
Qed.

Lemma In_srcs_erase n src m n' src' :
  In src' (srcs (snd (pl_erase n src m)) n') <-> ~ (n' = n /\ src' = src) /\ In src' (srcs m n').
Proof.
  unfold srcs at 1. rewrite erase_get. eqb_case n' n.
  - unfold srcs. destruct (get n m) as [[k ss]|]; [|simpl; tauto]. cbn zeta.
    assert (F : In src' (filter (fun x => negb (eqb src x)) ss) <-> src' <> src /\ In src' ss).
    { rewrite filter_In. eqb_case src src'; simpl; intuition congruence. }
    destruct (eqb (filter _ ss) []) eqn:X.
    + apply eqb_eq in X. rewrite X in F. simpl in F |- *. tauto.
    + tauto.
  - fold (srcs m n'). intuition.
Qed.

Lemma names_srcs m n : wfp m -> (In n (pl_names m) <-> exists src, In src (srcs m n)).
Proof.
  intros [_ B]. unfold pl_names, srcs. rewrite get_Some_keys. split.
  - intros [[k ss] E]. rewrite E. destruct ss as [|x ss]; [now apply B in E|]. exists x. now left.
  - intros [src H]. destruct (get n m) as [v|]; [eauto|destruct H].
Qed.

(** ** Runs of requests *)

Lemma after_snoc h r : after (h ++ [r]) = snd (do_req (after h) r).
Proof. unfold after. now rewrite fold_left_app. Qed.

Lemma wants_from_snoc h r n src b : wants_from b (h ++ [r]) n src =
  match r with
  | RAdv n' src' _ => if eqb n n' && eqb src src' then true else wants_from b h n src
  | RWd n' src' => if eqb n n' && eqb src src' then false else wants_from b h n src
  end.
Proof.
  revert b. induction h as [|[n1 s1 k1|n1 s1] h IH]; intros b; cbn [wants_from app].
  - destruct r; reflexivity.
  - apply IH.
  - apply IH.
Qed.

Lemma wants_snoc h r n src : wants (h ++ [r]) n src =
  match r with
  | RAdv n' src' _ => if eqb n n' && eqb src src' then true else wants h n src
  | RWd n' src' => if eqb n n' && eqb src src' then false else wants h n src
  end.
Proof. apply wants_from_snoc. Qed.

Lemma last_cost_snoc h r n k : last_cost k (h ++ [r]) n =
  match r with
  | RAdv n' _ cost => if eqb n n' then Some cost else last_cost k h n
  | RWd _ _ => last_cost k h n
  end.
Proof.
  revert k. induction h as [|[n1 s1 k1|n1 s1] h IH]; intros k; cbn [last_cost app].
  - destruct r; reflexivity.
  - apply IH.
  - apply IH.
Qed.

Lemma wfp_after h : wfp (after h).
Proof.
  induction h as [|r h IH] using rev_ind; [split; [constructor|discriminate]|].
  rewrite after_snoc. destruct r; [now apply wfp_insert|now apply wfp_erase].
Qed.

Lemma srcs_after h n src : In src (srcs (after h) n) <-> wants h n src = true.
Proof.
  induction h as [|r h IH] using rev_ind; [simpl; split; [tauto|discriminate]|].
  rewrite after_snoc, wants_snoc. destruct r as [n' s' k|n' s']; cbn [do_req].
  - rewrite In_srcs_insert, IH. eqb_case n n'; simpl; [eqb_case src s'; intuition congruence|].
    intuition congruence.
  - rewrite In_srcs_erase, IH. eqb_case n n'; simpl; [eqb_case src s'; intuition congruence|].
    intuition congruence.
Qed.

Lemma cost_after h n k ss : get n (after h) = Some (k, ss) -> last_cost None h n = Some k.
Proof.
  revert k ss. induction h as [|r h IH] using rev_ind; intros k ss; [discriminate|].
  rewrite after_snoc, last_cost_snoc. destruct r as [n' s' k'|n' s']; cbn [do_req].
  - rewrite insert_get. destruct (eqb n n'); [congruence|eauto].
  - rewrite erase_get. eqb_case n n'; [|eauto].
    destruct (get n' (after h)) as [[k0 ss0]|] eqn:X; [|discriminate]. cbn zeta.
    destruct (eqb _ _); [discriminate|]. intros Y. injection Y as -> _. eauto.
Qed.

(** ** What [update] does to costs *)

Lemma NoDup_npl_of l (m : npl) : NoDup (keys m) ->
  NoDup (keys (fold_left (fun m p => set (fst p) (snd p) m) l m)).
Proof. revert m. induction l as [|a l IH]; intros m H; [exact H|]. apply IH. now apply NoDup_set. Qed.

Lemma npl_of_get (l : list (name * Z)) n : NoDup (map fst l) -> get n (npl_of_list l) = get n l.
Proof.
  unfold npl_of_list. intros H.
  assert (G : forall m : npl, (forall x, In x (map fst l) -> ~ In x (keys m)) ->
    get n (fold_left (fun m p => set (fst p) (snd p) m) l m) =
    match get n m with Some v => Some v | None => get n l end).
  { induction l as [|[a v] l IH]; intros m Hm; [simpl; destruct (get n m); reflexivity|].
    cbn [fold_left fst snd]. inversion H; subst. rewrite IH.
    - rewrite get_set. cbn [get]. eqb_case n a.
      + destruct (get a m) eqn:X; [|reflexivity]. exfalso. apply (Hm a); [now left|].
        apply get_Some_keys. eauto.
      + reflexivity.
    - assumption.
    - intros x Hx. rewrite in_keys_set. intros [-> |Y]; [tauto|]. apply (Hm x); [now right|exact Y]. }
  rewrite G; [reflexivity|]. simpl. tauto.
Qed.

Lemma get_fold_set (adds m : npl) n : NoDup (keys adds) ->
  get n (fold_left (fun m p => set (fst p) (snd p) m) adds m) =
  match get n adds with Some v => Some v | None => get n m end.
Proof.
  revert m. induction adds as [|[a v] adds IH]; intros m H; [reflexivity|].
  cbn [fold_left fst snd get]. inversion H as [|? ? Hx Hy]; subst. rewrite IH by exact Hy. rewrite get_set.
  eqb_case n a; [|reflexivity].
  destruct (get a adds) eqn:X; [|reflexivity]. exfalso. apply Hx. apply get_Some_keys. eauto.
Qed.

Lemma get_fold_del (rems m : npl) n :
  get n (fold_left (fun m p => del (fst p) m) rems m) =
  if existsb (eqb n) (keys rems) then None else get n m.
Proof.
  revert m. induction rems as [|[a v] rems IH]; intros m; [reflexivity|].
  cbn [fold_left fst snd keys map existsb]. rewrite IH, get_del. fold (keys rems).
  destruct (existsb _ (keys rems)); [now rewrite orb_true_r|]. rewrite orb_false_r. reflexivity.
Qed.

Lemma NoDup_filter_keys V (m : @amap name V) f : NoDup (keys m) -> NoDup (keys (filter f m)).
Proof.
  induction m as [|[k v] m IH]; intros H; [constructor|]. inversion H; subst. simpl.
  destruct (f (k, v)); [|auto]. simpl. constructor; [|auto].
  intros X. apply H2. unfold keys in *. apply in_map_iff in X. destruct X as ([k' v'] & <- & Y).
  apply filter_In in Y. destruct Y as [Y _]. apply in_map_iff. exists (k', v'). auto.
Qed.

Lemma get_names_diff (x y : npl) n : get n (names_diff x y) =
  match get n y with Some _ => None | None => get n x end.
Proof.
  unfold names_diff. induction x as [|[k v] x IH]; [simpl; destruct (get n y); reflexivity|].
  cbn [filter get fst]. destruct (get k y) eqn:Ey.
  - rewrite IH. eqb_case n k; [|reflexivity]. now rewrite Ey.
  - cbn [get]. eqb_case n k; [|exact IH]. now rewrite Ey.
Qed.

Lemma update_name_get (o nw : npl) n : NoDup (keys nw) ->
  get n (snd (fst (fst (update_name o nw)))) =
  match get n nw with
  | None => None
  | Some v => match get n o with Some w => Some w | None => Some v end
  end.
Proof.
  intros H. unfold update_name. cbn [fst snd].
  rewrite get_fold_del, get_fold_set.
  2: { unfold names_diff. now apply NoDup_filter_keys. }
  rewrite get_names_diff.
  destruct (existsb (eqb n) (keys (names_diff o nw))) eqn:X.
  - apply existsb_In in X. apply keys_names_diff in X. destruct X as [X Y].
    apply get_None_keys in Y. now rewrite Y.
  - apply existsb_In_false in X. rewrite keys_names_diff in X.
    destruct (get n nw) eqn:En.
    + destruct (get n o); reflexivity.
    + apply get_None_keys in En. destruct (get n o) eqn:Eo; [|reflexivity].
      exfalso. apply X. split; [|exact En]. apply get_Some_keys. eauto.
Qed.

(** ** The own Name LSA through one event *)

Lemma neqb A `{EqDec A} (x y : A) : x <> y -> eqb x y = false.
Proof. intros E. now apply eqb_neq. Qed.

Lemma own_name_eff c d x d' o l : eff c d x d' o -> invS None d ->
  find_lsa (c_self c, TName) d = Some l -> l_seq l = seq_get TName (s_seqs d) ->
  (forall fid y, snd x = EFetchDone fid (Some y) -> l_origin y <> c_self c) ->
  exists l', find_lsa (c_self c, TName) d' = Some l' /\ l_seq l' = seq_get TName (s_seqs d') /\
    (l_body l' = l_body l \/
     exists q, l_body l' = l_body (merged l (own c TName q (e_sys (fst x))
                                    (BName (npl_of_list (e_npl (fst x))))))).
Proof.
  intros E I Hl Hq Hf. set (k := (c_self c, TName)) in *.
  pose proof (find_key I Hl) as Kl.
  destruct E as [F Q|fid f cq q origin ct t y X _ _ _ _ _ _ _ _ _ O Q|t q0 b Hor Bt Bn Ba Bc Q O
                |y tid X Hy Oy F Q|y tid X Hy Oy F Q|y tid X Hy Na F Q].
  - exists l. rewrite F, Q. auto.
  - exists l. rewrite (O k), Q. rewrite (@neqb _ _ k (l_key y)); [auto|].
    intros Y. apply (Hf _ _ X). unfold k, l_key in Y. congruence.
  - set (y := own c t (q0 + 1) (e_sys (fst x)) b) in *.
    assert (Ky : l_key y = (c_self c, t)) by (unfold y, l_key, l_type; cbn; now rewrite Bt).
    destruct (eq_dec t TName) as [-> |Ht].
    + exists (merged l y). rewrite (O k), Ky. fold k. rewrite eqb_refl, Hl. unfold offer.
      assert (Lt : (l_seq l < q0 + 1)%N).
      { destruct Hor as [[-> _]|(u & q & face & _ & _ & _ & -> & Nw & _)]; [lia|].
        unfold is_new in Nw. fold k in Nw. rewrite Hl in Nw. apply N.ltb_lt in Nw. lia. }
      cbn [l_seq y own]. apply N.ltb_lt in Lt. rewrite Lt. split; [reflexivity|].
      split; [rewrite Q, seq_get_set; reflexivity|]. right. exists (q0 + 1)%N. unfold y. now rewrite (Bn eq_refl).
    + exists l. rewrite (O k), Ky. rewrite Q, seq_get_set_ne by congruence.
      rewrite (@neqb _ _ k (c_self c, t)); [auto|]. unfold k. congruence.
  - destruct (eq_dec k (l_key y)) as [E|E].
    + rewrite <- E in Hy. rewrite Hl in Hy. injection Hy as <-.
      exists (refreshed c (e_sys (fst x)) l). rewrite F, E, eqb_refl. split; [reflexivity|]. split; [|now left].
      assert (T : l_type l = TName) by (rewrite Kl in E; unfold k, l_key in *; congruence).
      rewrite Q, T, seq_get_set. reflexivity.
    + exists l. rewrite F. rewrite (neqb E). split; [exact Hl|]. split; [|auto].
      rewrite Q, seq_get_set_ne; [exact Hq|]. intros T. apply E. unfold k, l_key. congruence.
  - exists l. rewrite F. rewrite (@neqb _ _ k (l_key y)).
    + rewrite Q. auto.
    + intros Y. apply Oy. unfold k, l_key in Y. congruence.
  - exists l. rewrite F. rewrite (@neqb _ _ k (c_self c, TAdj)) by (unfold k; congruence).
    rewrite Q. auto.
Qed.

Lemma build_name_own c e d l : invS None d -> find_lsa (c_self c, TName) d = Some l ->
  l_seq l = seq_get TName (s_seqs d) ->
  let y := own c TName (seq_get TName (s_seqs d) + 1) (e_sys e) (BName (npl_of_list (e_npl e))) in
  find_lsa (c_self c, TName) (fst (build_name c e d)) = Some (merged l y) /\
  s_seqs (fst (build_name c e d)) = seq_set TName (seq_get TName (s_seqs d) + 1) (s_seqs d) /\
  snd (build_name c e d) =
    [OTmp (seq_set TName (seq_get TName (s_seqs d) + 1) (s_seqs d)); ORename;
     OPublish TName (seq_get TName (s_seqs d) + 1)] ++ upd_notify l y.
Proof.
  intros I Hl Hq y. rewrite build_name_eq. fold y.
  assert (Lt : (l_seq l <? l_seq y)%N = true) by (apply N.ltb_lt; unfold y; cbn; cbn in Hq; lia).
  split; [|split].
  - rewrite (@build_find c TName (e_sys e) y true d (c_self c, TName) I).
    change (l_key y) with (c_self c, TName). now rewrite eqb_refl, Hl, Lt.
  - apply (@build_seqs c TName (e_sys e) y true d).
  - rewrite (@build_outs c TName (e_sys e) y true d I). change (l_key y) with (c_self c, TName).
    rewrite Hl, Lt. reflexivity.
Qed.

Lemma merged_get l y nw n : l_type l = TName -> l_body y = BName nw -> NoDup (keys nw) ->
  get n (body_names (l_body (merged l y))) =
  match get n nw with
  | None => None
  | Some v => match get n (body_names (l_body l)) with Some w => Some w | None => Some v end
  end.
Proof.
  unfold l_type, merged. cbn [l_body]. destruct (l_body l) as [| |no]; try discriminate. intros _ -> H.
  cbn [body_names update_body]. pose proof (@update_name_get no nw n H) as G.
  destruct (update_name no nw) as [[[u r] a] b]. exact G.
Qed.

Lemma keys_info p : map fst (pl_info p) = keys p.
Proof. unfold pl_info, keys. rewrite map_map. apply map_ext. reflexivity. Qed.

Lemma get_info p n : get n (pl_info p) = option_map fst (get n p).
Proof.
  unfold pl_info. induction p as [|[k v] p IH]; [reflexivity|]. cbn [map get fst snd].
  destruct (eqb n k); [reflexivity|exact IH].
Qed.

Lemma info_get p n : NoDup (keys p) -> get n (npl_of_list (pl_info p)) = option_map fst (get n p).
Proof. intros H. rewrite npl_of_get; [apply get_info|]. now rewrite keys_info. Qed.

Lemma NoDup_info p : NoDup (keys (npl_of_list (pl_info p))).
Proof. apply NoDup_npl_of. constructor. Qed.

(** ** The invariant of a run *)

Record pinv (c : conf) (s : pst) (first cur : name -> option Z) : Prop := {
  pv_inv : invS None (p_db s);
  pv_nd : NoDup (keys (p_list s));
  pv_list : forall n, get n (p_list s) = option_map (fun k => (k, [""%string])) (cur n);
  pv_same : forall n, first n = None <-> cur n = None;
  pv_lsa : exists l, find_lsa (c_self c, TName) (p_db s) = Some l /\
             l_seq l = seq_get TName (s_seqs (p_db s)) /\
             forall n, get n (body_names (l_body l)) = first n }.

(** One command's effect on the two cost functions. *)
Definition first1 (m : cmd) (k : option Z) (n : name) : option Z :=
  if eqb n (m_name m)
  then if m_add m then match k with Some _ => k | None => Some (cmd_cost m) end else None
  else k.
Definition cur1 (m : cmd) (k : option Z) (n : name) : option Z :=
  if eqb n (m_name m) then if m_add m then Some (cmd_cost m) else None else k.

Lemma list_cmd_get m p (cur : name -> option Z) :
  (forall n, get n p = option_map (fun k => (k, [""%string])) (cur n)) ->
  (forall n, get n (snd (list_cmd m p)) = option_map (fun k => (k, [""%string])) (cur1 m (cur n) n)) /\
  fst (list_cmd m p) = (if m_add m then match cur (m_name m) with Some _ => false | None => true end
                        else match cur (m_name m) with Some _ => true | None => false end) /\
  (fst (list_cmd m p) = false -> m_add m = false -> snd (list_cmd m p) = p).
Proof.
  intros H. unfold list_cmd. fold (cmd_cost m).
  assert (S : srcs p (m_name m) = match cur (m_name m) with Some _ => [""%string] | None => [] end).
  { unfold srcs. rewrite H. destruct (cur (m_name m)); reflexivity. }
  destruct (m_add m) eqn:Ea.
  - split; [|split; [|discriminate]].
    + intros n. rewrite insert_get, S. unfold cur1. rewrite Ea. destruct (eqb n (m_name m)); [|apply H].
      destruct (cur (m_name m)); reflexivity.
    + rewrite insert_ret, S. destruct (cur (m_name m)); reflexivity.
  - split; [|split].
    + intros n. rewrite erase_get. unfold cur1. rewrite Ea. destruct (eqb n (m_name m)); [|apply H].
      rewrite H. destruct (cur (m_name m)); reflexivity.
    + rewrite erase_ret, S. destruct (cur (m_name m)); reflexivity.
    + rewrite erase_ret, S. unfold pl_erase. rewrite H. destruct (cur (m_name m)); [discriminate|reflexivity].
Qed.

Lemma list_cmd_nd m p : NoDup (keys p) -> NoDup (keys (snd (list_cmd m p))).
Proof.
  intros H. unfold list_cmd. destruct (m_add m).
  - unfold pl_insert. destruct (existsb _ _); cbn [snd]; now apply NoDup_set.
  - unfold pl_erase. destruct (get _ p) as [[k ss]|]; cbn [snd]; [|exact H].
    destruct (eqb _ _); [now apply NoDup_del|now apply NoDup_set].
Qed.

Definition ev_first (x : pev) (first : name -> option Z) (n : name) : option Z :=
  match x with PvCmd _ _ m _ => first1 m (first n) n | PvDb _ _ _ => first n end.
Definition ev_cur (x : pev) (cur : name -> option Z) (n : name) : option Z :=
  match x with PvCmd _ _ m _ => cur1 m (cur n) n | PvDb _ _ _ => cur n end.

Lemma do_cmd_db u c sys l m w s :
  p_list (fst (do_cmd u c sys l m w s)) = snd (list_cmd m (p_list s)) /\
  p_db (fst (do_cmd u c sys l m w s)) =
    if fst (list_cmd m (p_list s))
    then fst (build_name c (Env sys (pl_info (snd (list_cmd m (p_list s)))) l) (p_db s))
    else p_db s.
Proof.
  unfold do_cmd. destruct (list_cmd m (p_list s)) as [ch p']. cbn [fst snd].
  destruct ch.
  - destruct (build_name _ _ _) as [d' o]. destruct (saves m); [destruct (after_cmd _ _ _ _)|]; auto.
  - destruct (saves m); [destruct (after_cmd _ _ _ _)|]; auto.
Qed.

Lemma pinv_step u c s x first cur : pinv c s first cur ->
  (forall sys l fid y, x = PvDb sys l (EFetchDone fid (Some y)) -> l_origin y <> c_self c) ->
  s_dead (p_db s) = false ->
  pinv c (fst (pstep u c s x)) (ev_first x first) (ev_cur x cur).
Proof.
  intros G0 Hf Hd. pose proof G0 as G1. destruct G1 as [I Nd Li Sm (l & Hl & Hq & Hn)]. unfold pstep. rewrite Hd.
  destruct x as [sys a v|sys a m w].
  - assert (G : pinv c (Pst (fst (step c (p_db s) (Env sys (pl_info (p_list s)) a, v))) (p_list s) (p_file s))
                  first cur).
    { pose proof (step_eff c (Env sys (pl_info (p_list s)) a, v) I) as E.
      pose proof (invS_step c (Env sys (pl_info (p_list s)) a, v) I) as I'.
      destruct (own_name_eff E I Hl Hq) as (l' & Hl' & Hq' & Hb).
      { intros fid y Y. cbn [snd] in Y. subst v. eapply Hf. reflexivity. }
      split; cbn [p_db p_list]; trivial. exists l'. split; [exact Hl'|]. split; [exact Hq'|].
      intros n. destruct Hb as [-> |[q ->]]; [apply Hn|].
      erewrite merged_get; [| |reflexivity|apply NoDup_info].
      2: { pose proof (find_key I Hl) as K. unfold l_key in K. congruence. }
      cbn [e_npl fst]. rewrite info_get by exact Nd. rewrite Li, Hn.
      specialize (Sm n). destruct (cur n), (first n); cbn; try reflexivity; exfalso; destruct Sm as [S1 S2];
        [now discriminate (S1 eq_refl)|now discriminate (S2 eq_refl)]. }
    unfold pstep_live. destruct v; try exact G0;
      (destruct (step c (p_db s) _) as [dd oo]; exact G).
  - cbn [pstep_live]. destruct (do_cmd_db u c sys a m w s) as [Ep Ed].
    destruct (list_cmd_get m (p_list s) cur Li) as (L1 & L2 & _).
    assert (Nd' := @list_cmd_nd m _ Nd).
    assert (T : l_type l = TName) by (pose proof (find_key I Hl) as K; unfold l_key in K; congruence).
    assert (Sm' : forall n, ev_first (PvCmd sys a m w) first n = None <-> ev_cur (PvCmd sys a m w) cur n = None).
    { intros n. cbn [ev_first ev_cur]. unfold first1, cur1. destruct (eqb n (m_name m)); [|apply Sm].
      destruct (m_add m); [|tauto]. destruct (first n); split; discriminate. }
    split; rewrite ?Ep, ?Ed; trivial.
    + destruct (fst (list_cmd m (p_list s))); [|exact I]. now apply pres_build_name.
    + destruct (fst (list_cmd m (p_list s))) eqn:Ech.
      * destruct (build_name_own c (Env sys (pl_info (snd (list_cmd m (p_list s)))) a) I Hl Hq) as (B1 & B2 & _).
        eexists. split; [exact B1|]. split; [rewrite B2, seq_get_set; reflexivity|].
        intros n. erewrite merged_get; [|exact T|reflexivity|apply NoDup_info].
        cbn [e_npl]. rewrite info_get by exact Nd'. rewrite L1, Hn.
        cbn [ev_first]. unfold cur1, first1. specialize (Sm n).
        assert (P : forall v w : Z, first n = Some v -> cur n = None -> False).
        { intros v w0 E1 E2. apply Sm in E2. congruence. }
        destruct (eqb n (m_name m)).
        -- destruct (m_add m); [|reflexivity]. destruct (first n); reflexivity.
        -- destruct (cur n) eqn:Ec, (first n) eqn:Ef; cbn; try reflexivity.
           ++ exfalso. destruct Sm as [S1 _]. discriminate (S1 eq_refl).
           ++ exfalso. exact (P _ 0 eq_refl eq_refl).
      * exists l. split; [exact Hl|]. split; [exact Hq|]. intros n. rewrite Hn. cbn [ev_first].
        unfold first1. specialize (Sm n). eqb_case n (m_name m); [|reflexivity].
        symmetry in L2. destruct (m_add m).
        -- destruct (cur (m_name m)); [|discriminate]. destruct (first (m_name m)); [reflexivity|].
           destruct Sm as [S1 _]. discriminate (S1 eq_refl).
        -- destruct (cur (m_name m)); [discriminate|]. now apply Sm.
Qed.

(** ** Configuration and start *)

Lemma configured_get cfg n : get n (configured cfg) = option_map (fun k => (k, [""%string])) (cfg_cost cfg n).
Proof.
  unfold configured.
  assert (G : forall h, (forall n, get n (after h) = option_map (fun k => (k, [""%string])) (last_cost None h n)) ->
    get n (after (h ++ map (fun e => RAdv (fst e) "" (of_int (Z.of_N (snd e)))) cfg)) =
    option_map (fun k => (k, [""%string]))
      match cfg_cost cfg n with Some k => Some k | None => last_cost None h n end).
  { induction cfg as [|[n' k] cfg IH]; intros h Hh; cbn [map cfg_cost fst snd].
    - now rewrite app_nil_r.
    - change (?x :: ?l) with ([x] ++ l). rewrite app_assoc, IH.
      + rewrite last_cost_snoc. destruct (cfg_cost cfg n); [reflexivity|]. destruct (eqb n n'); reflexivity.
      + intros x. rewrite after_snoc, last_cost_snoc. cbn [do_req]. rewrite insert_get.
        unfold srcs. rewrite Hh. destruct (eqb x n'); [|apply Hh].
        destruct (last_cost None h n'); reflexivity. }
  specialize (G []). cbn [app] in G. rewrite G by reflexivity. cbn [last_cost].
  destruct (cfg_cost cfg n); reflexivity.
Qed.

Lemma pinv_init c q now sys l cfg f :
  pinv c (fst (pinit c q now sys l (configured cfg) f)) (cfg_cost cfg) (cfg_cost cfg).
Proof.
  unfold pinit. set (e := Env sys (pl_info (configured cfg)) l).
  pose proof (init_effs c q now e) as X. cbv zeta in X.
  destruct X as (s1 & o1 & I1 & E1 & _ & (y & Hy) & M).
  assert (Nd : NoDup (keys (configured cfg))) by (unfold configured; apply wfp_after).
  assert (Ey : l_seq y = seq_get TName (s_seqs s1) /\ forall n, get n (body_names (l_body y)) = cfg_cost cfg n).
  { destruct E1 as [F Q|fid fe cq q1 origin ct t y' X _ _ _ _ _ _ _ _ _ O Q|t q0 b Hor Bt Bn Ba Bc Q O
                |y' tid X|y' tid X|y' tid X]; try discriminate X.
    - rewrite F in Hy. discriminate.
    - rewrite (O _) in Hy. unfold l_key at 1, l_type in Hy. cbn [own l_origin l_body] in Hy. rewrite Bt in Hy.
      eqb_case (c_self c, TName) (c_self c, t); [|discriminate]. injection E as <-.
      cbn in Hy. injection Hy as <-. cbn [own l_seq l_body]. rewrite Q, seq_get_set.
      split; [reflexivity|]. intros n. rewrite (Bn eq_refl). cbn [body_names fst e e_npl].
      rewrite info_get by exact Nd. rewrite configured_get. destruct (cfg_cost cfg n); reflexivity. }
  destruct Ey as [Ey1 Ey2].
  assert (G : invS None (fst (init c q now e)) /\ exists l, find_lsa (c_self c, TName) (fst (init c q now e)) = Some l /\
             l_seq l = seq_get TName (s_seqs (fst (init c q now e))) /\
             forall n, get n (body_names (l_body l)) = cfg_cost cfg n).
  { split; [apply invS_init|]. destruct (eqb (c_hyp c) HOff).
    - destruct M as [-> _]. eauto.
    - destruct M as (o2 & E2 & _).
      destruct (own_name_eff E2 I1 Hy Ey1) as (l' & A & B & C); [discriminate|].
      exists l'. split; [exact A|]. split; [exact B|]. intros n.
      destruct C as [-> |[q1 ->]]; [apply Ey2|].
      erewrite merged_get; [| |reflexivity|apply NoDup_info].
      2: { pose proof (find_key I1 Hy) as K. unfold l_key in K. congruence. }
      cbn [e_npl fst e]. rewrite info_get by exact Nd. rewrite configured_get, Ey2.
      destruct (cfg_cost cfg n); reflexivity. }
  destruct G as [G1 G2]. destruct (init c q now e) as [d o]. cbn [fst] in *.
  split; cbn [p_db p_list]; trivial; [apply configured_get|tauto].
Qed.

Lemma first_cost_snoc evs x k n : first_cost k (evs ++ [x]) n = ev_first x (fun _ => first_cost k evs n) n.
Proof.
  revert k. induction evs as [|[sys l v|sys l m w] evs IH]; intros k; cbn [first_cost app].
  - destruct x; reflexivity.
  - apply IH.
  - apply IH.
Qed.
Lemma current_cost_snoc evs x k n : current_cost k (evs ++ [x]) n = ev_cur x (fun _ => current_cost k evs n) n.
Proof.
  revert k. induction evs as [|[sys l v|sys l m w] evs IH]; intros k; cbn [current_cost app].
  - destruct x; reflexivity.
  - apply IH.
  - apply IH.
Qed.

Lemma pexec_fst u c q now sys l p f evs :
  fst (pexec u c q now sys l p f evs) = fst (run (pstep u c) (fst (pinit c q now sys l p f)) evs).
Proof.
  unfold pexec. destruct (pinit c q now sys l p f) as [s o]. cbn [fst].
  destruct (run (pstep u c) s evs). reflexivity.
Qed.

Lemma pexec_snoc u c q now sys l p f evs x :
  fst (pexec u c q now sys l p f (evs ++ [x])) = fst (pstep u c (fst (pexec u c q now sys l p f evs)) x).
Proof.
  rewrite !pexec_fst, run_snoc. destruct (run (pstep u c) _ evs) as [s o]. cbn [fst].
  destruct (pstep u c s x); reflexivity.
Qed.

Lemma pstep_dead u c s x : s_dead (p_db s) = true -> fst (pstep u c s x) = s.
Proof. intros H. unfold pstep. now rewrite H. Qed.

Lemma pinv_ext c s f1 f2 g1 g2 : (forall n, f1 n = f2 n) -> (forall n, g1 n = g2 n) ->
  pinv c s f1 g1 -> pinv c s f2 g2.
Proof.
  intros Hf Hg [A B C D (l & E & F & G)]. split; trivial.
  - intros n. rewrite <- Hg. apply C.
  - intros n. rewrite <- Hf, <- Hg. apply D.
  - exists l. split; [exact E|]. split; [exact F|]. intros n. rewrite <- Hf. apply G.
Qed.

Lemma pinv_exec u c q now sys l cfg f evs : pno_forged c evs ->
  s_dead (p_db (fst (pexec u c q now sys l (configured cfg) f evs))) = false ->
  pinv c (fst (pexec u c q now sys l (configured cfg) f evs))
       (fun n => first_cost (cfg_cost cfg n) evs n) (fun n => current_cost (cfg_cost cfg n) evs n).
Proof.
  induction evs as [|x evs IH] using rev_ind; intros Hf Hd.
  - rewrite pexec_fst. apply pinv_init.
  - rewrite pexec_snoc in *.
    assert (Hd0 : s_dead (p_db (fst (pexec u c q now sys l (configured cfg) f evs))) = false).
    { destruct (s_dead (p_db (fst (pexec u c q now sys l (configured cfg) f evs)))) eqn:E; [|reflexivity].
      rewrite pstep_dead in Hd by exact E. congruence. }
    eapply pinv_ext; [| |apply pinv_step].
    3: { apply IH; [|exact Hd0]. intros sys0 l0 fid y Hy. eapply Hf. apply in_app_iff. left. exact Hy. }
    + intros n. rewrite first_cost_snoc. destruct x; reflexivity.
    + intros n. rewrite current_cost_snoc. destruct x; reflexivity.
    + intros sys0 l0 fid y ->. eapply Hf. apply in_app_iff. right. now left.
    + exact Hd0.
Qed.

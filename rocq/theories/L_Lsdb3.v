(** Summary of what one event does to the database, the sequence numbers and the notifications. *)
From Verif Require Import Base M_Nexthop M_Tlv M_Adj M_Lsa M_Lsdb L_Lsdb S_Lsdb L_Lsdb2.
Open Scope Z_scope.
Set Implicit Arguments.

Definition rel (o : out) : bool :=
  match o with OTmp _ | ORename | OPublish _ _ | ONotify _ _ _ _ => true | _ => false end.

Definition offer (o : option lsa) (l : lsa) : lsa :=
  match o with
  | None => l
  | Some o => if (l_seq o <? l_seq l)%N then merged o l else o
  end.
Definition offer_outs (o : option lsa) (l : lsa) : list out :=
  match o with
  | None => [ONotify KInstalled l [] []]
  | Some o => if (l_seq o <? l_seq l)%N then upd_notify o l else []
  end.

(** [offered s l s']: [s'] is [s] after offering [l], as far as lookups can tell. *)
Definition offered (s : st) (l : lsa) (s' : st) : Prop :=
  forall k, find_lsa k s' =
    if eqb k (l_key l) then Some (offer (find_lsa (l_key l) s) l) else find_lsa k s.

(** What makes the router build an own LSA, other than an update about itself. *)
Definition own_build (c : conf) (s : st) (x : env * ev) (t : ltype) : Prop :=
  match snd x with
  | EBuildName => t = TName \/ t = TCoord /\ c_hyp c <> HOff
  | EFire tid => t = TAdj /\ exists due, get tid (s_timers s) = Some (Timer due ABuild)
  | _ => False
  end.
Inductive eff (c : conf) (s : st) (x : env * ev) (s' : st) : list out -> Prop :=
| eff_none :
    (forall k, find_lsa k s' = find_lsa k s) -> s_seqs s' = s_seqs s -> eff c s x s' []
| eff_fetch fid f cq q origin ct t l :
    snd x = EFetchDone fid (Some l) -> get fid (s_fetch s) = Some f ->
    back 1 (f_iname f) = Some cq -> to_number cq = Some q ->
    name_origin c (f_iname f) = Some origin -> back 2 (f_iname f) = Some ct ->
    comp_type ct = Some t -> l_type l = t -> is_new origin (Some t) q s = true ->
    (forall h, get (drop_last 1 (f_iname f)) (s_high s) = Some h -> (h <= q)%N) ->
    offered s l s' -> s_seqs s' = s_seqs s ->
    eff c s x s' (offer_outs (find_lsa (l_key l) s) l)
| eff_build t q0 b :
    (q0 = seq_get t (s_seqs s) /\ own_build c s x t \/
     exists u q face, snd x = ESync u q face /\ update_origin u = Some (c_self c) /\
       (exists ct, back 1 u = Some ct /\ comp_type ct = Some t) /\ q0 = (q mod 2 ^ 64)%N /\
       is_new (c_self c) (Some t) q0 s = true /\
       (t = TAdj -> c_hyp c = HOff) /\ (t = TCoord -> c_hyp c = HOn)) ->
    body_type b = t ->
    (t = TName -> b = BName (npl_of_list (e_npl (fst x)))) ->
    (t = TAdj -> b = BAdj (own_adl (e_adl (fst x)))) ->
    (t = TCoord -> b = BCoord (c_radius c) (c_angles c)) ->
    s_seqs s' = seq_set t (q0 + 1) (s_seqs s) ->
    offered s (own c t (q0 + 1) (e_sys (fst x)) b) s' ->
    eff c s x s'
      ([OTmp (s_seqs s'); ORename] ++
       (if publishes (c_hyp c) t then [OPublish t (q0 + 1)] else []) ++
       offer_outs (find_lsa (c_self c, t) s) (own c t (q0 + 1) (e_sys (fst x)) b))
| eff_refresh l tid :
    snd x = EFire tid -> find_lsa (l_key l) s = Some l -> l_origin l = c_self c ->
    (forall k, find_lsa k s' =
       if eqb k (l_key l) then Some (refreshed c (e_sys (fst x)) l) else find_lsa k s) ->
    s_seqs s' = seq_set (l_type l) (l_seq l + 1) (s_seqs s) ->
    eff c s x s' [OTmp (s_seqs s'); ORename; OPublish (l_type l) (l_seq l + 1)]
| eff_expire l tid :
    snd x = EFire tid -> find_lsa (l_key l) s = Some l -> l_origin l <> c_self c ->
    (forall k, find_lsa k s' = if eqb k (l_key l) then None else find_lsa k s) ->
    s_seqs s' = s_seqs s ->
    eff c s x s' [ONotify KRemoved l [] []]
| eff_remove l tid :
    snd x = EFire tid -> find_lsa (c_self c, TAdj) s = Some l ->
    num_active (e_adl (fst x)) = O ->
    (forall k, find_lsa k s' = if eqb k (c_self c, TAdj) then None else find_lsa k s) ->
    s_seqs s' = s_seqs s ->
    eff c s x s' [ONotify KRemoved l [] []].

Lemma filter_rel_offer o l : filter rel (offer_outs o l) = offer_outs o l.
Proof.
  unfold offer_outs. destruct o as [o|]; [|reflexivity]. destruct (_ <? _)%N; [|reflexivity].
  unfold upd_notify. destruct (update_body _ _) as [[[u b] ad] rm]. destruct u; reflexivity.
Qed.

Lemma install_offered c sys l s : invS None s -> offered s l (fst (install c sys l s)).
Proof.
  intros H k. rewrite install_find by exact H. eqb_case k (l_key l); [|reflexivity].
  unfold offer. destruct (find_lsa (l_key l) s) as [o|]; [|reflexivity]. destruct (_ <? _)%N; reflexivity.
Qed.

(** Acts that change nothing an [eff] looks at. *)
Definition quiet (a : act) : Prop :=
  forall s, sameS s (fst (a s)) /\ s_seqs (fst (a s)) = s_seqs s /\ filter rel (snd (a s)) = [].

Lemma quiet_andthen f g : quiet f -> quiet g -> quiet (f ;; g).
Proof.
  intros Hf Hg s. rewrite andthen_fst, andthen_snd, filter_app.
  destruct (Hf s) as (A1 & A2 & A3). destruct (Hg (fst (f s))) as (B1 & B2 & B3).
  split; [eapply sameS_trans; eassumption|]. split; [congruence|]. now rewrite A3, B3.
Qed.
Lemma quiet_emit o : rel o = false -> quiet (emit o).
Proof. intros H s. simpl. rewrite H. repeat split. Qed.
Lemma quiet_ret : quiet ret. Proof. repeat split. Qed.
Lemma quiet_throw : quiet throw. Proof. repeat split. Qed.
Lemma quiet_ub : quiet ub. Proof. repeat split. Qed.
Lemma quiet_stat f t : quiet (stat_type f t).
Proof. destruct t; [now apply quiet_emit|apply quiet_ret]. Qed.

Lemma note_high_seqs n q s s1 : note_high n q s = Some s1 -> s_seqs s1 = s_seqs s.
Proof.
  unfold note_high. destruct (get n (s_high s)) as [h|].
  - destruct (h <? q)%N; [intros E; now injection E as <-|].
    destruct (q <? h)%N; [discriminate|]. intros E; now injection E as <-.
  - intros E; now injection E as <-.
Qed.

Lemma note_high_le n q s s1 h : note_high n q s = Some s1 -> get n (s_high s) = Some h -> (h <= q)%N.
Proof.
  unfold note_high. intros E Eh. rewrite Eh in E. destruct (N.ltb_spec h q); [lia|].
  destruct (N.ltb_spec q h); [discriminate|lia].
Qed.

Lemma quiet_express i n f d : quiet (express i n f d).
Proof.
  intros s. unfold express. destruct (back 1 i); [|apply quiet_ub].
  destruct (to_number c); [|apply quiet_andthen; [now apply quiet_emit|apply quiet_throw]].
  destruct (note_high _ _ s) as [s1|] eqn:E; [|repeat split].
  assert (Q : quiet (emit (OStat SentInt) ;;
               emit (OFetch i f) ;;
               upd (fun s => w_fetch (set (s_nfid s) (Fetch i n match d with
                  | Some d0 => d0 | None => s_now s1 + LSA_REFRESH_TIME_MAX * SEC end) (s_fetch s))
                                     (S (s_nfid s)) s) ;;
               match back 2 i with
               | Some ct => stat_type SentIntT (comp_type ct)
               | None => ub
               end)).
  { repeat (apply quiet_andthen; [solve [now apply quiet_emit|repeat split]|]).
    destruct (back 2 i); [apply quiet_stat|apply quiet_ub]. }
  assert (En : s_now s1 = s_now s).
  { clear Q. unfold note_high in E. destruct (get _ _) as [h|].
    - destruct (h <? n0)%N; [now injection E as <-|]. destruct (n0 <? h)%N; [discriminate|].
      now injection E as <-.
    - now injection E as <-. }
  rewrite En in Q. destruct (Q s1) as (A & B & C). split; [|split].
  - eapply sameS_trans; [exact (note_high_same _ _ _ E)|exact A].
  - rewrite <- (note_high_seqs _ _ _ E). exact B.
  - exact C.
Qed.

Lemma eff_quiet a c s x : quiet a -> eff c s x (fst (a s)) (filter rel (snd (a s))).
Proof.
  intros Q. destruct (Q s) as (A & B & C). rewrite C. apply eff_none; [|exact B].
  intros k. exact (find_same k A).
Qed.

Lemma eff_id c s x : eff c s x s [].
Proof. now apply eff_none. Qed.

Lemma seq_set_set t v w q : seq_set t v (seq_set t w q) = seq_set t v q.
Proof. destruct t; reflexivity. Qed.
Lemma seq_get_set t v q : seq_get t (seq_set t v q) = v.
Proof. destruct t; reflexivity. Qed.
Lemma seq_get_set_ne t t' v q : t' <> t -> seq_get t' (seq_set t v q) = seq_get t' q.
Proof. destruct t, t'; simpl; congruence. Qed.

(** The three ways to build an own LSA, in a common form. *)
Definition own_body (c : conf) (e : env) (t : ltype) : body :=
  match t with
  | TName => BName (npl_of_list (e_npl e))
  | TAdj => BAdj (own_adl (e_adl e))
  | TCoord => BCoord (c_radius c) (c_angles c)
  end.
Definition build (c : conf) (e : env) (t : ltype) : act := fun s =>
  (bump t ;; write_seqs ;; (if publishes (c_hyp c) t then publish t else ret) ;;
   install c (e_sys e) (own c t (seq_get t (s_seqs s) + 1) (e_sys e) (own_body c e t))) s.

Lemma build_name_build c e s : build_name c e s = build c e TName s.
Proof. reflexivity. Qed.
Lemma build_coord_build c e s : build_coord c e s = build c e TCoord s.
Proof. rewrite build_coord_eq. unfold build, publishes. destruct (c_hyp c); reflexivity. Qed.
Lemma build_adj_build c e s : build_own_adj c e s = build c e TAdj s.
Proof. rewrite build_own_adj_eq. unfold build, publishes. destruct (c_hyp c); reflexivity. Qed.

Lemma own_body_type c e t : body_type (own_body c e t) = t.
Proof. destruct t; reflexivity. Qed.

Lemma own_key c e t q : l_key (own c t q (e_sys e) (own_body c e t)) = (c_self c, t).
Proof. unfold l_key, l_type. simpl. now rewrite own_body_type. Qed.

(** [pre]: the state before an own rebuild, possibly after adopting a reported number. *)
Lemma eff_own c s s0 x t : invS None s0 -> (forall k, find_lsa k s0 = find_lsa k s) ->
  s_seqs s0 = seq_set t (seq_get t (s_seqs s0)) (s_seqs s) ->
  (seq_get t (s_seqs s0) = seq_get t (s_seqs s) /\ own_build c s x t \/
     exists u q face, snd x = ESync u q face /\ update_origin u = Some (c_self c) /\
       (exists ct, back 1 u = Some ct /\ comp_type ct = Some t) /\
       seq_get t (s_seqs s0) = (q mod 2 ^ 64)%N /\
       is_new (c_self c) (Some t) (seq_get t (s_seqs s0)) s = true /\
       (t = TAdj -> c_hyp c = HOff) /\ (t = TCoord -> c_hyp c = HOn)) ->
  eff c s x (fst (build c (fst x) t s0)) (filter rel (snd (build c (fst x) t s0))).
Proof.
  intros H0 Hs Hq Hor.
  set (q0 := seq_get t (s_seqs s0)) in *.
  pose proof (@build_seqs c t (e_sys (fst x)) (own c t (q0 + 1) (e_sys (fst x)) (own_body c (fst x) t))
                (publishes (c_hyp c) t) s0) as Bs.
  pose proof (fun k => @build_find c t (e_sys (fst x)) (own c t (q0 + 1) (e_sys (fst x)) (own_body c (fst x) t))
                (publishes (c_hyp c) t) s0 k H0) as Bf.
  pose proof (@build_outs c t (e_sys (fst x)) (own c t (q0 + 1) (e_sys (fst x)) (own_body c (fst x) t))
                (publishes (c_hyp c) t) s0 H0) as Bo.
  unfold build. fold q0. fold q0 in Bs. fold q0 in Bo. rewrite Bo. cbv zeta.
  match goal with |- eff c s x (fst ?r) _ => set (R := r) in * end. clear Bo.
  rewrite own_key. rewrite filter_app.
  assert (E : filter rel ((if publishes (c_hyp c) t then [OPublish t (q0 + 1)] else []) ++
     offer_outs (find_lsa (c_self c, t) s0) (own c t (q0 + 1) (e_sys (fst x)) (own_body c (fst x) t)))
     = (if publishes (c_hyp c) t then [OPublish t (q0 + 1)] else []) ++
     offer_outs (find_lsa (c_self c, t) s) (own c t (q0 + 1) (e_sys (fst x)) (own_body c (fst x) t))).
  { rewrite filter_app, filter_rel_offer. rewrite Hs.
    destruct (publishes _ _); reflexivity. }
  unfold offer_outs at 1 in E. rewrite E. clear E. cbn [filter rel]. rewrite <- Bs.
  apply eff_build.
  - exact Hor.
  - apply own_body_type.
  - intros ->; reflexivity.
  - intros ->; reflexivity.
  - intros ->; reflexivity.
  - rewrite Bs, Hq, seq_set_set. reflexivity.
  - intros k. rewrite Bf. rewrite !Hs. unfold offer.
    rewrite own_key. destruct (eqb k _); [|reflexivity].
    destruct (find_lsa (c_self c, t) s) as [o|]; [|reflexivity]. destruct (_ <? _)%N; reflexivity.
Qed.

Lemma seq_set_get t q : seq_set t (seq_get t q) q = q.
Proof. destruct t, q; reflexivity. Qed.

Lemma eff_own_plain c s s0 x t : invS None s0 -> (forall k, find_lsa k s0 = find_lsa k s) ->
  s_seqs s0 = s_seqs s -> own_build c s x t ->
  eff c s x (fst (build c (fst x) t s0)) (filter rel (snd (build c (fst x) t s0))).
Proof.
  intros H Hs Hq Hb. apply eff_own; trivial; rewrite Hq; [|now left]. now rewrite seq_set_get.
Qed.

Lemma eff_ext c s x s1 s2 o : eff c s x s1 o ->
  (forall k, find_lsa k s2 = find_lsa k s1) -> s_seqs s2 = s_seqs s1 -> eff c s x s2 o.
Proof.
  intros H Hf Hq. inversion H; subst.
  - apply eff_none; [intros k; rewrite Hf; auto|congruence].
  - eapply eff_fetch; try eassumption; trivial.
    + intros k. rewrite Hf. auto.
    + congruence.
  - rewrite <- Hq. apply eff_build; trivial; [congruence|]. intros k. rewrite Hf. auto.
  - rewrite <- Hq. eapply eff_refresh; try eassumption; [intros k; rewrite Hf; auto|congruence].
  - eapply eff_expire; try eassumption; [intros k; rewrite Hf; auto|congruence].
  - eapply eff_remove; try eassumption; [intros k; rewrite Hf; auto|congruence].
Qed.

Lemma eff_fire c s e t : invS None s ->
  eff c s (e, EFire t) (fst (fire c e t s)) (filter rel (snd (fire c e t s))).
Proof.
  intros H. unfold fire. destruct (get t (s_timers s)) as [tm|] eqn:Et; [|apply eff_id].
  destruct (t_due tm <=? s_now s); [|apply eff_id].
  set (s1 := w_timers _ _ s).
  assert (Same : forall k, find_lsa k s1 = find_lsa k s) by reflexivity.
  destruct (t_act tm) as [oid| |i n d|i|i] eqn:Ea.
  - assert (H1 : invS (Some oid) s1).
    { apply invS_del_timer; [now apply invS_weaken|]. intros oid' tm' E Ea'. congruence. }
    destruct (proj2 (iS_timer H _ Et) _ Ea) as (o & Ho & _).
    assert (Ho1 : get oid (s_heap s1) = Some o) by exact Ho.
    rewrite (@expire_outs c (e_sys e) oid o s1 _ H1 Ho1).
    pose proof (fun k => @expire_find c (e_sys e) oid o s1 k _ H1 Ho1) as Ef.
    pose proof (@expire_seqs c (e_sys e) oid o s1 _ H1 Ho1) as Es.
    set (s2 := fst (expire_or_refresh c (e_sys e) oid s1)) in *.
    rewrite Same in *.
    destruct (find_lsa (l_key (o_lsa o)) s) as [l|] eqn:El.
    + pose proof (find_key H El) as Hk.
      destruct (N.eqb_spec (l_seq l) (l_seq (o_lsa o))) as [Eq|Nq].
      * eqb_case (l_origin l) (c_self c).
        -- cbn [andb] in Es. change (s_seqs s1) with (s_seqs s) in *. cbn [filter rel].
           rewrite <- Es. eapply eff_refresh with (l := l); cbn [fst snd].
           ++ reflexivity.
           ++ now rewrite Hk.
           ++ exact E.
           ++ intros k. rewrite Ef, Hk, andb_true_r. destruct (eqb _ _); [reflexivity|apply Same].
           ++ exact Es.
        -- cbn [andb] in Es. cbn [filter rel]. eapply eff_expire with (l := l); cbn [fst snd].
           ++ reflexivity.
           ++ now rewrite Hk.
           ++ exact E.
           ++ intros k. rewrite Ef, Hk, andb_true_r. destruct (eqb _ _); [reflexivity|apply Same].
           ++ exact Es.
      * cbn [andb] in Es. apply eff_none; [|exact Es]. intros k. rewrite Ef, andb_false_r. apply Same.
    + apply eff_none; [|exact Es]. intros k. rewrite Ef. apply Same.
  - unfold build_adj. destruct (is_buildable _ _); [|]; cycle 1.
    { cbn [fst snd filter]. set (s2 := w_build false _ _ s1). apply eff_none.
      - intros k. transitivity (find_lsa k s2); [|reflexivity].
        unfold schedule_build, schedule, cancel. cbn [s_btid w_timers]. destruct (s_btid s2); reflexivity.
      - unfold schedule_build, schedule, cancel. cbn [s_btid w_timers].
        destruct (s_btid s2); reflexivity. }
    destruct (0 <? _); [|now apply eff_none].
    rewrite andthen_fst, andthen_snd. cbn [upd snd]. rewrite app_nil_r.
    set (s2 := w_build false _ _ s1).
    assert (Hx : forall (v : st * list out) o, eff c s (e, EFire t) (fst v) o ->
       eff c s (e, EFire t)
           (fst (upd (fun s0 => w_build (s_sched s0) (s_count s0 - s_count s2) (s_btid s0) s0) (fst v))) o).
    { intros v o Hv. refine (eff_ext _ Hv _ _); [|reflexivity]. intros k. reflexivity. }
    assert (H1 : invS None s1) by (apply invS_del_timer; [exact H|intros; congruence]).
    assert (H2 : invS None s2) by (apply (invS_same (s := s1)); [repeat split|exact H1]).
    destruct (Nat.ltb_spec 0 (num_active (e_adl e))).
    + apply Hx. rewrite build_adj_build.
      change e with (fst (e, EFire t)). apply eff_own_plain; [exact H2|reflexivity|reflexivity|].
      split; [reflexivity|]. exists (t_due tm). rewrite Et. destruct tm as [dd aa]. cbn in Ea. now subst.
    + apply Hx. rewrite remove_outs. change (find_lsa (c_self c, TAdj) s2) with (find_lsa (c_self c, TAdj) s).
      destruct (find_lsa (c_self c, TAdj) s) as [l|] eqn:El.
      * cbn [filter rel]. eapply eff_remove with (l := l); cbn [fst snd].
        -- reflexivity.
        -- exact El.
        -- lia.
        -- intros k. rewrite remove_find. reflexivity.
        -- rewrite remove_seqs. reflexivity.
      * apply eff_none.
        -- intros k. rewrite remove_find. eqb_case k (c_self c, TAdj); [now rewrite El|reflexivity].
        -- now rewrite remove_seqs.
  - destruct (@quiet_express i n 0 (Some d) s1) as (A & B & C). rewrite C. apply eff_none.
    + intros k. rewrite (find_same k A). reflexivity.
    + rewrite B. reflexivity.
  - now apply eff_none.
  - now apply eff_none.
Qed.

Lemma eff_fetch_done c s e fid l : invS None s ->
  eff c s (e, EFetchDone fid l) (fst (fetch_done c (e_sys e) fid l s))
      (filter rel (snd (fetch_done c (e_sys e) fid l s))).
Proof.
  intros H. unfold fetch_done. destruct (get fid (s_fetch s)) as [f|] eqn:Ef; [|apply eff_id].
  cbv zeta. set (i := f_iname f) in *.
  assert (G : forall s1, sameS s s1 -> s_seqs s1 = s_seqs s -> s_high s1 = s_high s ->
     eff c s (e, EFetchDone fid l) (fst (after_fetch c (e_sys e) i l s1))
         (filter rel (snd (after_fetch c (e_sys e) i l s1)))).
  { intros s1 Hs Hq Hh. unfold after_fetch.
    assert (Qn : forall a, quiet a -> eff c s (e, EFetchDone fid l) (fst (a s1)) (filter rel (snd (a s1)))).
    { intros a Q. destruct (Q s1) as (A & B & C). rewrite C. apply eff_none.
      - intros k. rewrite (find_same k A). exact (find_same k Hs).
      - congruence. }
    destruct (back 1 i) as [cq|] eqn:Eb; [|apply Qn, quiet_ub].
    destruct (to_number cq) as [q|] eqn:Eq;
      [|apply Qn, quiet_andthen; [now apply quiet_emit|apply quiet_throw]].
    destruct (note_high (drop_last 1 i) q s1) as [s2|] eqn:En.
    2: { cbn [fst snd filter rel]. apply eff_none; [intros k; exact (find_same k Hs)|exact Hq]. }
    assert (Hs2 : sameS s s2) by (eapply sameS_trans; [exact Hs|exact (note_high_same _ _ _ En)]).
    assert (Hq2 : s_seqs s2 = s_seqs s) by (rewrite (note_high_seqs _ _ _ En); exact Hq).
    assert (Qn2 : forall a, quiet a -> eff c s (e, EFetchDone fid l) (fst (a s2)) (filter rel (snd (a s2)))).
    { intros a Q. destruct (Q s2) as (A & B & C). rewrite C. apply eff_none.
      - intros k. rewrite (find_same k A). exact (find_same k Hs2).
      - congruence. }
    destruct (name_origin c i) as [origin|] eqn:Eo.
    2: { apply Qn2. apply quiet_andthen; [now apply quiet_emit|apply quiet_ret]. }
    destruct (back 2 i) as [ct|] eqn:Ec.
    2: { apply Qn2. apply quiet_andthen; [now apply quiet_emit|apply quiet_ub]. }
    destruct (comp_type ct) as [t|] eqn:Ety.
    2: { apply Qn2. apply quiet_andthen; [now apply quiet_emit|apply quiet_ret]. }
    rewrite !andthen_fst, !andthen_snd. cbn [emit fst snd]. rewrite !filter_app. cbn [filter rel app].
    destruct (is_new origin (Some t) q s2) eqn:Ei.
    2: { cbn [fst snd filter]. apply eff_none; [intros k; exact (find_same k Hs2)|exact Hq2]. }
    destruct l as [l|].
    2: { cbn [fst snd filter]. apply eff_none; [intros k; exact (find_same k Hs2)|exact Hq2]. }
    destruct (eqb (l_type l) t) eqn:Et.
    2: { cbn [fst snd filter]. apply eff_none; [intros k; exact (find_same k Hs2)|exact Hq2]. }
    apply eqb_eq in Et.
    assert (H2 : invS None s2) by exact (invS_same Hs2 H).
    rewrite install_outs by exact H2.
    change (match find_lsa (l_key l) s2 with
            | Some o => if (l_seq o <? l_seq l)%N then upd_notify o l else []
            | None => [ONotify KInstalled l [] []] end)
      with (offer_outs (find_lsa (l_key l) s2) l).
    rewrite filter_rel_offer, (find_same _ Hs2).
    eapply eff_fetch with (f := f) (t := t); cbn [fst snd]; try eassumption; trivial.
    - unfold is_new in *. rewrite (find_same _ Hs2) in Ei. exact Ei.
    - intros h Eh. rewrite <- Hh in Eh. exact (note_high_le _ _ _ En Eh).
    - intros k. rewrite (install_offered c (e_sys e) l H2 k). rewrite !(find_same _ Hs2). reflexivity.
    - rewrite install_seqs. exact Hq2. }
  rewrite !andthen_fst, !andthen_snd. cbn [upd fst snd app]. rewrite app_nil_r.
  match goal with |- context [after_fetch c (e_sys e) i l ?s1] =>
    specialize (G s1 ltac:(repeat split) eq_refl eq_refl) end.
  refine (eff_ext _ G _ _); reflexivity.
Qed.

Lemma comp_type_inv ct t : comp_type ct = Some t <-> ct = type_comp t.
Proof.
  unfold comp_type. split.
  - repeat match goal with |- context [eqb ?a ?b] => destruct (eqb a b) eqn:?E end;
      intros X; try discriminate; injection X as <-; apply (proj1 (eqb_eq _ _)); assumption.
  - intros ->. destruct t; reflexivity.
Qed.

Lemma eff_sync c s e u q face : invS None s ->
  eff c s (e, ESync u q face) (fst (on_sync c e u (q mod 2 ^ 64)%N face s))
      (filter rel (snd (on_sync c e u (q mod 2 ^ 64)%N face s))).
Proof.
  intros H. unfold on_sync. destruct (update_origin u) as [o|] eqn:Eo; [|apply eff_id].
  set (q' := (q mod 2 ^ 64)%N).
  unfold process_update. destruct (back 1 u) as [ct|] eqn:Ec; [|apply eff_quiet, quiet_ub].
  eqb_case o (c_self c).
  - destruct (is_new (c_self c) (comp_type ct) q' s) eqn:En; [|apply eff_id].
    assert (G : forall t, comp_type ct = Some t -> (t = TAdj -> c_hyp c = HOff) ->
       (t = TCoord -> c_hyp c = HOn) ->
       eff c s (e, ESync u q face)
        (fst (build c e t (w_seqs (seq_set t q' (s_seqs s)) s)))
        (filter rel (snd (build c e t (w_seqs (seq_set t q' (s_seqs s)) s))))).
    { intros t Ety Ha Hc. change e with (fst (e, ESync u q face)). apply eff_own.
      - apply (invS_same (s := s)); [repeat split|exact H].
      - reflexivity.
      - cbn [s_seqs w_seqs]. rewrite seq_get_set. reflexivity.
      - right. exists u, q, face. cbn [s_seqs w_seqs]. rewrite seq_get_set. rewrite Ety in En.
        repeat split; trivial. exists ct. auto. }
    destruct (comp_type ct) as [[]|] eqn:Ety.
    + eqb_case (c_hyp c) HOff; [|apply eff_id].
      rewrite andthen_fst, andthen_snd. cbn [upd fst snd app]. rewrite build_adj_build.
      apply (G TAdj); [reflexivity|auto|discriminate].
    + eqb_case (c_hyp c) HOn; [|apply eff_id].
      rewrite andthen_fst, andthen_snd. cbn [upd fst snd app]. rewrite build_coord_build.
      apply (G TCoord); [reflexivity|discriminate|auto].
    + rewrite andthen_fst, andthen_snd. cbn [upd fst snd app]. rewrite build_name_build.
      apply (G TName); [reflexivity|discriminate|discriminate].
    + apply eff_id.
  - destruct (is_new _ _ _ _); [|apply eff_id].
    destruct (_ && _); [apply eff_id|]. destruct (_ && _); [apply eff_id|].
    apply eff_quiet. apply quiet_andthen; [now apply quiet_emit|apply quiet_express].
Qed.

Lemma step_eff c s x : invS None s ->
  eff c s x (fst (step c s x)) (filter rel (snd (step c s x))).
Proof.
  intros H. unfold step. destruct (s_dead s); [apply eff_id|].
  destruct x as [e v]. unfold step_live. destruct v as [d|u q face|t|fid l|fid t|fid n d|i p k ver| |].
  - now apply eff_none.
  - now apply eff_sync.
  - now apply eff_fire.
  - now apply eff_fetch_done.
  - assert (Q : forall k, find_lsa k (fst (fetch_err c fid t s)) = find_lsa k s).
    { intros k. unfold fetch_err. destruct (get _ _) as [f|]; [|reflexivity].
      rewrite andthen_fst. unfold on_error. destruct (back _ _); [|reflexivity].
      destruct (to_number _); [|reflexivity]. destruct (_ && _); reflexivity. }
    assert (Q2 : s_seqs (fst (fetch_err c fid t s)) = s_seqs s).
    { unfold fetch_err. destruct (get _ _) as [f|]; [|reflexivity].
      rewrite andthen_fst. unfold on_error. destruct (back _ _); [|reflexivity].
      destruct (to_number _); [|reflexivity]. destruct (_ && _); reflexivity. }
    assert (Q3 : filter rel (snd (fetch_err c fid t s)) = []).
    { unfold fetch_err. destruct (get _ _) as [f|]; [|reflexivity].
      rewrite andthen_snd. unfold on_error. destruct (back _ _); [|reflexivity].
      destruct (to_number _); [|reflexivity]. destruct (_ && _); reflexivity. }
    rewrite Q3. now apply eff_none.
  - unfold segment_validated. destruct (get _ _); [|apply eff_id]. now apply eff_none.
  - destruct (is_prefix _ _); [|apply eff_id].
    unfold process_interest. destruct (back 2 i) as [cv|]; [|now apply eff_none].
    destruct (if is_version cv then _ else None) as [[n [l k']]|]; [apply eff_none; reflexivity|].
    rewrite andthen_fst, andthen_snd. cbn [emit fst snd app filter rel].
    assert (Hst : forall n p, eff c s (e, EInterest i p k ver) (fst (serve_stored n p s)) (filter rel (snd (serve_stored n p s)))).
    { intros n b. unfold serve_stored. destruct (find _ _) as [[? ?]|]; now apply eff_none. }
    match goal with |- context [name_origin c ?n] => set (nm := n) end.
    destruct (name_origin c nm); [|unfold serve_stored; destruct (find _ _) as [[? ?]|]; now apply eff_none].
    destruct (eqb _ _); [|unfold serve_stored; destruct (find _ _) as [[? ?]|]; now apply eff_none].
    destruct (back 1 nm), (back 2 nm); try now apply eff_none.
    destruct (to_number c0); [|now apply eff_none].
    destruct (comp_type c1) as [t|]; [|now apply eff_none].
    rewrite andthen_fst, andthen_snd. cbn [emit fst snd app filter rel].
    unfold interest_for_lsa. destruct (find_lsa (n, t) s) as [l|]; [|now apply eff_none].
    destruct (N.eqb _ _); [|now apply eff_none].
    set (segs := segments _ _ _ _).
    assert (F : forall segs s0, (forall k, find_lsa k (fold_left (fun s e => fifo_insert c e s) segs s0) = find_lsa k s0)
               /\ s_seqs (fold_left (fun s e => fifo_insert c e s) segs s0) = s_seqs s0).
    { clear. induction segs as [|x segs IH]; intros s0; [split; reflexivity|].
      cbn [fold_left]. destruct (IH (fifo_insert c x s0)) as [A B]. split.
      - intros k. rewrite A. reflexivity.
      - rewrite B. reflexivity. }
    destruct (F segs s) as [F1 F2].
    rewrite !andthen_fst, !andthen_snd. cbn [upd fst snd app]. rewrite !filter_app.
    cbn [emit filter rel snd app].
    destruct (nth_error _ _) as [[nn [ll kk]]|]; cbn [emit ret fst snd filter rel app];
      apply eff_none; trivial.
  - rewrite build_name_build. change e with (fst (e, EBuildName)). apply eff_own_plain; trivial. now left.
  - unfold schedule_adj_build. destruct (eqb _ _); [now apply eff_none|].
    cbn [fst snd filter]. apply eff_none; unfold schedule_build, schedule, cancel; cbn [s_btid w_timers w_build].
    + intros k. destruct (s_btid s); reflexivity.
    + destruct (s_btid s); reflexivity.
Qed.

(** Lemmas for C55: what a router asks for, and the retrieval of one LSA. *)
From Verif Require Import Base M_Nexthop M_Tlv M_Adj M_Lsa M_Lsdb M_Codec M_Sync S_Lsdb S_Codec M_Net S_Net
  L_Lsdb L_Lsdb2 L_Lsdb3 L_Lsdb4 L_Lsdb5 L_Lsdb6 L_Lsdb7 L_Lsdb8 L_Lsdb9 L_Codec P_Codec P_Lsdb P_Lsdb2 P_Sync L_Net.
Open Scope Z_scope.
Set Implicit Arguments.

(** ** The newest number asked for was reported by sync *)

Lemma high_express i n face d s : s_high (fst (express i n face d s)) = s_high s \/
  exists cq q, back 1 i = Some cq /\ to_number cq = Some q /\ s_high (fst (express i n face d s)) = set (drop_last 1 i) q (s_high s) /\
    forall h, get (drop_last 1 i) (s_high s) = Some h -> (h < q)%N.
Proof.
  unfold express. destruct (back 1 i) as [cq|]; [|now left]. destruct (to_number cq) as [q|] eqn:Q; [|now left].
  destruct (note_high _ q s) as [s1|] eqn:En; [|now left].
  assert (G : forall s2, s_high s2 = s_high s1 -> s_high (fst ((match back 2 i with Some ct => stat_type SentIntT (comp_type ct) | None => ub end) s2)) = s_high s1).
  { intros s2 E2. destruct (back 2 i) as [ct|]; [|exact E2]. unfold stat_type. destruct (comp_type ct); exact E2. }
  rewrite !andthen_fst. cbn [emit upd fst]. rewrite G by reflexivity. clear G.
  unfold note_high in En. destruct (get _ (s_high s)) as [h|] eqn:Eh.
  - destruct (N.ltb_spec h q) as [L|L].
    + right. injection En as <-. exists cq, q. repeat (split; [assumption||reflexivity|]). intros h' [= <-]. exact L.
    + left. destruct (q <? h)%N; [discriminate|]. now injection En as <-.
  - right. injection En as <-. exists cq, q. repeat (split; [assumption||reflexivity|]). discriminate.
Qed.

Lemma high_step c s o x : invF c s o -> s_high (fst (step c s x)) = s_high s \/
  exists (u : name) q face, snd x = ESync u q face /\ s_high (fst (step c s x)) = set u (q mod 2 ^ 64)%N (s_high s).
Proof.
  intros H. unfold step. destruct (s_dead s); [now left|]. destruct x as [e v].
  assert (Q : forall a s1, s_high s1 = s_high s -> quietF a -> s_high (fst (a s1)) = s_high s).
  { intros a s1 E Ha. destruct (Ha s1) as [A _]. rewrite (sF_high A). exact E. }
  destruct v; cbn [step_live snd].
  - now left.
  - unfold on_sync. destruct (update_origin u) as [origin|] eqn:Eo; [|now left].
    pose proof (@update_origin_nil _ _ Eo) as Hne. unfold process_update.
    destruct (back1_Some Hne) as [ct Hct]. rewrite Hct.
    destruct (eqb origin _).
    + left. destruct (is_new _ _ _ _); [|reflexivity].
      destruct (comp_type ct) as [[]|]; [| | |reflexivity].
      * destruct (eqb _ _); [|reflexivity]. apply Q; [reflexivity|]. apply quietF_andthen; [apply quietF_setseq|apply quietF_build_own_adj].
      * destruct (eqb _ _); [|reflexivity]. apply Q; [reflexivity|]. apply quietF_andthen; [apply quietF_setseq|apply quietF_build_coord].
      * apply Q; [reflexivity|]. apply quietF_andthen; [apply quietF_setseq|apply quietF_build_name].
    + destruct (is_new _ _ _ _); [|now left]. destruct (_ && _); [now left|]. destruct (_ && _); [now left|].
      rewrite andthen_fst. cbn [emit fst].
      destruct (high_express (u ++ [number_comp (q mod 2 ^ 64)]) 0 face None s) as [E|(cq & q' & E1 & E2 & E3 & _)]; [now left|].
      right. rewrite back1_snoc in E1. injection E1 as <-. rewrite to_number_comp in E2 by (apply N.mod_lt; discriminate). injection E2 as <-.
      rewrite drop_last_snoc in E3. eauto.
  - left. unfold fire. destruct (get tid (s_timers s)) as [[due a]|] eqn:Et; [|reflexivity].
    cbn [t_due t_act]. destruct (due <=? s_now s); [|reflexivity].
    destruct a as [oid| |i n d|n|n]; try reflexivity.
    + apply Q; [reflexivity|apply quietF_expire].
    + apply Q; [reflexivity|apply quietF_build_adj].
    + assert (Hin : In (tid, Timer due (AExpress i n d)) (exp s)).
      { apply filter_In. split; [now apply get_In|reflexivity]. }
      destruct (iF_exp H _ _ _ _ _ Hin) as (u & q & -> & Hq & Hu & (h & Gh & Lh) & Hd).
      match goal with |- s_high (fst (express ?a ?b ?c ?d ?s1)) = _ => destruct (high_express a b c d s1) as [E|(cq & q' & E1 & E2 & E3 & E4)] end; [exact E|].
      rewrite back1_snoc in E1. injection E1 as <-. rewrite to_number_comp in E2 by exact Hq. injection E2 as <-.
      rewrite drop_last_snoc in E4. cbn [s_high w_timers] in E4. specialize (E4 _ Gh). lia.
  - left. unfold fetch_done. destruct (get fid (s_fetch s)) as [f|] eqn:Ef; [|reflexivity].
    destruct (iF_fetch H _ Ef) as (u & q & Ei & Hq & Hu & (h & Gh & Lh) & Hd). rewrite Ei.
    rewrite !andthen_fst. cbn [upd fst s_high w_fetch].
    match goal with |- s_high (fst (after_fetch _ _ _ _ ?s0)) = _ => set (s0' := s0) end.
    destruct (@after_fetch_cases c (e_sys e) u q content s0' (proj1 Hu) Hq) as [[_ ->]|(s1 & En & A & _)]; [reflexivity|].
    rewrite (sF_high A), (@note_high_kept u q s0' s1 h En Gh Lh). reflexivity.
  - left. unfold fetch_err. destruct (get fid (s_fetch s)) as [f|]; [|reflexivity]. rewrite andthen_fst. cbn [upd fst s_high w_fetch].
    unfold on_error. destruct (back 1 _) as [cq|]; [|reflexivity]. destruct (to_number cq); [|reflexivity]. destruct (_ && _); reflexivity.
  - left. apply Q; [reflexivity|apply quietF_segment].
  - left. destruct (is_prefix _ _); [|reflexivity]. destruct (@quietG_interest c iname can_be_prefix nseg ver s) as [A _]. exact (sG_high A).
  - left. apply Q; [reflexivity|apply quietF_build_name].
  - left. apply Q; [reflexivity|apply quietF_schedule_adj_build].
Qed.

Lemma high_exec c f now e0 evs (u : name) h : get u (s_high (fst (exec c f now e0 evs))) = Some h ->
  exists e q face, In (e, ESync u q face) evs /\ h = (q mod 2 ^ 64)%N.
Proof.
  revert h. induction evs as [|x evs IH] using rev_ind; intros h.
  - rewrite exec_fst. cbn [run fst]. unfold init. set (b := St _ _ _ _ _ _ _ _ _ _ _ _ _ _ _ _).
    assert (Q : quietF (build_name c e0 ;; (if eqb (c_hyp c) HOff then ret else build_coord c e0))).
    { apply quietF_andthen; [apply quietF_build_name|]. destruct (eqb _ _); [apply quietF_ret|apply quietF_build_coord]. }
    destruct (Q b) as [A _]. rewrite (sF_high A). discriminate.
  - intros Hh. pose proof (high_step x (invF_exec c f now e0 evs)) as S.
    assert (E : fst (exec c f now e0 (evs ++ [x])) = fst (step c (fst (exec c f now e0 evs)) x)).
    { rewrite !exec_fst, run_snoc. destruct (run (step c) (fst (init c f now e0)) evs) as [s o]. cbn [fst]. now destruct (step c s x). }
    rewrite E in Hh. destruct S as [S|(u' & q & face & Ex & S)].
    + rewrite S in Hh. destruct (IH _ Hh) as (e & q & face & Hi & ->). exists e, q, face. split; [apply in_or_app; now left|reflexivity].
    + rewrite S, get_set in Hh. destruct (eq_dec u u') as [<-|N].
      * rewrite eqb_refl in Hh. injection Hh as <-. destruct x as [e v]. cbn [snd] in Ex. subst v. exists e, q, face. split; [apply in_or_app; right; now left|reflexivity].
      * rewrite (proj2 (eqb_neq _ _) N) in Hh. destruct (IH _ Hh) as (e & q' & face' & Hi & ->). exists e, q', face'. split; [apply in_or_app; now left|reflexivity].
Qed.

(** ** One retrieval *)

Lemma express_state (s : st) (u : name) t q face : back 1 u = Some (type_comp t) -> (q < 2 ^ 64)%N -> (newest s u <= q)%N ->
  let s' := fst (express (u ++ [number_comp q]) 0 face None s) in
  (exists d, get (s_nfid s) (s_fetch s') = Some (Fetch (u ++ [number_comp q]) 0 d)) /\ get u (s_high s') = Some q /\
  (forall k, find_lsa k s' = find_lsa k s) /\ s_dead s' = s_dead s.
Proof.
  intros B Q W. cbv zeta. unfold express. rewrite drop_last_snoc, back1_snoc, back2_snoc, B, to_number_comp by exact Q.
  cbv beta iota. rewrite comp_type_comp. unfold note_high, newest in *.
  destruct (get u (s_high s)) as [h|] eqn:Eh; [destruct (N.ltb_spec h q) as [L|L]; [|destruct (N.ltb_spec q h); [lia|]]|];
    rewrite !andthen_fst; cbn [emit upd fst stat_type s_fetch w_fetch w_high s_high s_nfid s_dead]; rewrite get_set_eq.
  - split; [eauto|]. rewrite get_set_eq. auto.
  - assert (h = q) by lia. subst h. split; [eauto|]. auto.
  - split; [eauto|]. rewrite get_set_eq. auto.
Qed.

Lemma fetch_done_offered c sys fid f (u : name) q o t d s : invS None s -> get fid (s_fetch s) = Some f -> f_iname f = u ++ [number_comp q] ->
  (q < 2 ^ 64)%N -> get u (s_high s) = Some q -> name_origin c (u ++ [number_comp q]) = Some o -> back 1 u = Some (type_comp t) ->
  is_new o (Some t) q s = true -> l_type d = t -> offered s d (fst (fetch_done c sys fid (Some d) s)).
Proof.
  intros I Ef Ei Q Gh No B Nw T k. unfold fetch_done. rewrite Ef, Ei, back1_snoc, drop_last_snoc, to_number_comp by exact Q.
  rewrite !andthen_fst. cbn [upd fst]. set (s0 := w_sto _ s). unfold after_fetch. rewrite back1_snoc, drop_last_snoc, to_number_comp by exact Q.
  assert (En : note_high u q s0 = Some s0). { unfold note_high, s0. cbn [s_high w_sto]. rewrite Gh. destruct (N.ltb_spec q q); [lia|reflexivity]. }
  rewrite En, No, back2_snoc, B, comp_type_comp. rewrite !andthen_fst. cbn [emit fst].
  assert (Nw' : is_new o (Some t) q s0 = true) by exact Nw. rewrite Nw', T, eqb_refl.
  assert (I0 : invS None s0). { destruct I. constructor; assumption. }
  pose proof (install_offered c sys d I0 k) as X. exact X.
Qed.

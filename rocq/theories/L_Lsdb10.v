(** The database ends only with an exception or undefined behaviour, which it puts out. *)
From Verif Require Import Base M_Nexthop M_Tlv M_Adj M_Lsa M_Lsdb L_Lsdb7.
Open Scope Z_scope.
Set Implicit Arguments.

Definition told (s : st) (r : st * list out) : Prop :=
  s_dead (fst r) = true -> s_dead s = true \/ In OThrow (snd r) \/ In OUb (snd r).
Lemma told_pure s s' o : s_dead s' = s_dead s -> told s (s', o).
Proof. intros E H. cbn [fst] in H. left. congruence. Qed.
Lemma told_seq (f g : act) s : told s (f s) -> (forall s, told s (g s)) -> told s ((f ;; g) s).
Proof.
  intros F G. unfold andthen. specialize (G (fst (f s))). destruct (f s) as [s1 o1]. cbn [fst] in G. destruct (g s1) as [s2 o2].
  unfold told in *. cbn [fst snd] in *. intros H. destruct (G H) as [D|[D|D]].
  - destruct (F D) as [E|[E|E]]; [now left|right; left|right; right]; apply in_or_app; now left.
  - right; left. apply in_or_app. now right.
  - right; right. apply in_or_app. now right.
Qed.
Lemma told_throw s : told s (throw s). Proof. intros _. right. left. now left. Qed.
Lemma told_ub s : told s (ub s). Proof. intros _. right. right. now left. Qed.
Lemma told_emit o s : told s (emit o s). Proof. now apply told_pure. Qed.
Lemma told_ret s : told s (ret s). Proof. now apply told_pure. Qed.
Lemma told_upd f s : (forall s, s_dead (f s) = s_dead s) -> told s (upd f s). Proof. intros H. now apply told_pure. Qed.
Lemma told_from s s1 r : s_dead s1 = s_dead s -> told s1 r -> told s r.
Proof. unfold told. intros E T H. rewrite <- E. auto. Qed.
#[local] Hint Resolve told_throw told_ub told_emit told_ret : told.

Lemma dead_cancel t s : s_dead (cancel t s) = s_dead s. Proof. now destruct t. Qed.
Lemma dead_sched_exp i z s : s_dead (schedule_expiration i z s) = s_dead s.
Proof. unfold schedule_expiration. cbn. destruct (get i (s_heap s)); [|reflexivity]. cbn. now rewrite dead_cancel. Qed.
Lemma dead_sched_build z s : s_dead (schedule_build z s) = s_dead s.
Proof. unfold schedule_build. cbn. now rewrite dead_cancel. Qed.
Lemma dead_high n q s s1 : note_high n q s = Some s1 -> s_dead s1 = s_dead s.
Proof.
  unfold note_high. destruct (get n (s_high s)); [destruct (_ <? _)%N; [|destruct (_ <? _)%N]|]; intros H; try discriminate H; injection H as <-; reflexivity.
Qed.

Section L.
Variable c : conf.
Lemma told_install z l s : told s (install c z l s).
Proof.
  unfold install. destruct find_oid; [|apply told_pure; now rewrite dead_sched_exp]. destruct get; [|now apply told_pure].
  destruct (_ <? _)%N; [|now apply told_pure]. destruct (update_body _ _) as [[[u b] a] d]. apply told_pure. now rewrite dead_sched_exp.
Qed.
Lemma told_remove k s : told s (remove k s).
Proof. unfold remove. destruct find_lsa; now apply told_pure. Qed.
Lemma told_bump t s : told s (bump t s). Proof. now apply told_pure. Qed.
Lemma told_write s : told s (write_seqs s). Proof. now apply told_pure. Qed.
Lemma told_publish t s : told s (publish t s). Proof. now apply told_pure. Qed.
#[local] Hint Resolve told_install told_remove told_bump told_write told_publish : told.
Lemma told_name e s : told s (build_name c e s).
Proof. unfold build_name. do 3 (apply told_seq; [auto with told|intros ?]). auto with told. Qed.
Lemma told_coord e s : told s (build_coord c e s).
Proof. unfold build_coord. do 2 (apply told_seq; [auto with told|intros ?]). apply told_seq; [destruct (eqb (c_hyp c) HOff); auto with told|intros ?]. auto with told. Qed.
Lemma told_own_adj e s : told s (build_own_adj c e s).
Proof. unfold build_own_adj. do 2 (apply told_seq; [auto with told|intros ?]). apply told_seq; [destruct (eqb (c_hyp c) HOn); auto with told|intros ?]. auto with told. Qed.
#[local] Hint Resolve told_name told_coord told_own_adj : told.
Lemma told_build e s : told s (build_adj c e s).
Proof.
  unfold build_adj. destruct is_buildable; [|apply told_pure; now rewrite dead_sched_build].
  destruct (_ <? _); [|now apply told_pure]. apply told_from with (s1 := w_build false (s_count s) (s_btid s) s); [reflexivity|].
  apply told_seq; [destruct Nat.ltb; auto with told|]. intros ?. now apply told_upd.
Qed.
Lemma told_expire z i s : told s (expire_or_refresh c z i s).
Proof.
  unfold expire_or_refresh. destruct get; [|now apply told_pure]. destruct find_oid; [|now apply told_pure]. destruct get; [|now apply told_pure].
  destruct (_ =? _)%N; [|now apply told_pure]. destruct (eqb _ _); [|apply told_remove].
  eapply told_from; [|apply told_seq; auto with told]. now rewrite dead_sched_exp.
Qed.
Lemma told_express n k f d s : told s (express n k f d s).
Proof.
  unfold express. destruct (back 1 n); [|auto with told]. destruct to_number; [|apply told_seq; auto with told].
  destruct (note_high _ _ s) as [s1|] eqn:E; [|now apply told_pure]. eapply told_from; [eapply dead_high; eassumption|].
  do 2 (apply told_seq; [auto with told|intros ?]). apply told_seq; [now apply told_upd|]. intros ?.
  destruct (back 2 n); [|auto with told]. unfold stat_type. destruct comp_type; auto with told.
Qed.
Lemma told_on_error f b s : told s (on_error c f b s).
Proof.
  unfold on_error. destruct (back 1 _); [|auto with told]. destruct to_number; [|auto with told]. destruct (_ && _); now apply told_pure.
Qed.
Lemma told_after z n l s : told s (after_fetch c z n l s).
Proof.
  unfold after_fetch. destruct (back 1 n); [|auto with told]. destruct to_number; [|apply told_seq; auto with told].
  destruct (note_high _ _ s) as [s1|] eqn:E; [|now apply told_pure]. eapply told_from; [eapply dead_high; eassumption|].
  apply told_seq; [auto with told|]. intros ?. destruct name_origin; [|auto with told]. destruct (back 2 n); [|auto with told].
  destruct comp_type; [|auto with told]. apply told_seq; [auto with told|]. intros ?. destruct is_new; [|now apply told_pure].
  destruct l; [|now apply told_pure]. destruct (eqb _ _); [auto with told|now apply told_pure].
Qed.
#[local] Hint Resolve told_build told_expire told_express told_on_error told_after : told.
Lemma told_update e u q o f s : told s (process_update c e u q o f s).
Proof.
  unfold process_update. destruct (back 1 u); [|auto with told].
  assert (X : forall g a, (forall s, s_dead (g s) = s_dead s) -> (forall s, told s (a s)) -> told s ((upd g ;; a) s)).
  { intros g a G A. apply told_seq; [now apply told_upd|exact A]. }
  destruct (eqb o (c_self c)).
  - destruct is_new; [|now apply told_pure]. destruct comp_type as [[]|]; [| | |now apply told_pure].
    all: repeat match goal with |- told _ (if ?b then _ else _) => destruct b end; try (now apply told_pure); apply X; auto with told.
  - destruct is_new; [|now apply told_pure]. do 2 (destruct (_ && _); [now apply told_pure|]). apply told_seq; auto with told.
Qed.
Lemma told_interest n p k v s : told s (process_interest c n p k v s).
Proof.
  assert (S : forall s, told s (serve_stored n p s)).
  { intros s0. unfold serve_stored. destruct find as [[]|]; now apply told_pure. }
  unfold process_interest. destruct (back 2 n); [|auto with told].
  match goal with |- context[match ?d with Some _ => _ | None => _ end] => destruct d as [[? []]|] end; [now apply told_pure|].
  apply told_seq; [auto with told|]. intros ?. destruct name_origin; [|apply S]. destruct (eqb _ _); [|apply S].
  destruct (back 1 _); [|auto with told]. destruct (back 2 _); [|auto with told]. destruct to_number; [|auto with told].
  destruct comp_type; [|auto with told]. apply told_seq; [auto with told|]. intros ?. unfold interest_for_lsa.
  destruct find_lsa; [|now apply told_pure]. destruct (_ =? _)%N; [|now apply told_pure].
  apply told_seq; [apply told_pure; apply fifo_inserts_dead|]. intros ?.
  apply told_seq; [destruct nth_error as [[? []]|]; auto with told|]. intros ?. apply told_seq; auto with told.
Qed.
Lemma told_step s x : told s (step c s x).
Proof.
  unfold step. destruct (s_dead s) eqn:D; [now apply told_pure|]. destruct x as [e v]. destruct v; cbn [step_live].
  - now apply told_pure.
  - unfold on_sync. destruct update_origin; [apply told_update|now apply told_pure].
  - unfold fire. destruct get as [t|]; [|now apply told_pure]. destruct (_ <=? _); [|now apply told_pure].
    destruct (t_act t); try (now apply told_pure); (eapply told_from; [|auto with told]; reflexivity).
  - unfold fetch_done. destruct get; [|now apply told_pure]. apply told_seq; [now apply told_upd|]. intros ?.
    apply told_seq; [auto with told|]. intros ?. now apply told_upd.
  - unfold fetch_err. destruct get; [|now apply told_pure]. apply told_seq; [auto with told|]. intros ?. now apply told_upd.
  - unfold segment_validated. destruct get; [|now apply told_pure]. apply told_seq; [auto with told|]. intros ?. now apply told_upd.
  - destruct is_prefix; [apply told_interest|now apply told_pure].
  - apply told_name.
  - unfold schedule_adj_build. destruct (eqb _ _); apply told_pure; [reflexivity|now rewrite dead_sched_build].
Qed.
Lemma told_run xs s : told s (run (step c) s xs).
Proof.
  revert s. induction xs as [|x xs IH]; intros s; [now apply told_pure|]. cbn [run].
  exact (@told_seq (fun s => step c s x) (fun s => run (step c) s xs) s (told_step s x) IH).
Qed.
Lemma init_alive f now e : s_dead (fst (init c f now e)) = false.
Proof.
  destruct (s_dead (fst (init c f now e))) eqn:D; [exfalso|reflexivity]. revert D. unfold init. 
  assert (X : forall e s, s_dead (fst (build_name c e s)) = s_dead s /\ s_dead (fst (build_coord c e s)) = s_dead s).
  { clear. assert (Hi : forall z l s, s_dead (fst (install c z l s)) = s_dead s).
    { intros z l s. unfold install. destruct find_oid; [|cbn [fst]; now rewrite dead_sched_exp]. destruct get; [|reflexivity].
      destruct (_ <? _)%N; [|reflexivity]. destruct (update_body _ _) as [[[u b] a] d]. cbn [fst]. now rewrite dead_sched_exp. }
    intros e s. unfold build_name, build_coord, andthen, bump, write_seqs, publish, upd, ret. split.
    - cbn beta iota. match goal with |- context[install c ?z ?l ?s1] => specialize (Hi z l s1); destruct (install c z l s1) end. exact Hi.
    - cbn beta iota. destruct (eqb _ _); cbn beta iota; match goal with |- context[install c ?z ?l ?s1] => specialize (Hi z l s1); destruct (install c z l s1) end; exact Hi. }
  unfold andthen. match goal with |- context[build_name c e ?s0] => destruct (X e s0) as [X1 _]; destruct (build_name c e s0) as [s1 o1] end. cbn [fst s_dead] in X1.
  destruct (eqb _ _).
  - cbn. congruence.
  - destruct (X e s1) as [_ X2]. destruct (build_coord c e s1) as [s2 o2]. cbn [fst] in *. congruence.
Qed.
End L.

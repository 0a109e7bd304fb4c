(** What the events of the database and of the hello protocol put out, as far as statistics go. *)
From Verif Require Import Base M_Nexthop M_Tlv M_Adj M_Lsa M_Lsdb M_Hello.
Set Implicit Arguments.

Inductive grp := GPlain | GFetch | GRcv | GInt.
Definition cls (x : out) : grp :=
  match x with
  | OFetch _ _ | OStat SentInt | OStat (SentIntT _) => GFetch
  | OStat RcvData | OStat (RcvDataT _) => GRcv
  | OStat RcvInt | OStat (RcvIntT _) | OStat SentData | OStat (SentDataT _) | OData _ _ _ | OStored _ _ => GInt
  | _ => GPlain
  end.

Section Ok.
Variable c : conf.
Variable P : list out -> Prop.
Hypothesis P0 : P [].
Hypothesis Papp : forall a b, P a -> P b -> P (a ++ b).
Hypothesis Ppl : forall x, cls x = GPlain -> P [x].
Definition ok (a : act) : Prop := forall s, P (snd (a s)).

Lemma ok_seq f g : ok f -> ok g -> ok (f ;; g).
Proof using Papp.
  intros F G s. unfold andthen. specialize (F s). destruct (f s) as [s1 o1]. specialize (G s1). destruct (g s1) as [s2 o2]. now apply Papp.
Qed.
Lemma ok_ret : ok ret. Proof using P0. intros s. exact P0. Qed.
Lemma ok_upd f : ok (upd f). Proof using P0. intros s. exact P0. Qed.
Lemma ok_emit x : cls x = GPlain -> ok (emit x). Proof using Ppl. intros H s. now apply Ppl. Qed.
Lemma ok_throw : ok throw. Proof using Ppl. intros s. now apply Ppl. Qed.
Lemma ok_ub : ok ub. Proof using Ppl. intros s. now apply Ppl. Qed.
Lemma ok_write : ok write_seqs.
Proof using Papp Ppl. intros s. cbn. apply (@Papp [_] [_]); now apply Ppl. Qed.
Lemma ok_publish t : ok (publish t). Proof using Ppl. intros s. now apply Ppl. Qed.
Lemma ok_install sys l : ok (install c sys l).
Proof using P0 Ppl.
  intros s. unfold install. destruct (find_oid _ s) as [oid|]; [|now apply Ppl].
  destruct (get oid (s_heap s)); [|exact P0]. destruct (_ <? _)%N; [|exact P0].
  destruct (update_body _ _) as [[[u b] a] r]. cbn [snd]. destruct u; [now apply Ppl|exact P0].
Qed.
Lemma ok_remove k : ok (remove k).
Proof using P0 Ppl. intros s. unfold remove. destruct (find_lsa k s); [now apply Ppl|exact P0]. Qed.
Lemma ok_name e : ok (build_name c e).
Proof using P0 Papp Ppl. intros s. unfold build_name. apply ok_seq; [apply ok_upd|]. apply ok_seq; [apply ok_write|]. apply ok_seq; [apply ok_publish|apply ok_install]. Qed.
Lemma ok_coord e : ok (build_coord c e).
Proof using P0 Papp Ppl.
  intros s. unfold build_coord. apply ok_seq; [apply ok_upd|]. apply ok_seq; [apply ok_write|].
  apply ok_seq; [destruct (eqb _ _); [apply ok_ret|apply ok_publish]|apply ok_install].
Qed.
Lemma ok_adj e : ok (build_own_adj c e).
Proof using P0 Papp Ppl.
  intros s. unfold build_own_adj. apply ok_seq; [apply ok_upd|]. apply ok_seq; [apply ok_write|].
  apply ok_seq; [destruct (eqb _ _); [apply ok_ret|apply ok_publish]|apply ok_install].
Qed.
Lemma ok_build e : ok (build_adj c e).
Proof using P0 Papp Ppl.
  intros s. unfold build_adj. destruct (is_buildable _ _); [|exact P0]. destruct (_ <? _)%Z; [|exact P0].
  apply ok_seq; [|apply ok_upd]. destruct (Nat.ltb _ _); [apply ok_adj|apply ok_remove].
Qed.
Lemma ok_expire sys o : ok (expire_or_refresh c sys o).
Proof using P0 Papp Ppl.
  intros s. unfold expire_or_refresh. destruct (get o (s_heap s)); [|exact P0]. destruct (find_oid _ s) as [o'|]; [|exact P0].
  destruct (get o' (s_heap s)); [|exact P0]. destruct (_ =? _)%N; [|exact P0]. destruct (eqb _ _); [|apply ok_remove].
  apply ok_seq; [apply ok_write|apply ok_publish].
Qed.
Lemma ok_error f t : ok (on_error c f t).
Proof using P0 Ppl.
  intros s. unfold on_error. destruct (back 1 _); [|now apply ok_ub]. destruct (to_number _); [|now apply ok_throw].
  destruct (_ && _); exact P0.
Qed.
Lemma ok_fetch_err f t : ok (fetch_err c f t).
Proof using P0 Papp Ppl. intros s. unfold fetch_err. destruct (get f (s_fetch s)); [|exact P0]. apply ok_seq; [apply ok_error|apply ok_upd]. Qed.
Lemma ok_segment f n d : ok (segment_validated f n d).
Proof using P0 Papp Ppl. intros s. unfold segment_validated. destruct (get f (s_fetch s)); [|exact P0]. apply ok_seq; [now apply ok_emit|apply ok_upd]. Qed.
Lemma ok_schedule : ok (schedule_adj_build c).
Proof using P0. intros s. unfold schedule_adj_build. destruct (eqb _ _); exact P0. Qed.

Hypothesis Hexp : forall n k f d, ok (M_Lsdb.express n k f d).
Lemma ok_update e u q o f : ok (process_update c e u q o f).
Proof using P0 Papp Ppl Hexp.
  intros s. unfold process_update. destruct (back 1 u); [|now apply ok_ub]. destruct (eqb o _).
  - destruct (is_new _ _ _ s); [|exact P0]. destruct (comp_type _) as [[]|]; try exact P0.
    + destruct (eqb _ _); [|exact P0]. apply ok_seq; [apply ok_upd|apply ok_adj].
    + destruct (eqb _ _); [|exact P0]. apply ok_seq; [apply ok_upd|apply ok_coord].
    + apply ok_seq; [apply ok_upd|apply ok_name].
  - destruct (is_new _ _ _ s); [|exact P0]. destruct (_ && _); [exact P0|]. destruct (_ && _); [exact P0|].
    apply ok_seq; [now apply ok_emit|apply Hexp].
Qed.
Lemma ok_sync e u q f : ok (on_sync c e u q f).
Proof using P0 Papp Ppl Hexp. intros s. unfold on_sync. destruct (update_origin u); [apply ok_update|exact P0]. Qed.
Lemma ok_fire e t : ok (fire c e t).
Proof using P0 Papp Ppl Hexp.
  intros s. unfold fire. destruct (get t (s_timers s)) as [tm|]; [|exact P0]. destruct (_ <=? _)%Z; [|exact P0].
  destruct (t_act tm); [apply ok_expire|apply ok_build|apply Hexp|exact P0|exact P0].
Qed.

Hypothesis Hint : forall n p k v, ok (M_Lsdb.process_interest c n p k v).
(** All events but the end of a retrieval. *)
Lemma ok_most s e v : (forall f l, v <> EFetchDone f l) -> P (snd (step c s (e, v))).
Proof using P0 Papp Ppl Hexp Hint.
  intros N. unfold step. destruct (s_dead s); [exact P0|]. destruct v; cbn [step_live]; try exact P0.
  - apply ok_sync.
  - apply ok_fire.
  - exfalso. eapply N. reflexivity.
  - apply ok_fetch_err.
  - apply ok_segment.
  - destruct (is_prefix _ _); [apply Hint|exact P0].
  - apply ok_name.
  - apply ok_schedule.
Qed.
Hypothesis Hrcv : forall sys n l, ok (after_fetch c sys n l).
Lemma ok_step s x : P (snd (step c s x)).
Proof using P0 Papp Ppl Hexp Hint Hrcv.
  destruct x as [e v].
  assert (D : (exists f l, v = EFetchDone f l) \/ forall f l, v <> EFetchDone f l) by (destruct v; eauto; right; discriminate).
  destruct D as [(f & l & ->)|D]; [|now apply ok_most]. unfold step. destruct (s_dead s); [exact P0|]. cbn [step_live].
  unfold fetch_done. destruct (get f (s_fetch s)); [|exact P0]. apply ok_seq; [apply ok_upd|]. apply ok_seq; [apply Hrcv|apply ok_upd].
Qed.
Lemma ok_run xs s : P (snd (run (step c) s xs)).
Proof using P0 Papp Ppl Hexp Hint Hrcv.
  revert s. induction xs as [|x xs IH]; intros s; [exact P0|]. cbn [run]. pose proof (ok_step s x) as S.
  destruct (step c s x) as [s1 o1]. specialize (IH s1). destruct (run (step c) s1 xs) as [s2 o2]. now apply Papp.
Qed.
Lemma ok_init f now e : P (snd (init c f now e)).
Proof using P0 Papp Ppl. unfold init. apply ok_seq; [apply ok_name|]. destruct (eqb _ _); [apply ok_ret|apply ok_coord]. Qed.
End Ok.

(** The packets of one group only occur where they belong. *)
Section Neutral.
Variable c : conf.
Variable P : list out -> Prop.
Hypothesis P0 : P [].
Hypothesis Papp : forall a b, P a -> P b -> P (a ++ b).
Lemma neutral_express n k f d : (forall x, cls x = GPlain \/ cls x = GFetch -> P [x]) -> ok P (M_Lsdb.express n k f d).
Proof using P0 Papp.
  intros H s. unfold M_Lsdb.express. destruct (back 1 n); [|apply H; auto]. destruct (to_number _).
  2: { apply (ok_seq Papp); intros s'; apply H; auto. }
  destruct (note_high _ _ s) as [s1|]; [|apply H; auto].
  apply (ok_seq Papp); [intros s'; apply H; auto|]. apply (ok_seq Papp); [intros s'; apply H; auto|]. apply (ok_seq Papp); [now apply ok_upd|].
  destruct (back 2 n) as [ct|]; [|intros s'; apply H; auto]. unfold stat_type. destruct (comp_type ct); [intros s'; apply H; auto|now apply ok_ret].
Qed.
Lemma neutral_rcv sys n l : (forall x, cls x = GPlain \/ cls x = GRcv -> P [x]) -> ok P (after_fetch c sys n l).
Proof using P0 Papp.
  intros H s. unfold after_fetch. destruct (back 1 n); [|apply H; auto]. destruct (to_number _).
  2: { apply (ok_seq Papp); intros s'; apply H; auto. }
  destruct (note_high _ _ s) as [s1|]; [|apply H; auto].
  apply (ok_seq Papp); [intros s'; apply H; auto|]. destruct (name_origin c n); [|now apply ok_ret].
  destruct (back 2 n) as [ct|]; [|intros s'; apply H; auto]. destruct (comp_type ct); [|now apply ok_ret].
  apply (ok_seq Papp); [intros s'; apply H; auto|]. intros s'. destruct (is_new _ _ _ s'); [|exact P0].
  destruct l as [l|]; [|exact P0]. destruct (eqb _ _); [|exact P0]. apply ok_install; [exact P0|intros; apply H; auto].
Qed.
Lemma neutral_stored n p : (forall x, cls x = GPlain \/ cls x = GInt -> P [x]) -> ok P (serve_stored n p).
Proof using P0. intros H s. unfold serve_stored. destruct (find _ _) as [[]|]; [apply H; auto|exact P0]. Qed.
Lemma neutral_int n p k v : (forall x, cls x = GPlain \/ cls x = GInt -> P [x]) -> ok P (M_Lsdb.process_interest c n p k v).
Proof using P0 Papp.
  intros H s. unfold M_Lsdb.process_interest. destruct (back 2 n); [|apply H; auto].
  destruct (if is_version _ then _ else _) as [[? []]|]; [apply H; auto|]. apply (ok_seq Papp); [intros s'; apply H; auto|].
  set (m := if is_version _ then _ else _). destruct (name_origin c m); [|now apply neutral_stored].
  destruct (eqb _ _); [|now apply neutral_stored]. destruct (back 1 m), (back 2 m); try (intros s'; apply H; auto).
  destruct (to_number _); [|intros s'; apply H; auto]. destruct (comp_type _); [|now apply ok_ret].
  apply (ok_seq Papp); [intros s'; apply H; auto|]. intros s'. unfold interest_for_lsa. destruct (find_lsa _ s'); [|exact P0].
  destruct (_ =? _)%N; [|exact P0]. apply (ok_seq Papp); [now apply ok_upd|]. apply (ok_seq Papp).
  { match goal with |- ok P match ?e with _ => _ end => destruct e as [[? []]|] end; [intros s2; apply H; auto|now apply ok_ret]. }
  apply (ok_seq Papp); intros s2; apply H; auto.
Qed.
End Neutral.

(** ** The hello protocol *)
Section H.
Variable c : hconf.
Variable P : list hout -> Prop.
Hypothesis P0 : P [].
Hypothesis Papp : forall a b, P a -> P b -> P (a ++ b).
Definition hplain (x : hout) : bool := match x with HExpress _ | HReply _ | HStat _ => false | _ => true end.
Hypothesis Ppl : forall x, hplain x = true -> P [x].
Definition hok (a : hact) : Prop := forall s, P (snd (a s)).
Lemma hok_seq f g : hok f -> hok g -> hok (hseq f g).
Proof using Papp.
  intros F G s. unfold hseq. specialize (F s). destruct (f s) as [s1 o1]. specialize (G s1). destruct (g s1) as [s2 o2]. now apply Papp.
Qed.
Lemma Pall l : (forall x, In x l -> hplain x = true) -> P l.
Proof using P0 Papp Ppl.
  induction l as [|x l IH]; intros H; [exact P0|]. apply (@Papp [x] l); [apply Ppl, H; now left|]. apply IH. intros y Hy. apply H. now right.
Qed.
Lemma hok_changed : hok (changed c).
Proof using Ppl. intros s. unfold changed. apply Ppl. now destruct (eqb _ _). Qed.
Lemma faces_plain faces a x : In x (snd (match_faces c faces a)) -> hplain x = true.
Proof using.
  revert a. induction faces as [|[f u] faces IH]; intros a H; cbn [match_faces] in H; [destruct H|].
  destruct (_ && _); [|now apply IH in H]. specialize (IH (set_face f a)). destruct (match_faces c faces (set_face f a)) as [a' o].
  cbn [snd] in *. apply in_app_iff in H as [[<-|[<-|[]]]|H]; auto.
Qed.
Lemma all_plain faces l x : In x (snd (match_all c faces l)) -> hplain x = true.
Proof using.
  induction l as [|a l IH]; cbn [match_all]; [easy|]. pose proof (@faces_plain faces a x) as F. destruct (match_faces c faces a) as [a' o].
  destruct (match_all c faces l) as [r o']. cbn [snd] in *. intros H. apply in_app_iff in H as [H|H]; auto.
Qed.

Hypothesis Hexp : forall n, hok (M_Hello.express n).
Lemma hok_send n : hok (send_hello c n).
Proof using P0 Papp Hexp.
  intros s. unfold send_hello. destruct (adl_find n (h_adl s)) as [a|]; [|exact P0].
  apply hok_seq; [|intros s'; exact P0]. destruct (_ =? _)%N; [intros s'; exact P0|apply Hexp].
Qed.
Lemma hok_touts p : hok (timed_out c p).
Proof using P0 Ppl Hexp.
  intros s. unfold timed_out. destruct (negb _); [exact P0|]. destruct (_ <? _)%N; [apply Hexp|].
  destruct (eqb _ _); [apply hok_changed|exact P0].
Qed.
Hypothesis Hint : forall n, hok (M_Hello.process_interest c n).
Hypothesis Hdata : forall n, hok (content_validated c n).
Lemma hok_most s v : (forall n, v <> HvInterest n) -> (forall i d, v <> HvData i d) -> P (snd (hstep c s v)).
Proof using P0 Papp Ppl Hexp.
  clear Hint Hdata. intros N1 N2. unfold hstep. destruct (h_dead s); [exact P0|]. destruct v; try exact P0.
  - apply hok_send.
  - destruct (get t (h_loop s)); [apply hok_send|exact P0].
  - exfalso. eapply N2. reflexivity.
  - destruct (get i (h_pend s)); exact P0.
  - destruct (get t (h_nack s)); [apply hok_touts|exact P0].
  - destruct (get i (h_pend s)); [apply hok_touts|exact P0].
  - exfalso. eapply N1. reflexivity.
  - unfold face_destroyed. destruct (adl_find_face f (h_adl s)); [|exact P0]. destruct (eqb _ _); [apply hok_changed|exact P0].
  - unfold face_created. destruct (adl_find_uri u (h_adl s)); [|exact P0]. destruct (_ || _); [|exact P0]. cbn [snd].
    apply Pall. intros x [<-|[<-|[]]]; reflexivity.
  - unfold face_dataset. pose proof (@all_plain faces (h_adl s)) as F. destruct (match_all c faces (h_adl s)) as [l o]. now apply Pall.
  - destruct (h_ds s); [|exact P0]. unfold dataset_failed. destruct (_ <? _)%N; [now apply Ppl|exact P0].
  - destruct (h_ds s); [exact P0|now apply Ppl].
Qed.
Lemma hok_step s v : P (snd (hstep c s v)).
Proof using P0 Papp Ppl Hexp Hint Hdata.
  assert (D : (exists n, v = HvInterest n) \/ (exists i d, v = HvData i d) \/ ((forall n, v <> HvInterest n) /\ forall i d, v <> HvData i d)).
  { destruct v; eauto; right; right; split; discriminate. }
  destruct D as [(n & ->)|[(i & d & ->)|[D1 D2]]]; [| |now apply hok_most]; unfold hstep; destruct (h_dead s); try exact P0.
  - destruct (prefix_of _ _); [apply Hint|exact P0].
  - destruct (get i (h_pend s)); [|exact P0]. destruct (prefix_of _ _); [apply Hdata|exact P0].
Qed.
Lemma hok_run vs s : P (snd (run (hstep c) s vs)).
Proof using P0 Papp Ppl Hexp Hint Hdata.
  revert s. induction vs as [|x vs IH]; intros s; [exact P0|]. cbn [run]. pose proof (hok_step s x) as S.
  destruct (hstep c s x) as [s1 o1]. specialize (IH s1). destruct (run (hstep c) s1 vs) as [s2 o2]. now apply Papp.
Qed.
End H.

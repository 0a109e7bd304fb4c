(** C53: the statistics counters. *)
From Verif Require Import Base M_Nexthop M_Tlv M_Adj M_Lsa M_Lsdb M_Prefix M_Hello M_Router M_Stats S_Router L_Router L_Router2
  L_Router3 L_Router6 L_Stats X_Lsdb X_Router.
Open Scope Z_scope.

(** ** Specification *)

Definition cnt {A} (f : A -> bool) (l : list A) : nat := length (filter f l).
(** The operations since the last reset. *)
Definition since_reset (ops : list sop) : list sop :=
  fold_left (fun acc o => match o with SReset => [] | SInc p => acc ++ [SInc p] end) ops [].
Definition is_inc (p : ptype) (o : sop) : bool := match o with SInc q => eqb q p | SReset => false end.

(** Packets of the hello protocol: Interests sent, answers sent. *)
Definition hello_sent (x : hout) : bool := match x with HExpress _ => true | _ => false end.
Definition hello_answer (x : hout) : bool := match x with HReply _ => true | _ => false end.
(** A hello Interest for this router arrives. *)
Definition hello_rcvd (c : hconf) (v : hev) : bool :=
  match v with HvInterest n => prefix_of (hc_self c ++ [NLSR; INFO]) n | _ => false end.
(** A validated Data answers a pending hello Interest. *)
Definition hello_data (s : hst) (v : hev) : bool :=
  match v with
  | HvData i d => match get i (h_pend s) with Some p => prefix_of p d | None => false end
  | _ => false
  end.
Fixpoint hello_datas (c : hconf) (s : hst) (vs : list hev) : nat :=
  match vs with
  | [] => O
  | v :: vs' => ((if hello_data s v then 1 else 0) + hello_datas c (fst (hstep c s v)) vs')%nat
  end.

(** The retrieval of an LSA of type [t] starts. *)
Definition fetch_type (n : name) : option ltype := match back 2 n with Some ct => comp_type ct | None => None end.
Definition fetches (t : ltype) (x : out) : bool := match x with OFetch n _ => eqb (fetch_type n) (Some t) | _ => false end.
Definition fetches_any (x : out) : bool := match x with OFetch _ _ => true | _ => false end.
(** A retrieval ends with an LSA. *)
Definition fetched (s : st) (v : ev) : bool :=
  match v with EFetchDone fid _ => match get fid (s_fetch s) with Some _ => true | None => false end | _ => false end.
Fixpoint fetcheds (c : conf) (s : st) (xs : list (env * ev)) : nat :=
  match xs with
  | [] => O
  | x :: xs' => ((if fetched s (snd x) then 1 else 0) + fetcheds c (fst (step c s x)) xs')%nat
  end.
Definition lsa_stat (p : pkt) (x : out) : bool := match x with OStat q => eqb (PtLsa q) (PtLsa p) | _ => false end.
Definition hello_stat (p : hpkt) (x : hout) : bool := match x with HStat q => eqb (PtHello q) (PtHello p) | _ => false end.

Lemma cnt_app A (f : A -> bool) a b : cnt f (a ++ b) = (cnt f a + cnt f b)%nat.
Proof. unfold cnt. now rewrite filter_app, app_length. Qed.

(** ** Counters *)

Lemma st_get_set p q v m : st_get p (set q v m) = if eqb q p then v else st_get p m.
Proof.
  unfold st_get. destruct (eqb q p) eqn:E; [apply eqb_eq in E; subst; now rewrite get_set_eq|].
  rewrite get_set_ne; [reflexivity|]. apply eqb_neq in E. congruence.
Qed.
Lemma st_get_reset p m : st_get p (st_reset m) = 0.
Proof.
  unfold st_get, st_reset. induction m as [|[q v] m IH]; cbn [map get fst snd]; [reflexivity|]. destruct (eqb _ _); [reflexivity|exact IH].
Qed.
Lemma st_run_snoc ops o m : st_run (ops ++ [o]) m = match st_run ops m with
  | Some m' => match o with SInc p => st_inc p m' | SReset => Some (st_reset m') end | None => None end.
Proof.
  revert m. induction ops as [|[p|] ops IH]; intros m; cbn [app st_run].
  - destruct o; [now destruct (st_inc p m)|reflexivity].
  - destruct (st_inc p m); [apply IH|reflexivity].
  - apply IH.
Qed.

(** Every counter is the number of increments since the last reset, as long as no int overflows. *)
Theorem C53_counters ops m p : st_run ops [] = Some m -> st_get p m = Z.of_nat (cnt (is_inc p) (since_reset ops)).
Proof.
  revert m. induction ops as [|o ops IH] using rev_ind; intros m H; [now injection H as <-|].
  rewrite st_run_snoc in H. destruct (st_run ops []) as [m'|]; [|discriminate]. specialize (IH m' eq_refl).
  unfold since_reset in *. rewrite fold_left_app. cbn [fold_left]. destruct o as [q|].
  - unfold st_inc in H. destruct (_ =? _); [discriminate|]. injection H as <-. rewrite st_get_set, cnt_app. unfold cnt at 2. cbn [filter is_inc].
    destruct (eqb q p) eqn:E; cbn [length]; [apply eqb_eq in E; subst q|]; rewrite IH; lia.
  - injection H as <-. apply st_get_reset.
Qed.
(** No int overflows during the first 2^31-1 increments. *)
Theorem C53_no_overflow ops : Z.of_nat (length ops) <= INT_MAX -> exists m, st_run ops [] = Some m.
Proof.
  induction ops as [|o ops IH] using rev_ind; intros H; [now exists []|]. rewrite app_length in H. cbn [length] in H.
  destruct IH as [m' E]; [lia|]. rewrite st_run_snoc, E. destruct o as [p|]; [|eauto]. unfold st_inc.
  destruct (Z.eqb_spec (st_get p m') INT_MAX) as [X|_]; [|eauto]. exfalso. rewrite (C53_counters ops m' p E) in X.
  assert (L : (cnt (is_inc p) (since_reset ops) <= length ops)%nat).
  { clear. unfold since_reset. induction ops as [|o ops IH] using rev_ind; [cbn; lia|].
    rewrite fold_left_app, app_length. cbn [fold_left length]. destruct o; [|cbn; lia]. rewrite cnt_app. unfold cnt at 2. cbn [filter].
    destruct (is_inc p _); cbn [length]; lia. }
  lia.
Qed.

(** ** Hello *)
Section HelloStat.
Variable c : hconf.

Lemma two_seq (P : list hout -> Prop) (A : forall a b, P a -> P b -> P (a ++ b)) x y f : P [x; y] -> hok P f -> hok P (hseq (hemit x) (hseq (hemit y) f)).
Proof. intros H F s. specialize (F s). unfold hseq, hemit. destruct (f s) as [s1 o]. exact (A [x; y] o H F). Qed.

Lemma first_one Q x f s : hok (fun o => cnt Q o = O) f -> cnt Q (snd (hseq (hemit x) f s)) = cnt Q [x].
Proof. intros F. specialize (F s). unfold hseq, hemit. destruct (f s) as [s1 o]. cbn [snd] in *. rewrite cnt_app, F. lia. Qed.
Lemma last_one Q x f s : hok (fun o => cnt Q o = O) f -> cnt Q (snd (hseq f (hemit x) s)) = cnt Q [x].
Proof. intros F. specialize (F s). unfold hseq, hemit. destruct (f s) as [s1 o]. cbn [snd] in *. rewrite cnt_app, F. lia. Qed.

Lemma sent_ok vs s : cnt hello_sent (snd (run (hstep c) s vs)) = cnt (hello_stat SentHelloInt) (snd (run (hstep c) s vs)).
Proof.
  set (P := fun o => cnt hello_sent o = cnt (hello_stat SentHelloInt) o).
  assert (A : forall a b, P a -> P b -> P (a ++ b)) by (unfold P; intros; rewrite !cnt_app; congruence).
  assert (E : forall n, hok P (M_Hello.express n)) by (intros n s'; reflexivity).
  apply (@hok_run c P); try assumption; try reflexivity.
  - intros []; try discriminate; reflexivity.
  - intros n s'. apply (hok_seq A); [intros s2; reflexivity|]. clear s'. intros s'. destruct (negb _); [reflexivity|].
    destruct (from_end 1 n); [|reflexivity]. destruct (decode_neighbor _); [|reflexivity]. destruct (adl_find _ _); [|reflexivity].
    apply (hok_seq A); [intros s2; reflexivity|]. apply (hok_seq A); [intros s2; reflexivity|]. destruct (_ && _); [apply E|intros s2; reflexivity].
  - intros n. unfold content_validated. apply (hok_seq A); [|intros s2; reflexivity]. intros s'. destruct (info_at 3 n); [|reflexivity].
    destruct (eqb _ _); [reflexivity|]. apply (hok_seq A); [apply hok_changed; intros []; try discriminate; reflexivity|].
    intros s2. unfold initial_data. destruct (adl_find _ _); reflexivity.
Qed.
Lemma answer_ok vs s : cnt hello_answer (snd (run (hstep c) s vs)) = cnt (hello_stat SentHelloData) (snd (run (hstep c) s vs)).
Proof.
  set (P := fun o => cnt hello_answer o = cnt (hello_stat SentHelloData) o).
  assert (A : forall a b, P a -> P b -> P (a ++ b)) by (unfold P; intros; rewrite !cnt_app; congruence).
  assert (E : forall n, hok P (M_Hello.express n)) by (intros n s'; reflexivity).
  apply (@hok_run c P); try assumption; try reflexivity.
  - intros []; try discriminate; reflexivity.
  - intros n s'. apply (hok_seq A); [intros s2; reflexivity|]. clear s'. intros s'. destruct (negb _); [reflexivity|].
    destruct (from_end 1 n); [|reflexivity]. destruct (decode_neighbor _); [|reflexivity]. destruct (adl_find _ _) as [a|]; [|reflexivity].
    apply two_seq; [exact A|reflexivity|]. destruct (_ && _); [apply E|intros s2; reflexivity].
  - intros n. unfold content_validated. apply (hok_seq A); [|intros s2; reflexivity]. intros s'. destruct (info_at 3 n); [|reflexivity].
    destruct (eqb _ _); [reflexivity|]. apply (hok_seq A); [apply hok_changed; intros []; try discriminate; reflexivity|].
    intros s2. unfold initial_data. destruct (adl_find _ _); reflexivity.
Qed.

(** Counted exactly once, when it arrives. *)
Lemma dead_run vs s : h_dead (fst (run (hstep c) s vs)) = false -> h_dead s = false.
Proof.
  revert s. induction vs as [|v vs IH]; intros s; [auto|]. cbn [run]. unfold hstep at 1. destruct (h_dead s) eqn:D; [|auto].
  specialize (IH s). destruct (run (hstep c) s vs) as [s2 o2]. cbn [fst] in *. intros H. now rewrite (IH H) in D.
Qed.
Lemma zero_int (P := fun o => cnt (hello_stat RcvHelloInt) o = O) s v : hello_rcvd c v = false -> P (snd (hstep c s v)).
Proof.
  assert (A : forall a b, P a -> P b -> P (a ++ b)) by (unfold P; intros; rewrite !cnt_app; lia).
  assert (E : forall n, hok P (M_Hello.express n)) by (intros n s'; reflexivity).
  assert (Pl : forall x, hplain x = true -> P [x]) by (intros []; try discriminate; reflexivity).
  intros N. assert (D : (exists n, v = HvInterest n) \/ (exists i d, v = HvData i d) \/ ((forall n, v <> HvInterest n) /\ forall i d, v <> HvData i d)).
  { destruct v; eauto; right; right; split; discriminate. }
  destruct D as [(n & ->)|[(i & d & ->)|[D1 D2]]].
  - cbn [hello_rcvd] in N. unfold hstep. destruct (h_dead s); [reflexivity|]. now rewrite N.
  - unfold hstep. destruct (h_dead s); [reflexivity|]. destruct (get i (h_pend s)); [|reflexivity]. destruct (prefix_of _ _); [|reflexivity].
    unfold content_validated. apply (hok_seq A); [|intros s2; reflexivity]. intros s'. destruct (info_at 3 d); [|reflexivity].
    destruct (eqb _ _); [reflexivity|]. apply (hok_seq A); [apply hok_changed; exact Pl|].
    intros s2. unfold initial_data. destruct (adl_find _ _); reflexivity.
  - apply (@hok_most c P); try assumption. reflexivity.
Qed.
Lemma one_int s v : h_dead s = false -> hello_rcvd c v = true -> cnt (hello_stat RcvHelloInt) (snd (hstep c s v)) = 1%nat.
Proof.
  intros D H. destruct v; try discriminate. cbn [hello_rcvd] in H. unfold hstep. rewrite D, H.
  set (P := fun o => cnt (hello_stat RcvHelloInt) o = O).
  assert (A : forall a b, P a -> P b -> P (a ++ b)) by (unfold P; intros; rewrite !cnt_app; lia).
  assert (E : forall n, hok P (M_Hello.express n)) by (intros n s'; reflexivity).
  unfold M_Hello.process_interest. rewrite first_one; [reflexivity|].
  intros s'. destruct (negb _); [reflexivity|]. destruct (from_end 1 iname); [|reflexivity]. destruct (decode_neighbor _); [|reflexivity].
  destruct (adl_find _ _) as [a|]; [|reflexivity]. apply (two_seq P); [exact A|reflexivity|]. destruct (_ && _); [apply E|intros s2; reflexivity].
Qed.
Lemma rcvd_ok vs s : h_dead (fst (run (hstep c) s vs)) = false ->
  cnt (hello_stat RcvHelloInt) (snd (run (hstep c) s vs)) = cnt (hello_rcvd c) vs.
Proof.
  revert s. induction vs as [|v vs IH]; intros s H; [reflexivity|]. pose proof (dead_run _ _ H) as D. cbn [run] in *.
  pose proof (zero_int s v) as Z. pose proof (one_int s v D) as O. destruct (hstep c s v) as [s1 o1]. specialize (IH s1).
  destruct (run (hstep c) s1 vs) as [s2 o2]. cbn [fst snd] in *. rewrite cnt_app, (IH H).
  change (v :: vs) with ([v] ++ vs). rewrite cnt_app. f_equal. unfold cnt at 2. cbn [filter]. destruct (hello_rcvd c v); [now apply O|now apply Z].
Qed.

Lemma data_ok vs s : h_dead (fst (run (hstep c) s vs)) = false ->
  cnt (hello_stat RcvHelloData) (snd (run (hstep c) s vs)) = hello_datas c s vs.
Proof.
  set (P := fun o => cnt (hello_stat RcvHelloData) o = O).
  assert (A : forall a b, P a -> P b -> P (a ++ b)) by (unfold P; intros; rewrite !cnt_app; lia).
  assert (E : forall n, hok P (M_Hello.express n)) by (intros n s'; reflexivity).
  assert (Pl : forall x, hplain x = true -> P [x]) by (intros []; try discriminate; reflexivity).
  revert s. induction vs as [|v vs IH]; intros s H; [reflexivity|]. pose proof (dead_run _ _ H) as D. cbn [run hello_datas] in *.
  assert (S : cnt (hello_stat RcvHelloData) (snd (hstep c s v)) = if hello_data s v then 1%nat else O).
  { assert (X : (exists n, v = HvInterest n) \/ (exists i d, v = HvData i d) \/ ((forall n, v <> HvInterest n) /\ forall i d, v <> HvData i d)).
    { destruct v; eauto; right; right; split; discriminate. }
    destruct X as [(n & ->)|[(i & d & ->)|[D1 D2]]]; cbn [hello_data].
    - unfold hstep. rewrite D. destruct (prefix_of _ _); [|reflexivity]. unfold M_Hello.process_interest.
      apply (hok_seq A); [intros s2; reflexivity|]. intros s'. destruct (negb _); [reflexivity|]. destruct (from_end 1 n); [|reflexivity].
      destruct (decode_neighbor _); [|reflexivity]. destruct (adl_find _ _) as [a|]; [|reflexivity].
      apply two_seq; [exact A|reflexivity|]. destruct (_ && _); [apply E|intros s2; reflexivity].
    - unfold hstep. rewrite D. destruct (get i (h_pend s)); [|reflexivity]. destruct (prefix_of _ _); [|reflexivity].
      unfold content_validated. rewrite last_one; [reflexivity|].
      intros s'. destruct (info_at 3 d); [|reflexivity]. destruct (eqb _ _); [reflexivity|]. apply (hok_seq A); [apply hok_changed; exact Pl|].
      intros s2. unfold initial_data. destruct (adl_find _ _); reflexivity.
    - transitivity O; [apply (@hok_most c P); try assumption; reflexivity|]. destruct v; try reflexivity. now destruct (D2 i dname). }
  destruct (hstep c s v) as [s1 o1]. specialize (IH s1). destruct (run (hstep c) s1 vs) as [s2 o2]. cbn [fst snd] in *.
  rewrite cnt_app, (IH H). now rewrite S.
Qed.
End HelloStat.

(** ** The database *)
Section LsaStat.
Variable c : conf.

Definition sumT (f : ltype -> pkt) (o : list out) : nat := (cnt (lsa_stat (f TAdj)) o + cnt (lsa_stat (f TCoord)) o + cnt (lsa_stat (f TName)) o)%nat.
Lemma sumT_app f a b : sumT f (a ++ b) = (sumT f a + sumT f b)%nat.
Proof. unfold sumT. rewrite !cnt_app. lia. Qed.

(** What holds of the outputs of every event. *)
Definition balanced (o : list out) : Prop :=
  (forall t, cnt (lsa_stat (SentIntT t)) o = cnt (fetches t) o) /\
  (cnt fetches_any o <= cnt (lsa_stat SentInt) o)%nat /\
  sumT SentDataT o = cnt (lsa_stat SentData) o /\
  (forall t, cnt (lsa_stat (SentDataT t)) o <= cnt (lsa_stat (RcvIntT t)) o)%nat /\
  (sumT RcvIntT o <= cnt (lsa_stat RcvInt) o)%nat /\
  (sumT RcvDataT o <= cnt (lsa_stat RcvData) o)%nat.
Lemma bal0 : balanced [].
Proof. repeat split; cbn; lia. Qed.
Lemma bal_app a b : balanced a -> balanced b -> balanced (a ++ b).
Proof.
  intros (A1 & A2 & A3 & A4 & A5 & A6) (B1 & B2 & B3 & B4 & B5 & B6).
  split; [intros t; rewrite !cnt_app, A1, B1; reflexivity|]. rewrite !cnt_app, !sumT_app.
  split; [lia|]. split; [lia|]. split; [intros t; rewrite !cnt_app; specialize (A4 t); specialize (B4 t); lia|]. lia.
Qed.
Lemma bal_plain x : cls x = GPlain -> balanced [x].
Proof. destruct x as [| | | | | | | | |[]| |]; try discriminate; intros _; repeat split; intros; cbn; lia. Qed.
Ltac tt := repeat split; try (intros [] ); cbn; lia.
Lemma bal_rcv t : balanced [OStat RcvData; OStat (RcvDataT t)].
Proof. destruct t; repeat split; try (intros []); cbn; lia. Qed.
Lemma bal_rcv1 : balanced [OStat RcvData].
Proof. repeat split; try (intros []); cbn; lia. Qed.

Lemma seq2 (P : list out -> Prop) (A : forall a b, P a -> P b -> P (a ++ b)) x y f : P [x; y] -> ok P f -> ok P (emit x ;; emit y ;; f).
Proof. intros H F s. specialize (F s). unfold andthen, emit. destruct (f s) as [s1 o]. exact (A [x; y] o H F). Qed.

Lemma bal_express n k f d : ok balanced (M_Lsdb.express n k f d).
Proof.
  intros s. unfold M_Lsdb.express. destruct (back 1 n); [|now apply bal_plain]. destruct (to_number _).
  2: { cbn. repeat split; try (intros []); cbn; lia. }
  destruct (note_high _ _ s) as [s1|]; [|repeat split; try (intros []); cbn; lia].
  unfold andthen, emit, upd. cbn [app]. unfold stat_type.
  assert (Ft : fetch_type n = match back 2 n with Some ct => comp_type ct | None => None end) by reflexivity.
  destruct (back 2 n) as [ct|]; [destruct (comp_type ct) as [t|]|]; cbn [snd app emit ret ub];
    repeat split; intros; unfold cnt, sumT, cnt; cbn [filter lsa_stat fetches fetches_any]; rewrite ?Ft;
    repeat match goal with t : ltype |- _ => destruct t end; cbn; lia.
Qed.
Lemma bal_after sys n l : ok balanced (after_fetch c sys n l).
Proof.
  intros s. unfold after_fetch. destruct (back 1 n); [|now apply bal_plain]. destruct (to_number _).
  2: { cbn. repeat split; try (intros []); cbn; lia. }
  destruct (note_high _ _ s) as [s1|]; [|apply bal_rcv1].
  destruct (name_origin c n); [|apply bal_rcv1]. destruct (back 2 n) as [ct|]; [|cbn; repeat split; try (intros []); cbn; lia].
  destruct (comp_type ct) as [t|]; [|apply bal_rcv1]. apply seq2; [exact bal_app|apply bal_rcv|].
  intros s'. destruct (is_new _ _ _ s'); [|apply bal0]. destruct l as [l|]; [|apply bal0]. destruct (eqb _ _); [|apply bal0].
  apply ok_install; [exact bal0|exact bal_plain].
Qed.
Lemma bal_interest n p k v : ok balanced (M_Lsdb.process_interest c n p k v).
Proof.
  assert (B1 : balanced [OStat RcvInt]) by (repeat split; try (intros []); cbn; lia).
  assert (BS : forall x y, balanced [OStored x y]) by (intros; repeat split; try (intros []); cbn; lia).
  assert (BD : forall x y z, balanced [OData x y z]) by (intros; repeat split; try (intros []); cbn; lia).
  assert (St : ok balanced (serve_stored n p)) by (intros s; unfold serve_stored; destruct (find _ _) as [[]|]; [apply BS|apply bal0]).
  intros s. unfold M_Lsdb.process_interest. destruct (back 2 n); [|now apply bal_plain].
  destruct (if is_version _ then _ else _) as [[? []]|]; [apply BD|].
  set (m := if is_version _ then _ else _).
  assert (S1 : forall f, ok balanced f -> ok balanced (emit (OStat RcvInt) ;; f)) by (intros f F; apply (ok_seq bal_app); [intros s'; exact B1|exact F]).
  destruct (name_origin c m); [|now apply S1]. destruct (eqb _ _); [|now apply S1].
  destruct (back 1 m), (back 2 m); try (apply S1; intros s'; now apply bal_plain).
  destruct (to_number _); [|apply S1; intros s'; now apply bal_plain]. destruct (comp_type _) as [t|]; [|apply S1; intros s'; apply bal0].
  unfold andthen at 1 2, emit at 1 2. cbn [app]. unfold interest_for_lsa.
  assert (B2 : balanced [OStat RcvInt; OStat (RcvIntT t)]) by (destruct t; repeat split; try (intros []); cbn; lia).
  destruct (find_lsa _ s); [|exact B2]. destruct (_ =? _)%N; [|exact B2].
  unfold andthen, upd, emit. cbn [app].
  match goal with |- context [match ?e with Some _ => _ | None => _ end] => destruct e as [[? []]|] end;
    destruct t; repeat split; try (intros []); cbn; lia.
Qed.
Lemma bal_run xs s : balanced (snd (run (step c) s xs)).
Proof.
  apply ok_run; [exact bal0|exact bal_app|exact bal_plain|exact bal_express|exact bal_interest|exact bal_after].
Qed.
Lemma bal_init f now e : balanced (snd (init c f now e)).
Proof. apply ok_init; [exact bal0|exact bal_app|exact bal_plain]. Qed.
End LsaStat.

(** ** Data *)
Section RcvStat.
Variable c : conf.
Definition none (o : list out) : Prop := cnt (lsa_stat RcvData) o = O.
Lemma none_app a b : none a -> none b -> none (a ++ b).
Proof. unfold none. rewrite cnt_app. lia. Qed.
Lemma none_plain x : cls x = GPlain -> none [x].
Proof. destruct x as [| | | | | | | | |[]| |]; try discriminate; reflexivity. Qed.
Lemma none_two x : cls x = GPlain \/ cls x = GFetch -> none [x].
Proof. intros []; [now apply none_plain|destruct x as [| | | | | | | | |[]| |]; try discriminate; reflexivity]. Qed.
Lemma none_two' x : cls x = GPlain \/ cls x = GInt -> none [x].
Proof. intros []; [now apply none_plain|destruct x as [| | | | | | | | |[]| |]; try discriminate; reflexivity]. Qed.
Lemma db_dead_run xs s : s_dead (fst (run (step c) s xs)) = false -> s_dead s = false.
Proof.
  revert s. induction xs as [|v vs IH]; intros s; [auto|]. cbn [run]. unfold step at 1. destruct (s_dead s) eqn:D; [|auto].
  specialize (IH s). destruct (run (step c) s vs) as [s2 o2]. cbn [fst] in *. intros H. now rewrite (IH H) in D.
Qed.
Lemma first_db g s : ok none g -> cnt (lsa_stat RcvData) (snd ((emit (OStat RcvData) ;; g) s)) = 1%nat.
Proof. intros G. specialize (G s). unfold andthen, emit. destruct (g s) as [s1 o]. unfold none in G. cbn [snd] in *. rewrite cnt_app, G. reflexivity. Qed.
Lemma after_one sys n k s : s_dead (fst (after_fetch c sys n k s)) = false -> cnt (lsa_stat RcvData) (snd (after_fetch c sys n k s)) = 1%nat.
Proof.
  unfold after_fetch. destruct (back 1 n); [|discriminate]. destruct (to_number _); [|discriminate].
  destruct (note_high _ _ s) as [s1|]; [|reflexivity]. intros _. apply first_db.
  intros s'. destruct (name_origin c n); [|reflexivity]. destruct (back 2 n) as [ct|]; [|reflexivity]. destruct (comp_type ct) as [t|]; [|reflexivity].
  apply (ok_seq none_app); [intros s2; reflexivity|]. intros s2. destruct (is_new _ _ _ s2); [|reflexivity]. destruct k as [k|]; [|reflexivity].
  destruct (eqb _ _); [|reflexivity]. apply ok_install; [reflexivity|exact none_plain].
Qed.
Lemma fetched_one s x : s_dead (fst (step c s x)) = false -> s_dead s = false ->
  cnt (lsa_stat RcvData) (snd (step c s x)) = if fetched s (snd x) then 1%nat else O.
Proof.
  intros D1 D. destruct x as [e v]. cbn [snd].
  assert (X : (exists f l, v = EFetchDone f l) \/ (forall f l, v <> EFetchDone f l)) by (destruct v; eauto; right; discriminate).
  destruct X as [(f & l & ->)|N].
  - cbn [fetched]. unfold step in *. rewrite D in *. cbn [step_live] in *. unfold fetch_done in *. destruct (get f (s_fetch s)) as [ft|]; [|reflexivity].
    unfold andthen, upd in *. match goal with H : context [after_fetch c ?a ?b ?k ?y] |- _ => pose proof (after_one a b k y) as A; destruct (after_fetch c a b k y) as [s1 o1] end.
    cbn [fst snd app] in *. rewrite app_nil_r. apply A. exact D1.
  - transitivity O; [|destruct v; try reflexivity; now destruct (N fid content)]. change (none (snd (step c s (e, v)))).
    apply (@ok_most c none); try reflexivity; try assumption; auto using none_app, none_plain.
    + intros n k f d. apply neutral_express; [reflexivity|exact none_app|exact none_two].
    + intros n k f d. apply neutral_int; [reflexivity|exact none_app|exact none_two'].
Qed.
Lemma fetched_ok xs s : s_dead (fst (run (step c) s xs)) = false -> cnt (lsa_stat RcvData) (snd (run (step c) s xs)) = fetcheds c s xs.
Proof.
  revert s. induction xs as [|x xs IH]; intros s H; [reflexivity|]. pose proof (db_dead_run _ _ H) as D. cbn [run fetcheds] in *.
  pose proof (fetched_one s x) as F. destruct (step c s x) as [s1 o1]. specialize (IH s1). pose proof (db_dead_run xs s1) as R.
  destruct (run (step c) s1 xs) as [s2 o2]. cbn [fst snd] in *. rewrite cnt_app, (IH H), (F (R H) D). reflexivity.
Qed.
End RcvStat.

(** ** The whole router *)
Section RouterStat.
Variables (c : gconf) (uri_of : name -> string) (ang : list Z -> list Z -> Z) (dst : Z -> Z -> Z -> Z).
Notation gstate := (gstate c uri_of ang dst).
Notation gtrace := (gtrace c uri_of ang dst).

Lemma no_reset t : since_reset (signals t) = signals t.
Proof.
  unfold since_reset. assert (G : forall l a, (forall o, In o l -> o <> SReset) ->
    fold_left (fun acc o => match o with SReset => [] | SInc p => acc ++ [SInc p] end) l a = a ++ l).
  { induction l as [|[p|] l IH]; intros a H; [now rewrite app_nil_r| |now destruct (H SReset (or_introl eq_refl))].
    cbn [fold_left]. rewrite IH by (intros o O; apply H; now right). now rewrite <- app_assoc. }
  rewrite G; [reflexivity|]. intros o H. unfold signals in H. apply in_flat_map in H as (x & _ & H).
  destruct x as [| | | | |o'|o'| | | |]; try contradiction; [destruct o' as [o'|]; [destruct o'|]|destruct o']; try contradiction; destruct H as [<-|[]]; discriminate.
Qed.
Lemma sig_app a b : signals (a ++ b) = signals a ++ signals b. Proof. apply flat_map_app. Qed.
Lemma sig_lsa p t : cnt (is_inc (PtLsa p)) (signals t) = cnt (lsa_stat p) (db_outs t).
Proof.
  unfold db_outs, pouts. induction t as [|x t IH]; [reflexivity|]. change (x :: t) with ([x] ++ t).
  rewrite sig_app, !flat_map_app, !cnt_app, IH. f_equal. destruct x as [| | | | |o'|o'| | | |]; try reflexivity; [destruct o' as [o'|]; [destruct o'|]|destruct o']; try reflexivity; unfold cnt, signals; cbn [flat_map app filter is_inc lsa_stat hello_stat]; destruct (eqb _ _); reflexivity.
Qed.
Lemma sig_hello p t : cnt (is_inc (PtHello p)) (signals t) = cnt (hello_stat p) (houts t).
Proof.
  unfold houts. induction t as [|x t IH]; [reflexivity|]. change (x :: t) with ([x] ++ t).
  rewrite sig_app, !flat_map_app, !cnt_app, IH. f_equal. destruct x as [| | | | |o'|o'| | | |]; try reflexivity; [destruct o' as [o'|]; [destruct o'|]|destruct o']; try reflexivity; unfold cnt, signals; cbn [flat_map app filter is_inc lsa_stat hello_stat]; destruct (eqb _ _); reflexivity.
Qed.
Lemma counter r m p : st_run (signals (gtrace r)) [] = Some m -> st_get p m = Z.of_nat (cnt (is_inc p) (signals (gtrace r))).
Proof. intros H. rewrite (C53_counters _ _ p H), no_reset. reflexivity. Qed.

(** As long as no int overflows, the hello counters are exact: hello Interests sent, hello Data sent, hello Interests
    received, and validated hello Data received. *)
Theorem C53_hello r m : st_run (signals (gtrace r)) [] = Some m ->
  st_get (PtHello SentHelloInt) m = Z.of_nat (cnt hello_sent (houts (gtrace r))) /\
  st_get (PtHello SentHelloData) m = Z.of_nat (cnt hello_answer (houts (gtrace r))) /\
  (h_dead (g_h (gstate r)) = false ->
   st_get (PtHello RcvHelloInt) m = Z.of_nat (cnt (hello_rcvd (hconf_of c)) (hellos (gtrace r))) /\
   st_get (PtHello RcvHelloData) m = Z.of_nat (hello_datas (hconf_of c) (fst (hinit (hconf_of c) (u_nbs r))) (hellos (gtrace r)))).
Proof.
  intros H. rewrite !(counter r m _ H), !sig_hello. pose proof (t_h (tracks_exec c uri_of ang dst r)) as T.
  destruct (gexec_shape c uri_of ang dst r) as [_ ->].
  set (w := snd (start c (g0 c r)) ++ later c uri_of ang dst r) in *.
  assert (Eo : houts ((map XPre (map PDb (start_outs c r)) ++ [XHello HFetch] ++ snd (start c (g0 c r))) ++ later c uri_of ang dst r) = HFetch :: houts w).
  { unfold houts, w. rewrite !flat_map_app. cbn [flat_map app]. assert (Z : forall l, flat_map (fun x => match x with XHello o => [o] | _ => [] end) (map XPre l) = []) by (induction l; auto).
    rewrite Z. reflexivity. }
  assert (Ei : hellos ((map XPre (map PDb (start_outs c r)) ++ [XHello HFetch] ++ snd (start c (g0 c r))) ++ later c uri_of ang dst r) = hellos w).
  { unfold hellos, w. rewrite !flat_map_app. cbn [flat_map app]. assert (Z : forall l, flat_map (fun x => match x with CHello o => [o] | _ => [] end) (map XPre l) = []) by (induction l; auto).
    rewrite Z. reflexivity. }
  rewrite Eo, Ei. change (HFetch :: houts w) with ([HFetch] ++ houts w). rewrite !cnt_app. cbn [g_h g0] in T.
  pose proof (sent_ok (hconf_of c) (hellos w) (fst (hinit (hconf_of c) (u_nbs r)))) as S1.
  pose proof (answer_ok (hconf_of c) (hellos w) (fst (hinit (hconf_of c) (u_nbs r)))) as S2.
  pose proof (rcvd_ok (hconf_of c) (hellos w) (fst (hinit (hconf_of c) (u_nbs r)))) as S3.
  pose proof (data_ok (hconf_of c) (hellos w) (fst (hinit (hconf_of c) (u_nbs r)))) as S4.
  rewrite T in S1, S2, S3, S4. cbn [fst snd] in *. split; [now rewrite S1|]. split; [now rewrite S2|]. intros D. rewrite (S3 D), (S4 D). split; reflexivity.
Qed.

(** The LSA counters.  Exact: the Interests for LSAs of each type that are sent.  The total counter of LSA Interests
    sent is not below the number of LSA Interests sent; the counters of LSA Data sent by type add up to the total and
    do not exceed those of the Interests received for that type; the types do not add up to more than the total.  What is missing:
    the totals for Interests and Data sent and the counters of Interests received are not exact, see below. *)
Theorem C53_lsa_partial r m : st_run (signals (gtrace r)) [] = Some m ->
  let g p := st_get (PtLsa p) m in
  let sum f := g (f TAdj) + g (f TCoord) + g (f TName) in
  (forall t, g (SentIntT t) = Z.of_nat (cnt (fetches t) (db_outs (gtrace r)))) /\
  Z.of_nat (cnt fetches_any (db_outs (gtrace r))) <= g SentInt /\
  sum SentDataT = g SentData /\
  (forall t, g (SentDataT t) <= g (RcvIntT t)) /\
  sum RcvIntT <= g RcvInt /\ sum RcvDataT <= g RcvData.
Proof.
  intros H g sum. assert (G : forall p, g p = Z.of_nat (cnt (lsa_stat p) (db_outs (gtrace r)))) by (intros p; unfold g; now rewrite (counter r m _ H), sig_lsa).
  assert (B : balanced (db_outs (gtrace r))).
  { pose proof (t_pre (tracks_exec c uri_of ang dst r)) as T. destruct (gexec_shape c uri_of ang dst r) as [_ ->].
    set (w := snd (start c (g0 c r)) ++ later c uri_of ang dst r) in *.
    assert (E : db_outs ((map XPre (map PDb (start_outs c r)) ++ [XHello HFetch] ++ snd (start c (g0 c r))) ++ later c uri_of ang dst r) = start_outs c r ++ db_outs w).
    { unfold db_outs, pouts, w. rewrite !flat_map_app. cbn [flat_map app].
      assert (Z : forall l, flat_map (fun o => match o with PDb x => [x] | _ => [] end) (flat_map (fun x => match x with XPre o => [o] | _ => [] end) (map XPre (map PDb l))) = l)
        by (induction l as [|a l IH]; [reflexivity|cbn; now rewrite IH]).
      rewrite Z, <- app_assoc. reflexivity. }
    rewrite E. apply bal_app; [apply bal_init|].
    destruct (prun_steps (gc c) uri_of (pres w) (g_pre (g0 c r))) as (ys & R & _). rewrite T in R. cbn [snd] in R.
    pose proof (bal_run (gc c) ys (p_db (g_pre (g0 c r)))) as Bl. rewrite R in Bl. exact Bl. }
  destruct B as (B1 & B2 & B3 & B4 & B5 & B6). unfold sum, sumT in *.
  split; [intros t; rewrite G, B1; reflexivity|]. rewrite !G. split; [lia|]. split; [lia|].
  split; [intros t; rewrite !G; specialize (B4 t); lia|]. lia.
Qed.
End RouterStat.

(** Every retrieval that ends with an LSA is counted once in the total of LSA Data received. *)
Theorem C53_received c f now e xs : s_dead (fst (exec c f now e xs)) = false ->
  cnt (lsa_stat RcvData) (snd (exec c f now e xs)) = fetcheds c (fst (init c f now e)) xs.
Proof.
  unfold exec. pose proof (@ok_init c none) as I. specialize (I eq_refl none_app none_plain f now e). destruct (init c f now e) as [s o].
  pose proof (fetched_ok c xs s) as F. destruct (run (step c) s xs) as [s' o']. cbn [fst snd] in *. intros D. rewrite cnt_app, (F D), I. reflexivity.
Qed.

(** ** Where the counters are wrong *)

(** r2's Name LSA 5 is asked for and a Nack comes back, so it is to be asked for again; number 6 is announced meanwhile. *)
Definition lateX : list (env * ev) :=
  [(envX, ESync (syncX "r2" TName) 5 300); (envX, EFetchErr 0 false); (envX, ESync (syncX "r2" TName) 6 300);
   (envX, ETick (4 * SEC)); (envX, EFire 1)].
(** This router's Name LSA is asked for, then the first segment again; and a segment that does not exist. *)
Definition ownX (q : N) : name := lsaX ++ nm ["site"; "r1"]%string ++ [type_comp TName; number_comp q].
Definition askX : list (env * ev) :=
  [(envX, EInterest (ownX 1) true 1%nat 77); (envX, EInterest (ownX 1 ++ [version_comp 77; segment_comp 0]) true 1%nat 78)].
Definition segX : list (env * ev) := [(envX, EInterest (ownX 1 ++ [version_comp 77; segment_comp 5]) true 1%nat 78)].
Definition is_data (x : out) : bool := match x with OData _ _ _ | OStored _ _ => true | _ => false end.

(** The total of LSA Interests sent counts one that is not sent. *)
Theorem C53_sent_refuted : exists xs, let o := snd (exec (confX HOff) None 0 envX xs) in
  cnt fetches_any o = 2%nat /\ cnt (lsa_stat SentInt) o = 3%nat.
Proof. exists lateX. vm_compute. split; reflexivity. Qed.
(** Two Interests arrive and two Data are sent, but one of each is counted. *)
Theorem C53_fifo_refuted : exists xs, let o := snd (exec (confX HOff) None 0 envX xs) in
  length xs = 2%nat /\ cnt is_data o = 2%nat /\ cnt (lsa_stat RcvInt) o = 1%nat /\ cnt (lsa_stat SentData) o = 1%nat.
Proof. exists askX. vm_compute. repeat split; reflexivity. Qed.
(** No Data is sent, but one is counted. *)
Theorem C53_segment_refuted : exists xs, let o := snd (exec (confX HOff) None 0 envX xs) in
  cnt is_data o = 0%nat /\ cnt (lsa_stat SentData) o = 1%nat.
Proof. exists segX. vm_compute. repeat split; reflexivity. Qed.

Example C53_received_example : s_dead (fst (exec (confX HOff) None 0 envX evsX)) = false /\
  fetcheds (confX HOff) (fst (init (confX HOff) None 0 envX)) evsX = 2%nat.
Proof. vm_compute. split; reflexivity. Qed.

(** Two neighbours come up and their LSAs are fetched. *)
Example C53_router_example :
  match st_run (signals (trR HOff calcR)) [] with
  | Some m => (h_dead (g_h (stR HOff calcR)), st_get (PtHello SentHelloInt) m, st_get (PtHello RcvHelloData) m, st_get (PtLsa (SentIntT TAdj)) m, st_get (PtLsa (RcvDataT TAdj)) m)
              = (false, 2, 2, 2, 2)
  | None => False
  end.
Proof. vm_compute. reflexivity. Qed.

Print Assumptions C53_counters.
Print Assumptions C53_no_overflow.
Print Assumptions C53_hello.
Print Assumptions C53_lsa_partial.
Print Assumptions C53_received.
Print Assumptions C53_sent_refuted.
Print Assumptions C53_fifo_refuted.
Print Assumptions C53_segment_refuted.

(** C96: what is registered with the forwarder over the faces of the neighbours, when, and at what cost. *)
From Verif Require Import Base M_Nexthop M_Tlv M_Codec M_Adj M_Lsa M_Lsdb M_Hello S_Hello S_Codec L_Codec L_Lsdb9 L_Hello P_Hello.
Set Implicit Arguments.
Open Scope Z_scope.
Local Opaque wholes.

(** [z] is the cost [k] rounded up to a whole number. *)
Definition rounded_up (k z : Z) : Prop := k <= z < k + of_int 1 /\ exists i, z = of_int i.
(** The neighbour was INACTIVE, and the event is its reply to a Hello. *)
Definition comes_up (s : hst) (a : adjacent) (e : hev) : Prop := is_reply (a_name a) s e = true /\ a_status a = SInactive.
(** The forwarder reports a face to this URI: that it was created, or in a dataset. *)
Definition reports_face (u : uri) (e : hev) : Prop :=
  (exists f, e = HvCreated f u) \/ (exists fs f, e = HvDataset fs /\ In (f, u) fs).

Lemma rounded a : rounded_up (a_cost a) (of_int (link_cost a)).
Proof.
  split; [|now exists (link_cost a)]. rewrite link_cost_eq. unfold of_int. assert (U : 0 < UNIT) by reflexivity.
  pose proof (Z.div_mod (- a_cost a) UNIT ltac:(lia)) as D. pose proof (Z.mod_pos_bound (- a_cost a) UNIT U) as B. revert D B. generalize ((- a_cost a) mod UNIT). generalize ((- a_cost a) / UNIT).
  generalize (a_cost a). revert U. generalize UNIT. intros. nia.
Qed.

Section H.
Variable c : hconf.
Definition good (s : hst) (e : hev) (p : name) (u : uri) (z : Z) : Prop := exists a, In a (h_adl s) /\ a_uri a = u /\ z = of_int (link_cost a) /\
  (p = hc_sync c /\ comes_up s a e \/ (p = a_name a \/ p = hc_lsap c) /\ reports_face u e).
Definition regs (s : hst) (e : hev) (o : list hout) : Prop := forall p u z, In (HRegister p u z) o -> good s e p u z.
Lemma regs_none s e o : (forall p u z, ~ In (HRegister p u z) o) -> regs s e o.
Proof. intros H p u z X. destruct (H _ _ _ X). Qed.
Lemma in_register a p u z : In (HRegister p u z) (register_adj c a) -> (p = a_name a \/ p = hc_lsap c) /\ u = a_uri a /\ z = of_int (link_cost a).
Proof. intros [[= <- <- <-]|[[= <- <- <-]|[]]]; auto. Qed.
Lemma match_faces_in fs p u z : forall a, In (HRegister p u z) (snd (match_faces c fs a)) ->
  (p = a_name a \/ p = hc_lsap c) /\ u = a_uri a /\ z = of_int (link_cost a) /\ exists f, In (f, u) fs.
Proof.
  induction fs as [|[f v] fs IH]; intros a; cbn [match_faces]; [intros []|].
  destruct ((a_face a =? 0)%N && eqb (a_uri a) v) eqn:M.
  - specialize (IH (set_face f a)). destruct (match_faces c fs (set_face f a)) as [a' o]. cbn [snd] in *. intros H. apply in_app_or in H as [H|H].
    + apply in_register in H as (A & B & C). apply andb_true_iff in M as [_ M]. apply (proj1 (eqb_eq _ _)) in M. split; [exact A|]. split; [exact B|]. split; [exact C|].
      exists f. left. cbn [a_uri set_face] in B. congruence.
    + destruct (IH H) as (A & B & C & g & G). split; [exact A|]. split; [exact B|]. split; [exact C|]. exists g. now right.
  - intros H. destruct (IH _ H) as (A & B & C & g & G). split; [exact A|]. split; [exact B|]. split; [exact C|]. exists g. now right.
Qed.
Lemma match_all_in fs p u z : forall l, In (HRegister p u z) (snd (match_all c fs l)) ->
  exists a, In a l /\ (p = a_name a \/ p = hc_lsap c) /\ u = a_uri a /\ z = of_int (link_cost a) /\ exists f, In (f, u) fs.
Proof.
  induction l as [|a l IH]; cbn [match_all]; [intros []|]. pose proof (@match_faces_in fs p u z a) as A. destruct (match_faces c fs a) as [a' o]. destruct (match_all c fs l) as [l' o'].
  cbn [snd] in *. intros H. apply in_app_or in H as [H|H]; [exists a; split; [now left|auto]|]. destruct (IH H) as (b & Hb & X). exists b. split; [now right|exact X].
Qed.
Lemma find_uri_some u (l : adl) a : adl_find_uri u l = Some a -> In a l /\ a_uri a = u.
Proof.
  induction l as [|b l IH]; cbn [adl_find_uri]; [discriminate|]. destruct (eqb (a_uri b) u) eqn:E; [intros [= <-]; split; [now left|now apply (proj1 (eqb_eq _ _))]|].
  intros H. destruct (IH H). split; [now right|assumption].
Qed.
Ltac free := apply regs_none; intros p' u' z' Hx; cbn in Hx;
  repeat match goal with H : _ \/ _ |- _ => destruct H as [H|H] end; try discriminate; try contradiction.

Lemma hstep_good s e : hinv c s -> regs s e (snd (hstep c s e)).
Proof.
  intros I. unfold hstep. destruct (h_dead s); [free|].
  assert (Ch : forall s', regs s e (snd (changed c s'))) by (intros s'; unfold changed; repeat match goal with |- context [if ?b then _ else _] => destruct b end; free).
  assert (Ex : forall p s', regs s e (snd (express p s'))) by (intros p s'; unfold express, hemit, hseq; free).
  assert (T : forall p s', regs s e (snd (timed_out c p s'))).
  { intros p s'. unfold timed_out. destruct (negb (info_at 2 p)); [free|]. cbv zeta.
    match goal with |- context [if ?b then _ else _] => destruct b end; [apply Ex|].
    match goal with |- context [if ?b then _ else _] => destruct b end; [apply Ch|free]. }
  assert (Sh : forall n s', regs s e (snd (send_hello c n s'))).
  { intros n s'. unfold send_hello.
    repeat match goal with |- context [match ?b with Some _ => _ | None => _ end] => destruct b | |- context [if ?b then _ else _] => destruct b end; free. }
  destruct e as [n|t|i d|i|i|t|i|iname|f|f u|fs| | |u f].
  - apply Sh.
  - destruct get; [apply Sh|free].
  - destruct (get i (h_pend s)) as [p0|] eqn:Ep; [|free]. destruct (prefix_of p0 d) eqn:Pd; [|free].
    unfold content_validated, hseq. destruct (info_at 3 d) eqn:I3; [|free]. cbn [h_adl hw_pend]. set (n := drop_end 4 d).
    set (l := put_touts n 0 (put_status n SActive (h_adl s))).
    destruct (eqb (get_status n (h_adl s)) (get_status n l)) eqn:Eg; [free|]. rewrite changed_out. cbn [h_adl hw_adl hw_pend]. unfold initial_data.
    assert (Fl : adl_find n l = option_map (fun a => set_touts 0 (set_status SActive a)) (adl_find n (h_adl s))).
    { unfold l, put_touts, put_status. rewrite !adl_find_upd, !eqb_refl by reflexivity. now destruct (adl_find n (h_adl s)). }
    cbn [h_adl hw_adl]. rewrite Fl. destruct (adl_find n (h_adl s)) as [a|] eqn:Fa; cbn [option_map]; [|unfold recompute; destruct (hc_hyp c); free].
    apply adl_find_some in Fa as Fs. destruct Fs as [Ha Hn].
    assert (X : forall p u z, In (HRegister p u z) [HRegister (hc_sync c) (a_uri a) (of_int (link_cost a))] -> good s (HvData i d) p u z).
    { intros p u z [[= <- <- <-]|[]]. exists a. split; [exact Ha|]. split; [reflexivity|]. split; [reflexivity|]. left. split; [reflexivity|]. split.
      - unfold is_reply. rewrite Ep, Pd, andb_true_r, Hn. apply names_reply_spec. apply reply_shape; [|exact I3].
        destruct (Nat.le_gt_cases 4 (length d)) as [L|L]; [exact L|exfalso]. apply (iv_nonempty I). replace (@nil comp) with (a_name a); [now apply in_map|].
        rewrite Hn. unfold n, drop_end. replace (length d - 4)%nat with 0%nat by lia. reflexivity.
      - destruct (iv_status I _ Ha) as [S|S]; [exfalso|exact S]. unfold get_status in Eg. rewrite Fl, Fa in Eg. cbn [option_map a_status set_touts set_status] in Eg. now rewrite S, eqb_refl in Eg. }
    intros p u z H. apply X. cbn [snd app hemit] in H. destruct H as [H|[H|[H|[]]]]; [unfold recompute in H; destruct (hc_hyp c); discriminate H|left; exact H|discriminate H].
  - free.
  - destruct get; free.
  - destruct get; [apply T|free].
  - destruct get; [apply T|free].
  - destruct prefix_of; [|free]. unfold process_interest, hseq, hemit. destruct (negb (info_at 2 iname)); [free|]. destruct (from_end 1 iname) as [v|]; [|free].
    destruct (decode_neighbor _) as [m|]; [|free]. destruct (adl_find m (h_adl s)) as [a|]; [|free]. destruct (_ && _); free.
  - unfold face_destroyed. destruct adl_find_face; [|free]. destruct (eqb _ _); [apply Ch|free].
  - unfold face_created. destruct (adl_find_uri u (h_adl s)) as [a|] eqn:Fu; [|free]. apply find_uri_some in Fu as [Ha Hu].
    destruct (_ || _); [|free]. cbn [snd]. intros p v z H. apply in_register in H as (A & B & C). exists a. split; [exact Ha|]. split; [now symmetry|]. split; [exact C|]. right.
    split; [exact A|]. left. exists f. cbn [a_uri set_face] in B. congruence.
  - unfold face_dataset. pose proof (match_all_in fs) as A. destruct (match_all c fs (h_adl s)) as [l' o] eqn:M. cbn [snd] in *. intros p u z H.
    destruct (A p u z (h_adl s)) as (a & Ha & Hp & Hu & Hz & f & Hf); [rewrite M; exact H|]. exists a. split; [exact Ha|]. split; [now symmetry|]. split; [exact Hz|]. right. split; [exact Hp|]. right. eauto.
  - destruct (h_ds s); [|free]. unfold dataset_failed. destruct (_ <? _)%N; free.
  - destruct (h_ds s); free.
  - free.
Qed.
End H.

(** Everything that is registered over a face is the name of a router, the LSA prefix or the sync prefix; it is registered over the face
    of a neighbour, at the cost of the link to it, rounded up; the first two when the forwarder reports a face to the
    neighbour, the last when the neighbour comes up. *)
Theorem C96_registered c l evs e p u z : let s := hstate c l evs in In (HRegister p u z) (snd (hstep c s e)) ->
  exists a, In a (h_adl s) /\ a_uri a = u /\ rounded_up (a_cost a) z /\
  (p = hc_sync c /\ comes_up s a e \/ (p = a_name a \/ p = hc_lsap c) /\ reports_face u e).
Proof.
  intros s H. destruct (hstate_inv c l evs) as [I _]. destruct (hstep_good e I _ _ _ H) as (a & A & B & -> & D). exists a. split; [exact A|]. split; [exact B|]. split; [apply rounded|exact D].
Qed.

(** And it is registered then: when a face to the only neighbour with its URI appears that it does not yet have, ... *)
Theorem C96_created c l evs n a f : let s := hstate c l evs in h_dead s = false -> entry s n a ->
  (forall b, In b (h_adl s) -> a_uri b = a_uri a -> b = a) -> a_face a <> f ->
  exists z, rounded_up (a_cost a) z /\ forall p, p = n \/ p = hc_lsap c -> In (HRegister p (a_uri a) z) (snd (hstep c s (HvCreated f (a_uri a)))).
Proof.
  intros s D [Ha <-] U Nf. exists (of_int (link_cost a)). split; [apply rounded|]. intros p Hp. unfold hstep. rewrite D. unfold face_created.
  assert (F : adl_find_uri (a_uri a) (h_adl s) = Some a).
  { destruct (adl_find_uri (a_uri a) (h_adl s)) as [b|] eqn:F.
    - apply find_uri_some in F as [F1 F2]. now rewrite (U _ F1 F2).
    - exfalso. revert Ha F. clear. generalize (h_adl s). intros L. induction L as [|x L IH]; [intros []|]. cbn [adl_find_uri]. destruct (eqb (a_uri x) (a_uri a)) eqn:E; [discriminate|].
      intros [->|H]; [now rewrite eqb_refl in E|auto]. }
  rewrite F. assert (E : (a_face a =? f)%N = false) by now apply N.eqb_neq. rewrite E, orb_true_r. cbn [snd]. destruct Hp as [->| ->]; [left|right; left]; reflexivity.
Qed.
(** ... when a neighbour without a face has one in a dataset, ... *)
Theorem C96_dataset c l evs n a f fs : let s := hstate c l evs in h_dead s = false -> entry s n a -> a_face a = 0%N -> In (f, a_uri a) fs ->
  exists z, rounded_up (a_cost a) z /\ forall p, p = n \/ p = hc_lsap c -> In (HRegister p (a_uri a) z) (snd (hstep c s (HvDataset fs))).
Proof.
  intros s D [Ha <-] Fz Hf. exists (of_int (link_cost a)). split; [apply rounded|]. intros p Hp. unfold hstep. rewrite D. unfold face_dataset.
  assert (M : In (HRegister p (a_uri a) (of_int (link_cost a))) (snd (match_faces c fs a))).
  { revert Hf. induction fs as [|[g v] fs IH]; [intros []|]. intros Hf. cbn [match_faces]. rewrite Fz. cbn [N.eqb andb].
    destruct (eqb (a_uri a) v) eqn:E.
    - destruct (match_faces c fs (set_face g a)) as [a' o]. cbn [snd]. apply in_or_app. left. destruct Hp as [->| ->]; [left|right; left]; reflexivity.
    - destruct Hf as [[= -> ->]|Hf]; [now rewrite eqb_refl in E|auto]. }
  assert (X : In (HRegister p (a_uri a) (of_int (link_cost a))) (snd (match_all c fs (h_adl s)))).
  { revert Ha. generalize (h_adl s). intros L. induction L as [|x L IH]; [intros []|]. cbn [match_all]. intros [->|Ha].
    - destruct (match_faces c fs a) as [a' o]. destruct (match_all c fs L) as [L' o']. cbn [snd] in *. apply in_or_app. now left.
    - destruct (match_faces c fs x) as [x' o]. specialize (IH Ha). destruct (match_all c fs L) as [L' o']. cbn [snd] in *. apply in_or_app. now right. }
  destruct (match_all c fs (h_adl s)) as [L' o']. exact X.
Qed.
(** ... and when a neighbour comes up. *)
Theorem C96_up c l evs e n a : let s := hstate c l evs in h_dead s = false -> entry s n a -> comes_up s a e ->
  exists z, rounded_up (a_cost a) z /\ In (HRegister (hc_sync c) (a_uri a) z) (snd (hstep c s e)).
Proof.
  intros s D [Ha <-] [R S]. exists (of_int (link_cost a)). split; [apply rounded|]. destruct (hstate_inv c l evs) as [I _]. fold s in I.
  unfold is_reply in R. destruct e as [ | |i d| | | | | | | | | | | ]; try discriminate R. apply andb_true_iff in R as [R1 R2].
  destruct (get i (h_pend s)) as [p0|] eqn:Ep; [|discriminate R2]. unfold hstep. rewrite D, Ep, R2. apply names_reply_spec in R1 as (x & y & z & ->).
  unfold content_validated, hseq.
  assert (Dr : drop_end 4 (a_name a ++ [x; INFO; y; z]) = a_name a).
  { unfold drop_end. rewrite app_length. cbn [length]. replace (length (a_name a) + 4 - 4)%nat with (length (a_name a) + 0)%nat by lia. rewrite firstn_app_2. cbn [firstn]. apply app_nil_r. }
  assert (I3 : info_at 3 (a_name a ++ [x; INFO; y; z]) = true).
  { unfold info_at, from_end. rewrite app_length. cbn [length]. replace (Nat.ltb (length (a_name a) + 4) 3) with false by (symmetry; apply Nat.ltb_ge; lia).
    rewrite nth_error_app2 by lia. replace (length (a_name a) + 4 - 3 - length (a_name a))%nat with 1%nat by lia. cbn [nth_error]. apply eqb_refl. }
  rewrite I3, Dr. cbn [h_adl hw_pend]. set (L := put_touts (a_name a) 0 (put_status (a_name a) SActive (h_adl s))).
  pose proof (adl_find_in (iv_nodup I) Ha eq_refl) as Fa.
  assert (Fl : adl_find (a_name a) L = Some (set_touts 0 (set_status SActive a))).
  { unfold L, put_touts, put_status. rewrite !adl_find_upd, !eqb_refl by reflexivity. now rewrite Fa. }
  assert (G : eqb (get_status (a_name a) (h_adl s)) (get_status (a_name a) L) = false).
  { unfold get_status. rewrite Fa, Fl, S. reflexivity. }
  rewrite G, changed_out. unfold initial_data. cbn [h_adl hw_adl]. rewrite Fl. cbn [snd app hemit]. right. left. reflexivity.
Qed.

(** A face to r2 appears, and r2 answers. *)
Example C96_example : let c := hcX HOff in
  snd (hstep c (hstate c nbX []) (HvCreated 300%N u2X)) = [HRegister r2X u2X (of_int 10); HRegister (hc_lsap c) u2X (of_int 10)] /\
  (exists a, In a (h_adl (hstate c nbX (firstn 2 upX))) /\ comes_up (hstate c nbX (firstn 2 upX)) a (nth 2 upX HvDatasetFail)) /\
  In (HRegister (hc_sync c) u2X (of_int 10)) (snd (hstep c (hstate c nbX (firstn 2 upX)) (nth 2 upX HvDatasetFail))).
Proof.
  cbv zeta. split; [vm_compute; reflexivity|]. split.
  - exists (Adj r2X u2X (of_int 10) SInactive 0%N 300%N). split; [vm_compute; left; reflexivity|]. split; vm_compute; reflexivity.
  - vm_compute. right. left. reflexivity.
Qed.

Print Assumptions C96_registered.
Print Assumptions C96_created.
Print Assumptions C96_dataset.
Print Assumptions C96_up.

(** Facts about vectors and the queue sort. *)
From Coq Require Import Permutation.
From Verif Require Import Base M_Nexthop M_LinkState.
Open Scope Z_scope.
Set Implicit Arguments.

Lemma vset_length A (l : list A) i x : length (vset l i x) = length l.
Proof. unfold vset. rewrite app_length.
  rewrite <- (firstn_skipn i l) at 3. rewrite app_length. f_equal.
  destruct (skipn i l); reflexivity. Qed.

Lemma vset_over A (l : list A) i x : (length l <= i)%nat -> vset l i x = l.
Proof. intros Hl. unfold vset. rewrite skipn_all2 by lia.
  rewrite firstn_all2 by lia. apply app_nil_r. Qed.

Lemma vset_split A (a : list A) y b x : vset (a ++ y :: b) (length a) x = a ++ x :: b.
Proof. unfold vset. rewrite firstn_app, Nat.sub_diag, firstn_all. simpl.
  rewrite app_nil_r. rewrite skipn_app, Nat.sub_diag, skipn_all. reflexivity. Qed.

Lemma nth_vset_eq A (l : list A) i x d : (i < length l)%nat -> nth i (vset l i x) d = x.
Proof. intros Hi. destruct (nth_split l d Hi) as (a & b & Hl & Ha).
  rewrite Hl. rewrite <- Ha. rewrite vset_split, nth_middle. reflexivity. Qed.

Lemma nth_vset_ne A (l : list A) i j x d : j <> i -> nth j (vset l i x) d = nth j l d.
Proof. intros Hn. destruct (Nat.lt_ge_cases i (length l)) as [Hi|Hi].
  - destruct (nth_split l d Hi) as (a & b & Hl & Ha). rewrite Hl.
    rewrite <- Ha. rewrite vset_split. rewrite Ha.
    destruct (Nat.lt_ge_cases j i) as [Hj|Hj].
    + rewrite !app_nth1 by lia. reflexivity.
    + rewrite !app_nth2 by lia. rewrite Ha.
      destruct (j - i)%nat eqn:E; [lia|reflexivity].
  - now rewrite vset_over. Qed.

Lemma nth_vset A (l : list A) i j x d : (i < length l)%nat ->
  nth j (vset l i x) d = if Nat.eqb j i then x else nth j l d.
Proof. intros Hi. destruct (Nat.eqb_spec j i) as [->|Hn].
  - now apply nth_vset_eq.
  - now apply nth_vset_ne. Qed.

Lemma firstn_vset A (l : list A) i k x : (k <= i)%nat -> firstn k (vset l i x) = firstn k l.
Proof. intros Hk. unfold vset.
  destruct (Nat.lt_ge_cases i (length l)) as [Hi|Hi].
  - rewrite firstn_app. rewrite firstn_length, Nat.min_l by lia.
    replace (k - i)%nat with O by lia. simpl. rewrite app_nil_r.
    rewrite firstn_firstn. now rewrite Nat.min_l by lia.
  - rewrite skipn_all2 by lia. rewrite app_nil_r. rewrite firstn_firstn.
    now rewrite Nat.min_l by lia. Qed.

Lemma swap_perm A (q : list A) i j d : (i < j < length q)%nat ->
  Permutation (vset (vset q i (nth j q d)) j (nth i q d)) q.
Proof. intros [Hij Hj].
  destruct (nth_split q d (n := i) ltac:(lia)) as (a & b & Hq & Ha).
  set (x := nth i q d) in *. clearbody x. subst q.
  rewrite <- Ha. rewrite vset_split.
  assert (Hjb : (j - S (length a) < length b)%nat)
    by (rewrite app_length in Hj; simpl in Hj; lia).
  assert (Hn : nth j (a ++ x :: b) d = nth (j - S (length a)) b d).
  { rewrite app_nth2 by lia. destruct (j - length a)%nat eqn:E; [lia|].
    simpl. f_equal. lia. }
  rewrite Hn.
  destruct (nth_split b d Hjb) as (b1 & b2 & Hb & Hb1).
  set (y := nth (j - S (length a)) b d) in *. clearbody y. subst b.
  replace (a ++ y :: b1 ++ y :: b2) with ((a ++ y :: b1) ++ y :: b2)
    by (rewrite <- app_assoc; reflexivity).
  replace j with (length (a ++ y :: b1)) by (rewrite app_length; simpl; lia).
  rewrite vset_split. rewrite <- app_assoc. simpl.
  apply Permutation_app_head.
  transitivity (x :: y :: b1 ++ b2).
  - transitivity (y :: x :: b1 ++ b2).
    + constructor. symmetry. apply Permutation_middle.
    + constructor.
  - constructor. apply Permutation_middle. Qed.

(** [frz k q q']: [q'] is a permutation of [q] that leaves the first [k] places alone. *)
Definition frz {A} (k : nat) (q q' : list A) : Prop :=
  Permutation q q' /\ firstn k q = firstn k q'.

Lemma frz_refl A k (q : list A) : frz k q q.
Proof. split; auto. Qed.

Lemma frz_trans A k (q1 q2 q3 : list A) : frz k q1 q2 -> frz k q2 q3 -> frz k q1 q3.
Proof. intros [P1 F1] [P2 F2]. split; [now rewrite P1|congruence]. Qed.

Lemma frz_le A k k' (q q' : list A) : (k' <= k)%nat -> frz k q q' -> frz k' q q'.
Proof. intros Hk [P F]. split; [exact P|].
  replace (firstn k' q) with (firstn k' (firstn k q)) by (rewrite firstn_firstn; f_equal; lia).
  replace (firstn k' q') with (firstn k' (firstn k q')) by (rewrite firstn_firstn; f_equal; lia).
  now rewrite F. Qed.

Lemma frz_skipn A k (q q' : list A) : frz k q q' -> Permutation (skipn k q) (skipn k q').
Proof. intros [P F]. rewrite <- (firstn_skipn k q) in P. rewrite <- (firstn_skipn k q') in P.
  rewrite F in P. now apply Permutation_app_inv_l in P. Qed.

Lemma frz_length A k (q q' : list A) : frz k q q' -> length q' = length q.
Proof. intros [P F]. symmetry. now apply Permutation_length. Qed.

Lemma nth_firstn_lt A (l : list A) i k d : (i < k)%nat -> nth i (firstn k l) d = nth i l d.
Proof. revert i l. induction k as [|k IH]; intros i l Hi; [lia|].
  destruct l as [|x l]; [destruct i; reflexivity|]. destruct i; simpl; [reflexivity|].
  apply IH. lia. Qed.

Lemma frz_nth A k (q q' : list A) i d : frz k q q' -> (i < k)%nat -> nth i q' d = nth i q d.
Proof. intros [P F] Hi. rewrite <- (nth_firstn_lt q' d Hi), <- F. now apply nth_firstn_lt. Qed.

Lemma sort_step_frz dist i q j k : (k <= i)%nat -> (i < j < length q)%nat ->
  frz k q (sort_step dist i q j).
Proof. intros Hk Hij. unfold sort_step. destruct (_ <? _).
  - split.
    + symmetry. apply swap_perm. exact Hij.
    + rewrite !firstn_vset by lia. reflexivity.
  - apply frz_refl. Qed.

(** Inner loop: afterwards place [i] holds a minimum of the places [i..]. *)
Lemma inner_spec dist i : forall cnt j q,
  (i < j)%nat -> (j + cnt <= length q)%nat ->
  (forall x, (i <= x < j)%nat -> dget dist (qget q i) <= dget dist (qget q x)) ->
  let q' := fold_left (sort_step dist i) (seq j cnt) q in
  frz i q q' /\
  (forall x, (i <= x < j + cnt)%nat -> dget dist (qget q' i) <= dget dist (qget q' x)).
Proof. induction cnt as [|cnt IH]; intros j q Hij Hlen Hmin.
  - simpl. split; [apply frz_refl|]. intros x Hx. apply Hmin. lia.
  - simpl. assert (Hf : frz i q (sort_step dist i q j))
      by (apply sort_step_frz; lia).
    pose proof (frz_length Hf) as Hl.
    destruct (IH (S j) (sort_step dist i q j)) as [Hf2 Hm2].
    + lia.
    + lia.
    + intros x Hx. unfold sort_step. destruct (Z.ltb_spec (dget dist (qget q j)) (dget dist (qget q i))) as [Hlt|Hge].
      * unfold qget at 1. rewrite nth_vset by (rewrite vset_length; lia).
        destruct (Nat.eqb_spec i j) as [|_]; [lia|].
        rewrite nth_vset_eq by lia.
        unfold qget at 2. rewrite nth_vset by (rewrite vset_length; lia).
        destruct (Nat.eqb_spec x j) as [->|Hxj].
        -- lia.
        -- rewrite nth_vset by lia. destruct (Nat.eqb_spec x i) as [->|Hxi]; [lia|].
           specialize (Hmin x ltac:(lia)). unfold qget in *. lia.
      * destruct (Nat.eq_dec x j) as [->|]; [lia|]. apply Hmin. lia.
    + split; [eapply frz_trans; eassumption|]. intros x Hx. apply Hm2. lia. Qed.

Lemma inner_spec0 dist i q : (i < length q)%nat ->
  let q' := fold_left (sort_step dist i) (seq (S i) (length q - S i)) q in
  frz i q q' /\
  (forall x, In x (skipn i q') -> dget dist (qget q' i) <= dget dist x).
Proof. intros Hi. cbv zeta.
  destruct (inner_spec dist (i:=i) (length q - S i) (j:=S i) q) as [Hf Hm]; [lia|lia| |].
  { intros x Hx. replace x with i by lia. lia. }
  split; [exact Hf|]. intros x Hx.
  pose proof (frz_length Hf) as Hl.
  apply In_nth with (d := O) in Hx. destruct Hx as (k & Hk & Hx).
  rewrite skipn_length in Hk.
  set (q' := fold_left _ _ q) in *.
  assert (Hx' : x = qget q' (i + k)).
  { rewrite <- Hx. unfold qget. rewrite <- (firstn_skipn i q') at 2.
    rewrite app_nth2; rewrite firstn_length, Nat.min_l by lia; [|lia]. f_equal. lia. }
  rewrite Hx'. apply Hm. lia. Qed.

(** The outer loop never disturbs places before its start. *)
Lemma outer_frz dist k : forall cnt i q, (k <= i)%nat -> (i + cnt <= length q)%nat ->
  frz k q (fold_left (fun q i => fold_left (sort_step dist i) (seq (S i) (length q - S i)) q)
                     (seq i cnt) q).
Proof. induction cnt as [|cnt IH]; intros i q Hk Hl; [apply frz_refl|].
  simpl. destruct (inner_spec0 dist q (i:=i) ltac:(lia)) as [Hf _].
  pose proof (frz_length Hf) as Hl2.
  eapply frz_trans; [eapply frz_le; [exact Hk|exact Hf]|]. apply IH; lia. Qed.

Lemma sort_queue_frz q dist start : (start <= length q)%nat -> frz start q (sort_queue q dist start).
Proof. intros Hs. unfold sort_queue. apply outer_frz; lia. Qed.

Lemma sort_queue_min q dist start : (start < length q)%nat ->
  forall x, In x (skipn start (sort_queue q dist start)) ->
  dget dist (qget (sort_queue q dist start) start) <= dget dist x.
Proof. intros Hs x Hx. unfold sort_queue in *.
  destruct (length q - start)%nat as [|cnt] eqn:Ecnt; [lia|]. simpl in *.
  destruct (inner_spec0 dist q (i:=start) Hs) as [Hf Hm].
  set (q1 := fold_left (sort_step dist start) _ q) in *.
  pose proof (frz_length Hf) as Hl1.
  assert (Hf2 : frz (S start) q1
    (fold_left (fun q i => fold_left (sort_step dist i) (seq (S i) (length q - S i)) q)
       (seq (S start) cnt) q1)) by (apply outer_frz; lia).
  set (q2 := fold_left _ (seq (S start) cnt) q1) in *.
  unfold qget. rewrite (frz_nth O Hf2) by lia.
  apply Hm. eapply Permutation_in; [|exact Hx].
  symmetry. apply frz_skipn. eapply frz_le; [|exact Hf2]. lia. Qed.

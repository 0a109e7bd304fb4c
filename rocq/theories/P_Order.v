(** C56: are the comparison operators of Adjacent a strict weak ordering and an equivalence? *)
From Verif Require Import Base M_Nexthop M_Adj M_Order L_Npt8.
Set Implicit Arguments.
Open Scope Z_scope.

(** ** Specification *)

(** What std::set and std::sort require of a comparison on the elements that satisfy [P]. *)
Definition strict_weak {A} (P : A -> Prop) (lt : A -> A -> bool) : Prop :=
  (forall x, P x -> lt x x = false) /\
  (forall x y z, P x -> P y -> P z -> lt x y = true -> lt y z = true -> lt x z = true) /\
  (forall x y z, P x -> P y -> P z -> lt x y = false -> lt y x = false -> lt y z = false -> lt z y = false ->
     lt x z = false /\ lt z x = false).
Definition equivalence {A} (P : A -> Prop) (eq : A -> A -> bool) : Prop :=
  (forall x, P x -> eq x x = true) /\
  (forall x y, P x -> P y -> eq x y = true -> eq y x = true) /\
  (forall x y z, P x -> P y -> P z -> eq x y = true -> eq y z = true -> eq x z = true).

(** The link cost is a whole number. *)
Definition integral_cost (a : adjacent) : Prop := exists k, a_cost a = of_int k.

(** ** Orders on octets, components, names *)

(** A three-way comparison that decides a total order. *)
Definition total_cmp {A} (cmp : A -> A -> comparison) : Prop :=
  (forall x y, cmp x y = Eq <-> x = y) /\
  (forall x y, cmp y x = CompOpp (cmp x y)) /\
  (forall x y z, cmp x y = Lt -> cmp y z = Lt -> cmp x z = Lt).

Lemma octets_total : total_cmp octets_cmp.
Proof. split; [|split].
  - induction x as [|c x IH]; intros [|d y]; cbn; try (split; [discriminate|discriminate]); [tauto|].
    destruct (N.compare_spec (N_of_ascii c) (N_of_ascii d)) as [E|E|E].
    + rewrite IH. split; [intros ->; f_equal; rewrite <- (ascii_N_embedding c), <- (ascii_N_embedding d); congruence|congruence].
    + split; [discriminate|]. intros [= -> ->]. lia.
    + split; [discriminate|]. intros [= -> ->]. lia.
  - induction x as [|c x IH]; intros [|d y]; cbn; try reflexivity. rewrite (N.compare_antisym (N_of_ascii c)).
    destruct (N_of_ascii c ?= N_of_ascii d)%N; cbn; auto.
  - induction x as [|c x IH]; intros [|d y] [|e z]; cbn; try discriminate; try reflexivity.
    destruct (N.compare_spec (N_of_ascii c) (N_of_ascii d)) as [E1|E1|E1]; try discriminate;
    destruct (N.compare_spec (N_of_ascii d) (N_of_ascii e)) as [E2|E2|E2]; try discriminate;
    intros H1 H2; destruct (N.compare_spec (N_of_ascii c) (N_of_ascii e)); try reflexivity; try lia; eauto. Qed.

Lemma comp_total : total_cmp comp_cmp.
Proof. destruct octets_total as (O1 & O2 & O3). unfold comp_cmp. split; [|split].
  - intros [t v] [t' v']; cbn [ctype cval]. destruct (N.compare_spec t t') as [->|E|E].
    + destruct (Nat.compare_spec (String.length v) (String.length v')) as [E|E|E].
      * rewrite O1. split; [intros ->; reflexivity|congruence].
      * split; [discriminate|]. intros [= ->]. lia.
      * split; [discriminate|]. intros [= ->]. lia.
    + split; [discriminate|]. intros [= -> ->]. lia.
    + split; [discriminate|]. intros [= -> ->]. lia.
  - intros [t v] [t' v']; cbn [ctype cval]. rewrite (N.compare_antisym t). destruct (t ?= t')%N; cbn; try reflexivity.
    rewrite (Nat.compare_antisym (String.length v)). destruct (Nat.compare (String.length v) (String.length v')); cbn; try reflexivity. apply O2.
  - intros [t v] [t' v'] [t'' v'']; cbn [ctype cval].
    destruct (N.compare_spec t t') as [->|E1|E1]; try discriminate; destruct (N.compare_spec t' t'') as [E2|E2|E2]; try discriminate.
    + subst t''. intros H1 H2.
      destruct (Nat.compare_spec (String.length v) (String.length v')) as [F1|F1|F1]; try discriminate;
      destruct (Nat.compare_spec (String.length v') (String.length v'')) as [F2|F2|F2]; try discriminate;
      destruct (Nat.compare_spec (String.length v) (String.length v'')); try reflexivity; try lia; eauto.
    + intros _ _. reflexivity.
    + subst t''. intros _ _. assert (H : (t ?= t')%N = Lt) by now apply N.compare_lt_iff. now rewrite H.
    + intros _ _. assert (H : (t ?= t'')%N = Lt) by (apply N.compare_lt_iff; lia). now rewrite H. Qed.

Lemma name_total : total_cmp name_cmp.
Proof. destruct comp_total as (O1 & O2 & O3). split; [|split].
  - induction x as [|c x IH]; intros [|d y]; cbn; try (split; [discriminate|discriminate]); [tauto|].
    destruct (comp_cmp c d) eqn:E.
    + apply O1 in E. subst d. rewrite IH. split; congruence.
    + split; [discriminate|]. intros [= -> ->]. rewrite (proj2 (O1 d d) eq_refl) in E. discriminate.
    + split; [discriminate|]. intros [= -> ->]. rewrite (proj2 (O1 d d) eq_refl) in E. discriminate.
  - induction x as [|c x IH]; intros [|d y]; cbn; try reflexivity. rewrite (O2 c d). destruct (comp_cmp c d); cbn; auto.
  - induction x as [|c x IH]; intros [|d y] [|e z]; cbn; try discriminate; try reflexivity.
    destruct (comp_cmp c d) eqn:E1; try discriminate; destruct (comp_cmp d e) eqn:E2; try discriminate; intros H1 H2.
    + apply O1 in E1. apply O1 in E2. subst. rewrite (proj2 (O1 e e) eq_refl). eauto.
    + apply O1 in E1. subst. now rewrite E2.
    + apply O1 in E2. subst. now rewrite E1.
    + now rewrite (O3 _ _ _ E1 E2). Qed.

Lemma link_cost_int k a : a_cost a = of_int k -> of_int (link_cost a) = of_int k /\ link_cost a = k.
Proof. intros E. rewrite !link_cost_eq. rewrite E. unfold of_int. replace (- (k * UNIT)) with ((- k) * UNIT) by ring.
  pose proof UNIT_pos. rewrite Z.div_mul by lia. rewrite Z.opp_involutive. auto. Qed.

(** ** Theorems *)

(** For whole-number costs the operators are what sorted containers and list comparison require,
    and they are consistent with each other. *)
Theorem C56_integral_partial :
  strict_weak integral_cost adj_ltb /\ equivalence integral_cost adj_eqb /\
  (forall x y, integral_cost x -> integral_cost y -> adj_eqb x y = true -> adj_ltb x y = false /\ adj_ltb y x = false).
Proof. destruct name_total as (O1 & O2 & O3). pose proof UNIT_pos as U.
  assert (Lt : forall x y k, a_cost y = of_int k ->
    adj_ltb x y = match name_cmp (a_name x) (a_name y) with Lt => true | Gt => false | Eq => a_cost x <? of_int k end).
  { intros x y k E. unfold adj_ltb. now rewrite (proj1 (@link_cost_int _ y E)). }
  assert (Eqv : forall x y k k', a_cost x = of_int k -> a_cost y = of_int k' ->
    adj_eqb x y = true <-> a_name x = a_name y /\ a_uri x = a_uri y /\ k = k').
  { intros x y k k' E E'. unfold adj_eqb. rewrite (proj1 (@link_cost_int _ y E')), !andb_true_iff, !eqb_eq, E. unfold diff_eps. rewrite Z.ltb_lt.
    assert (D : Z.abs (of_int k - of_int k') < EPS <-> k = k').
    { unfold of_int. replace (k * UNIT - k' * UNIT) with ((k - k') * UNIT) by ring. rewrite Z.abs_mul, (Z.abs_eq UNIT) by lia.
      assert (X : 0 < EPS < UNIT) by (split; reflexivity). generalize dependent EPS. intros eps X. generalize dependent UNIT. intros u U X. clear - U X.
      split; [intros H|intros ->; rewrite Z.sub_diag; cbn; lia].
      destruct (Z.eq_dec k k') as [|N]; [assumption|exfalso]. assert (1 <= Z.abs (k - k')) by lia.
      assert (u <= Z.abs (k - k') * u) by (rewrite <- (Z.mul_1_l u) at 1; apply Z.mul_le_mono_nonneg_r; lia). lia. }
    rewrite D. tauto. }
  split; [|split].
  - split; [|split].
    + intros x [k E]. rewrite (@Lt x x k E), (proj2 (O1 _ _) eq_refl), E. apply Z.ltb_irrefl.
    + intros x y z [kx Ex] [ky Ey] [kz Ez]. rewrite (@Lt x y ky Ey), (@Lt y z kz Ez), (@Lt x z kz Ez), Ex, Ey.
      destruct (name_cmp (a_name x) (a_name y)) eqn:E1; try discriminate; destruct (name_cmp (a_name y) (a_name z)) eqn:E2; try discriminate.
      * apply O1 in E1. apply O1 in E2. rewrite E1, E2, (proj2 (O1 _ _) eq_refl). rewrite !Z.ltb_lt. lia.
      * apply O1 in E1. rewrite E1, E2. auto.
      * apply O1 in E2. rewrite <- E2, E1. auto.
      * now rewrite (O3 _ _ _ E1 E2).
    + intros x y z [kx Ex] [ky Ey] [kz Ez].
      rewrite (@Lt x y ky Ey), (@Lt y x kx Ex), (@Lt y z kz Ez), (@Lt z y ky Ey), (@Lt x z kz Ez), (@Lt z x kx Ex), Ex, Ey, Ez.
      rewrite (O2 (a_name x) (a_name y)), (O2 (a_name y) (a_name z)), (O2 (a_name x) (a_name z)).
      destruct (name_cmp (a_name x) (a_name y)) eqn:E1; try discriminate; destruct (name_cmp (a_name y) (a_name z)) eqn:E2; try discriminate.
      apply O1 in E1. apply O1 in E2. rewrite E1, E2, (proj2 (O1 _ _) eq_refl). cbn [CompOpp]. rewrite !Z.ltb_ge. lia.
  - split; [|split].
    + intros x [k E]. now apply (@Eqv x x k k E E).
    + intros x y [kx Ex] [ky Ey]. rewrite (@Eqv x y kx ky Ex Ey), (@Eqv y x ky kx Ey Ex). intuition congruence.
    + intros x y z [kx Ex] [ky Ey] [kz Ez]. rewrite (@Eqv x y kx ky Ex Ey), (@Eqv y z ky kz Ey Ez), (@Eqv x z kx kz Ex Ez). intuition congruence.
  - intros x y [kx Ex] [ky Ey] H. rewrite (@Eqv x y kx ky Ex Ey) in H. destruct H as (H & _ & ->).
    rewrite (@Lt x y ky Ey), (@Lt y x ky Ex), H, (proj2 (O1 _ _) eq_refl), Ex, Ey, Z.ltb_irrefl. auto. Qed.

(** Whatever the costs, neighbours with different names are strictly ordered, one way or the other; this
    is all that is needed for lists without duplicate names. *)
Theorem C56_distinct_partial : forall x y z,
  (a_name x <> a_name y -> adj_ltb x y = negb (adj_ltb y x)) /\
  (a_name x <> a_name y -> a_name y <> a_name z -> a_name x <> a_name z ->
     adj_ltb x y = true -> adj_ltb y z = true -> adj_ltb x z = true).
Proof. destruct name_total as (O1 & O2 & O3). intros x y z. unfold adj_ltb. rewrite (O2 (a_name x) (a_name y)). split.
  - intros N. destruct (name_cmp (a_name x) (a_name y)) eqn:E; [apply O1 in E; contradiction|reflexivity|reflexivity].
  - intros N1 N2 N3. destruct (name_cmp (a_name x) (a_name y)) eqn:E1; [apply O1 in E1; contradiction| |discriminate].
    destruct (name_cmp (a_name y) (a_name z)) eqn:E2; [apply O1 in E2; contradiction| |discriminate].
    now rewrite (O3 _ _ _ E1 E2). Qed.

(** With a fractional cost the claim fails: a neighbour of cost 1.5 is less than itself and not equal to
    itself, and a neighbour list that holds it is not equal to itself; equality is not symmetric
    either. *)
Definition a15 : adjacent := Adj (nm ["ndn"; "a"]%string) "udp4://1"%string (of_int 3 / 2) SActive 0 1.
Definition a2 : adjacent := Adj (nm ["ndn"; "a"]%string) "udp4://1"%string (of_int 2) SActive 0 1.
Theorem C56_fraction_refuted :
  ~ strict_weak (fun a => 0 <= a_cost a) adj_ltb /\ ~ equivalence (fun a => 0 <= a_cost a) adj_eqb /\
  (exists x, 0 <= a_cost x /\ adj_ltb x x = true /\ adj_eqb x x = false /\ adl_eqb [x] [x] = false) /\
  (exists x y, 0 <= a_cost x /\ 0 <= a_cost y /\ adj_eqb x y = false /\ adj_eqb y x = true /\ adj_ltb x y = true /\ adj_ltb y x = false).
Proof.
  assert (H : 0 <= a_cost a15 /\ adj_ltb a15 a15 = true /\ adj_eqb a15 a15 = false /\ adl_eqb [a15] [a15] = false).
  { split; [vm_compute; discriminate|]. split; [vm_compute; reflexivity|]. split; vm_compute; reflexivity. }
  destruct H as (H1 & H2 & H3 & H4). split; [|split; [|split]].
  - intros (S & _). specialize (S a15 H1). congruence.
  - intros (S & _). specialize (S a15 H1). congruence.
  - exists a15. auto.
  - exists a15, a2. split; [exact H1|]. split; [vm_compute; discriminate|].
    split; [vm_compute; reflexivity|]. split; [vm_compute; reflexivity|]. split; vm_compute; reflexivity. Qed.

Example C56_case : integral_cost a2 /\ adj_eqb a2 a2 = true /\ adj_ltb a2 (Adj (nm ["ndn"; "a"]%string) "udp4://2"%string (of_int 3) SActive 0 1) = true.
Proof. split; [exists 2; reflexivity|]. split; vm_compute; reflexivity. Qed.

Print Assumptions C56_integral_partial.
Print Assumptions C56_distinct_partial.
Print Assumptions C56_fraction_refuted.

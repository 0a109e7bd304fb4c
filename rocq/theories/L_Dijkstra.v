(** Correctness of the model of calculateDijkstraPath and getNextHop on matrices. *)
From Coq Require Import Permutation.
From Verif Require Import Base M_Nexthop M_LinkState S_Graph L_Vec.
Open Scope Z_scope.
Set Implicit Arguments.

(** A usable link of a matrix: an entry that is not negative. *)
Definition mlink (m : matrix) (u v : nat) (c : Z) : Prop :=
  (u < length m)%nat /\ (v < length m)%nat /\ c = mget m u v /\ 0 <= c.

Lemma mlink_nonneg m u v c : mlink m u v c -> 0 <= c.
Proof. unfold mlink. tauto. Qed.

Lemma not_explored_In q v k : is_not_explored q v k = true <-> In v (skipn k q).
Proof. unfold is_not_explored. rewrite existsb_exists. split.
  - intros (x & Hx & He). apply Nat.eqb_eq in He. now subst.
  - intros Hv. exists v. split; [exact Hv|apply Nat.eqb_refl]. Qed.

Definition relax_cond (m : matrix) (q : list nat) (head u : nat) (d : list Z) (v : nat) : bool :=
  (0 <=? mget m u v) && is_not_explored q v (head + 1) && (dget d u + mget m u v <? dget d v).

Lemma relax_length m q head u s v :
  length (fst (relax m q head u s v)) = length (fst s) /\
  length (snd (relax m q head u s v)) = length (snd s).
Proof. destruct s as [p d]. unfold relax. destruct (_ && _); [|auto].
  destruct (_ <? _); simpl; rewrite ?vset_length; auto. Qed.

Lemma relax_fold_length m q head u l s :
  length (fst (fold_left (relax m q head u) l s)) = length (fst s) /\
  length (snd (fold_left (relax m q head u) l s)) = length (snd s).
Proof. revert s. induction l as [|v l IH]; intros s; simpl; [auto|].
  destruct (IH (relax m q head u s v)) as [H1 H2].
  destruct (relax_length m q head u s v) as [H3 H4]. lia. Qed.

Lemma relax_fold_spec m q head u : ~ In u (skipn (head + 1) q) ->
  forall l (p : parents) (d : list Z), NoDup l -> (forall v, In v l -> (v < length p /\ v < length d)%nat) ->
  let s := fold_left (relax m q head u) l (p, d) in
  forall v,
    dget (snd s) v = (if in_dec Nat.eq_dec v l
                      then if relax_cond m q head u d v then dget d u + mget m u v else dget d v
                      else dget d v) /\
    pget (fst s) v = (if in_dec Nat.eq_dec v l
                      then if relax_cond m q head u d v then Some u else pget p v
                      else pget p v).
Proof. intros Hu. induction l as [|x l IH]; intros p d Hnd Hlt; cbv zeta.
  - intros v. simpl. auto.
  - inversion Hnd as [|? ? Hni Hnd']; subst.
    intros v. cbn [fold_left].
    pose proof (relax_length m q head u (p, d) x) as [HL1 HL2].
    destruct (Hlt x (or_introl eq_refl)) as [Hxp Hxd].
    change (length (fst (p, d))) with (length p) in *.
    destruct (relax m q head u (p, d) x) as [p1 d1] eqn:Er. simpl in HL1, HL2.
    specialize (IH p1 d1 Hnd').
    assert (Hl' : forall w, In w l -> (w < length p1 /\ w < length d1)%nat).
    { intros w Hw. rewrite HL1, HL2. apply Hlt. now right. }
    specialize (IH Hl' v). cbv zeta in IH. destruct IH as [IHd IHp].
    rewrite IHd, IHp. clear IHd IHp.
    (* effect of one relaxation *)
    assert (Hone : forall w, dget d1 w = (if Nat.eqb w x then if relax_cond m q head u d x then dget d u + mget m u x else dget d x else dget d w)
              /\ pget p1 w = (if Nat.eqb w x then if relax_cond m q head u d x then Some u else pget p x else pget p w)).
    { intros w. unfold relax in Er. unfold relax_cond.
      destruct ((0 <=? mget m u x) && is_not_explored q x (head + 1)); simpl.
      - destruct (dget d u + mget m u x <? dget d x).
        + injection Er as <- <-. unfold dget, pget. rewrite !nth_vset by assumption.
          destruct (Nat.eqb_spec w x); auto.
        + injection Er as <- <-. destruct (Nat.eqb_spec w x); subst; auto.
      - injection Er as <- <-. destruct (Nat.eqb_spec w x); subst; auto. }
    assert (Hdu : dget d1 u = dget d u).
    { destruct (Hone u) as [Hd _]. rewrite Hd.
      destruct (Nat.eqb_spec u x) as [->|]; [|reflexivity].
      unfold relax_cond. destruct (is_not_explored q x (head+1)) eqn:En.
      - apply not_explored_In in En. contradiction.
      - now rewrite andb_false_r. }
    destruct (Hone v) as [Hdv Hpv].
    destruct (in_dec Nat.eq_dec v l) as [Hvl|Hvl];
      destruct (in_dec Nat.eq_dec v (x :: l)) as [Hvx|Hvx].
    + assert (v <> x) by (intros ->; contradiction).
      destruct (Nat.eqb_spec v x); [contradiction|].
      assert (Hc : relax_cond m q head u d1 v = relax_cond m q head u d v).
      { unfold relax_cond. now rewrite Hdu, Hdv. }
      rewrite Hc, Hdu, Hdv, Hpv. auto.
    + exfalso. apply Hvx. now right.
    + destruct Hvx as [<-|]; [|contradiction].
      rewrite Nat.eqb_refl in Hdv, Hpv. auto.
    + destruct (Nat.eqb_spec v x) as [->|]; [exfalso; apply Hvx; now left|]. auto.
Qed.

Section Dij.
  Variable m : matrix.
  Variable s : nat.
  Let n := length m.
  Hypothesis Hs : (s < n)%nat.

  Record inv (head : nat) (q : list nat) (p : parents) (d : list Z) : Prop := {
    i_q  : Permutation (seq 0 n) q;
    i_p  : length p = n;
    i_d  : length d = n;
    i_1  : forall v, (v < n)%nat -> 0 <= dget d v <= INF_DISTANCE;
    i_2  : dget d s = 0 /\ pget p s = None;
    i_3  : forall v, (v < n)%nat -> v <> s -> pget p v = None -> dget d v = INF_DISTANCE;
    i_4  : forall v u, (v < n)%nat -> pget p v = Some u ->
             exists j, (j < head)%nat /\ qget q j = u /\
               (forall i, (i < n)%nat -> qget q i = v -> (j < i)%nat) /\
               mlink m u v (mget m u v) /\ dget d v = dget d u + mget m u v /\
               dget d v < INF_DISTANCE;
    i_5  : forall i v c, (i < head)%nat -> mlink m (qget q i) v c ->
             dget d v <= dget d (qget q i) + c;
    i_6  : forall i x, (i < head)%nat -> In x (skipn head q) -> dget d (qget q i) <= dget d x;
    i_7  : forall i, (i < head)%nat -> dget d (qget q i) < INF_DISTANCE;
    i_8  : forall x, In x (skipn head q) -> dget d (qget q head) <= dget d x
  }.

  Lemma inv_len head q p d : inv head q p d -> length q = n.
  Proof. intros I. rewrite <- (Permutation_length (i_q I)). apply seq_length. Qed.

  Lemma inv_nodup head q p d : inv head q p d -> NoDup q.
  Proof. intros I. eapply Permutation_NoDup; [apply (i_q I)|apply seq_NoDup]. Qed.

  Lemma inv_range head q p d x : inv head q p d -> In x q <-> (x < n)%nat.
  Proof. intros I. split; intros Hx.
    - eapply Permutation_in in Hx; [|symmetry; apply (i_q I)]. apply in_seq in Hx. lia.
    - eapply Permutation_in; [apply (i_q I)|]. apply in_seq. lia. Qed.

  Lemma nodup_skipn (q : list nat) k i : NoDup q -> (i < k)%nat -> (i < length q)%nat ->
    ~ In (qget q i) (skipn k q).
  Proof. intros Hnd Hik Hi Hin.
    apply In_nth with (d := O) in Hin. destruct Hin as (j & Hj & He).
    rewrite skipn_length in Hj.
    assert (Hn : nth (k + j) q O = nth i q O).
    { unfold qget in He. rewrite <- He. rewrite <- (firstn_skipn k q) at 1.
      rewrite app_nth2; rewrite firstn_length, Nat.min_l by lia; [|lia]. f_equal. lia. }
    pose proof (proj1 (NoDup_nth q O) Hnd (k + j)%nat i ltac:(lia) ltac:(lia) Hn). lia. Qed.

  Lemma in_skipn_nth (q : list nat) k i : (k <= i)%nat -> (i < length q)%nat -> In (qget q i) (skipn k q).
  Proof. intros Hk Hi. unfold qget. rewrite <- (firstn_skipn k q) at 1.
    rewrite app_nth2; rewrite firstn_length, Nat.min_l by lia; [|lia].
    apply nth_In. rewrite skipn_length. lia. Qed.

  Lemma skipn_S (q : list nat) k : (k < length q)%nat -> skipn k q = qget q k :: skipn (S k) q.
  Proof. revert q. induction k as [|k IH]; intros q Hk; destruct q as [|x q]; simpl in Hk; try lia.
    - reflexivity.
    - simpl. rewrite IH by lia. reflexivity. Qed.

  Lemma inv_step head q p d : (head < n)%nat -> inv head q p d ->
    dget d (qget q head) <> INF_DISTANCE ->
    let s' := fold_left (relax m q head (qget q head)) (seq 0 n) (p, d) in
    inv (head + 1) (sort_queue q (snd s') (head + 1)) (fst s') (snd s').
  Proof.
    intros Hh I Hne. cbv zeta.
    pose proof (inv_len I) as Hlq. pose proof (inv_nodup I) as Hnd.
    set (u := qget q head) in *.
    assert (Hun : (u < n)%nat).
    { apply (inv_range u I). apply nth_In. lia. }
    assert (Hu : ~ In u (skipn (head + 1) q)) by (apply nodup_skipn; [exact Hnd|lia|lia]).
    assert (Hsk : skipn head q = u :: skipn (head + 1) q).
    { rewrite Nat.add_1_r. apply skipn_S. lia. }
    assert (HuS : In u (skipn head q)) by (rewrite Hsk; now left).
    pose proof (@relax_fold_spec m q head u Hu (seq 0 n) p d (seq_NoDup n 0)) as Hspec.
    assert (Hin : forall v, In v (seq 0 n) -> (v < length p /\ v < length d)%nat).
    { intros v Hv. apply in_seq in Hv. rewrite (i_p I), (i_d I). lia. }
    specialize (Hspec Hin). cbv zeta in Hspec.
    destruct (relax_fold_length m q head u (seq 0 n) (p, d)) as [HL1 HL2].
    set (s' := fold_left (relax m q head u) (seq 0 n) (p, d)) in *.
    simpl in HL1, HL2.
    set (d' := snd s') in *. set (p' := fst s') in *.
    assert (Hd' : forall v, (v < n)%nat -> dget d' v = if relax_cond m q head u d v then dget d u + mget m u v else dget d v).
    { intros v Hv. destruct (Hspec v) as [H1 _]. rewrite H1.
      destruct (in_dec Nat.eq_dec v (seq 0 n)) as [|Hn]; [reflexivity|].
      exfalso. apply Hn. apply in_seq. lia. }
    assert (Hp' : forall v, (v < n)%nat -> pget p' v = if relax_cond m q head u d v then Some u else pget p v).
    { intros v Hv. destruct (Hspec v) as [_ H1]. rewrite H1.
      destruct (in_dec Nat.eq_dec v (seq 0 n)) as [|Hn]; [reflexivity|].
      exfalso. apply Hn. apply in_seq. lia. }
    clear Hspec.
    assert (Hcond : forall v, relax_cond m q head u d v = true ->
              0 <= mget m u v /\ In v (skipn (head + 1) q) /\ dget d u + mget m u v < dget d v).
    { intros v Hc. unfold relax_cond in Hc. apply andb_prop in Hc as [Hc H3].
      apply andb_prop in Hc as [H1 H2]. apply not_explored_In in H2.
      apply Z.leb_le in H1. apply Z.ltb_lt in H3. auto. }
    (* explored routers keep their distance and parent *)
    assert (Hexp : forall i, (i <= head)%nat -> dget d' (qget q i) = dget d (qget q i)).
    { intros i Hi. rewrite Hd' by (apply (inv_range _ I); apply nth_In; lia).
      destruct (relax_cond m q head u d (qget q i)) eqn:Ec; [|reflexivity].
      apply Hcond in Ec as (_ & Hc & _). exfalso.
      apply (nodup_skipn Hnd (k:=head+1) (i:=i)); [lia|lia|exact Hc]. }
    assert (Hdu : dget d' u = dget d u) by (apply (Hexp head); lia).
    assert (Hle : forall v, (v < n)%nat -> dget d' v <= dget d v).
    { intros v Hv. rewrite Hd' by assumption.
      destruct (relax_cond m q head u d v) eqn:Ec; [|lia].
      apply Hcond in Ec. lia. }
    pose proof (i_1 I Hun) as [Hu0 HuI].
    assert (HuLt : dget d u < INF_DISTANCE) by lia.
    pose proof (sort_queue_frz q d' (start:=head+1) ltac:(lia)) as Hfrz.
    set (q' := sort_queue q d' (head + 1)) in *.
    assert (Hq' : forall i, (i < head + 1)%nat -> qget q' i = qget q i).
    { intros i Hi. unfold qget. apply (frz_nth O Hfrz Hi). }
    assert (Hsk' : forall x, In x (skipn (head + 1) q') -> In x (skipn (head + 1) q)).
    { intros x Hx. eapply Permutation_in; [symmetry; apply (frz_skipn Hfrz)|exact Hx]. }
    constructor.
    - rewrite (i_q I). apply Hfrz.
    - rewrite HL1. apply (i_p I).
    - rewrite HL2. apply (i_d I).
    - intros v Hv. rewrite Hd' by assumption. pose proof (i_1 I Hv).
      destruct (relax_cond m q head u d v) eqn:Ec; [|lia]. apply Hcond in Ec. lia.
    - destruct (i_2 I) as [Hds Hps]. rewrite Hd', Hp' by assumption.
      destruct (relax_cond m q head u d s) eqn:Ec; [|auto].
      apply Hcond in Ec. lia.
    - intros v Hv Hvs Hpv. rewrite Hp' in Hpv by assumption. rewrite Hd' by assumption.
      destruct (relax_cond m q head u d v) eqn:Ec; [discriminate|].
      now apply (i_3 I).
    - intros v w Hv Hpv. rewrite Hp' in Hpv by assumption. rewrite Hd' by assumption.
      destruct (relax_cond m q head u d v) eqn:Ec.
      + injection Hpv as <-. apply Hcond in Ec as (H0 & Hiv & Hlt).
        exists head. split; [lia|]. split; [rewrite Hq' by lia; reflexivity|].
        split; [|split; [|split]].
        * intros i Hi Hqi. destruct (Nat.lt_ge_cases i (head+1)) as [Hlt'|]; [|lia].
          exfalso. rewrite Hq' in Hqi by lia. subst v.
          eapply nodup_skipn; [exact Hnd| |  |exact Hiv]; lia.
        * unfold mlink. fold n. auto.
        * rewrite Hdu. reflexivity.
        * pose proof (i_1 I Hv). lia.
      + destruct (i_4 I Hv Hpv) as (j & Hj & Hqj & Hord & Hml & Hdv & Hvlt).
        exists j. split; [lia|]. split; [rewrite Hq' by lia; exact Hqj|].
        split; [|split; [|split]].
        * intros i Hi Hqi. destruct (Nat.lt_ge_cases i (head+1)) as [Hlt'|]; [|lia].
          rewrite Hq' in Hqi by lia. now apply Hord.
        * exact Hml.
        * rewrite <- Hqj at 1. rewrite Hexp by lia. rewrite Hqj. exact Hdv.
        * exact Hvlt.
    - intros i v c Hi Hml. rewrite Hq' in * by assumption.
      pose proof Hml as (_ & Hv & Hc & Hc0). fold n in Hv.
      destruct (Nat.eq_dec i head) as [->|Hih].
      + change (qget q head) with u in Hml, Hc |- *. rewrite Hdu.
        destruct (in_dec Nat.eq_dec v (skipn (head + 1) q)) as [Hiv|Hiv].
        * rewrite Hd' by assumption. destruct (relax_cond m q head u d v) eqn:Ec; [lia|].
          unfold relax_cond in Ec. rewrite <- Hc in Ec.
          rewrite (proj2 (Z.leb_le 0 c)) in Ec by lia.
          rewrite (proj2 (not_explored_In q v (head+1))) in Ec by exact Hiv.
          simpl in Ec. apply Z.ltb_ge in Ec. lia.
        * (* v is explored *)
          assert (Hvq : In v q) by (apply (inv_range v I); exact Hv).
          apply In_nth with (d := O) in Hvq. destruct Hvq as (k & Hk & Hvk).
          assert (Hk' : (k <= head)%nat).
          { destruct (Nat.lt_ge_cases k (head+1)) as [|Hge]; [lia|]. exfalso. apply Hiv.
            rewrite <- Hvk. rewrite <- (firstn_skipn (head+1) q) at 1.
            rewrite app_nth2; rewrite firstn_length, Nat.min_l by lia; [|lia].
            apply nth_In. rewrite skipn_length. lia. }
          assert (Hvk' : qget q k = v) by exact Hvk.
          rewrite <- Hvk', Hexp by lia.
          destruct (Nat.eq_dec k head) as [->|].
          -- change (qget q head) with u. lia.
          -- pose proof (i_6 I (i:=k) u ltac:(lia) HuS). lia.
      + rewrite Hexp by lia. pose proof (i_5 I (i:=i) ltac:(lia) Hml).
        pose proof (Hle v Hv). lia.
    - intros i x Hi Hx. rewrite Hq' by lia. rewrite Hexp by lia.
      apply Hsk' in Hx.
      assert (Hxq : In x (skipn head q)) by (rewrite Hsk; now right).
      assert (Hxn : (x < n)%nat).
      { apply (inv_range x I). rewrite <- (firstn_skipn head q). apply in_or_app. now right. }
      assert (Hiu : dget d (qget q i) <= dget d u).
      { destruct (Nat.eq_dec i head) as [->|]; [change (qget q head) with u; lia|].
        apply (i_6 I); [lia|exact HuS]. }
      rewrite Hd' by assumption. destruct (relax_cond m q head u d x) eqn:Ec.
      + apply Hcond in Ec. lia.
      + pose proof (i_8 I x Hxq) as H8. change (qget q head) with u in H8. lia.
    - intros i Hi. rewrite Hq' by lia. rewrite Hexp by lia.
      destruct (Nat.eq_dec i head) as [->|]; [change (qget q head) with u; lia|].
      apply (i_7 I). lia.
    - intros x Hx. destruct (Nat.lt_ge_cases (head + 1) (length q)) as [Hlt|Hge].
      + apply sort_queue_min; assumption.
      + rewrite skipn_all2 in Hx; [contradiction|].
        pose proof (frz_length Hfrz). lia.
  Qed.

  (** What holds of the result. *)
  Record final (p : parents) (d : list Z) : Prop := {
    f_p : length p = n;
    f_d : length d = n;
    f_1 : forall v, (v < n)%nat -> 0 <= dget d v <= INF_DISTANCE;
    f_2 : dget d s = 0 /\ pget p s = None;
    f_3 : forall v, (v < n)%nat -> v <> s -> pget p v = None -> dget d v = INF_DISTANCE;
    f_4 : exists rank : nat -> nat, (forall v, (v < n)%nat -> (rank v < n)%nat) /\
            forall v u, (v < n)%nat -> pget p v = Some u ->
              mlink m u v (mget m u v) /\ dget d v = dget d u + mget m u v /\
              (rank u < rank v)%nat /\ dget d u < INF_DISTANCE /\ dget d v < INF_DISTANCE;
    f_5 : forall u v c, mlink m u v c -> dget d u < INF_DISTANCE -> dget d v <= dget d u + c
  }.

  Fixpoint idx (q : list nat) (x : nat) : nat :=
    match q with [] => O | y :: q' => if Nat.eqb x y then O else S (idx q' x) end.

  Lemma idx_spec q x : In x q -> (idx q x < length q)%nat /\ qget q (idx q x) = x.
  Proof. induction q as [|y q IH]; simpl; [tauto|]. intros [->|Hin].
    - rewrite Nat.eqb_refl. unfold qget. simpl. split; [lia|reflexivity].
    - destruct (Nat.eqb_spec x y) as [->|].
      + unfold qget; simpl; split; [lia|reflexivity].
      + destruct (IH Hin) as [H1 H2]. split; [lia|exact H2]. Qed.

  Lemma inv_final head q p d : (head <= n)%nat -> inv head q p d ->
    (forall x, In x (skipn head q) -> dget d x = INF_DISTANCE) -> final p d.
  Proof. intros Hh I Hunr. pose proof (inv_len I) as Hlq. pose proof (inv_nodup I) as Hnd.
    constructor; try apply I.
    - exists (idx q). split.
      + intros v Hv. rewrite <- Hlq. apply idx_spec. now apply (inv_range v I).
      + intros v u Hv Hpv. destruct (i_4 I Hv Hpv) as (j & Hj & Hqj & Hord & Hml & Hdv & Hvlt).
        split; [exact Hml|]. split; [exact Hdv|]. split.
        * pose proof (proj2 (inv_range v I) Hv) as Hvq. apply idx_spec in Hvq as [Hv1 Hv2].
          specialize (Hord (idx q v) ltac:(lia) Hv2).
          assert (Huq : In u q) by (rewrite <- Hqj; apply nth_In; lia).
          apply idx_spec in Huq as [Hu1 Hu2].
          assert (idx q u = j); [|lia].
          apply (proj1 (NoDup_nth q O) Hnd); [lia|lia|].
          unfold qget in *. congruence.
        * split; [rewrite <- Hqj; now apply (i_7 I)|exact Hvlt].
    - intros u v c Hml Hlt.
      pose proof Hml as (Hu & _). fold n in Hu.
      apply (inv_range u I) in Hu. apply idx_spec in Hu as [Hu1 Hu2].
      destruct (Nat.lt_ge_cases (idx q u) head) as [Hih|Hih].
      + rewrite <- Hu2. apply (i_5 I Hih). now rewrite Hu2.
      + exfalso. rewrite (Hunr u) in Hlt; [lia|].
        pose proof (in_skipn_nth q Hih Hu1) as Hin. now rewrite Hu2 in Hin.
  Qed.

  Lemma dij_loop_final : forall fuel head q p d, fuel = (n - head)%nat -> (head <= n)%nat ->
    inv head q p d ->
    final (fst (dij_loop m n fuel head q p d)) (snd (dij_loop m n fuel head q p d)).
  Proof. induction fuel as [|fuel IH]; intros head q p d Hf Hh I; simpl.
    - apply (inv_final Hh I). intros x Hx.
      rewrite skipn_all2 in Hx; [contradiction|]. rewrite (inv_len I). lia.
    - destruct (Z.eqb_spec (dget d (qget q head)) INF_DISTANCE) as [He|Hne].
      + apply (inv_final Hh I). intros x Hx. pose proof (i_8 I x Hx).
        assert (Hxn : (x < n)%nat).
        { apply (inv_range x I). rewrite <- (firstn_skipn head q). apply in_or_app. now right. }
        pose proof (i_1 I Hxn). lia.
      + pose proof (inv_step (head:=head) ltac:(lia) I Hne) as Hst. cbv zeta in Hst.
        destruct (fold_left (relax m q head (qget q head)) (seq 0 n) (p, d)) as [p' d'].
        simpl in Hst. apply IH; [lia|lia|exact Hst].
  Qed.

  Lemma nth_repeat_lt A (x y : A) k i : nth i (repeat x k) y = if (i <? k)%nat then x else y.
  Proof. revert i. induction k as [|k IH]; intros i; simpl; [destruct i; reflexivity|].
    destruct i; [reflexivity|]. rewrite IH. reflexivity. Qed.

  Lemma dijkstra_final : final (fst (dijkstra m s)) (snd (dijkstra m s)).
  Proof. unfold dijkstra. fold n. apply dij_loop_final; [lia|lia|].
    set (d := vset (repeat INF_DISTANCE n) s 0).
    assert (Hd : forall v, (v < n)%nat -> dget d v = if Nat.eqb v s then 0 else INF_DISTANCE).
    { intros v Hv. unfold d, dget. rewrite nth_vset by (rewrite repeat_length; lia).
      destruct (Nat.eqb_spec v s); [reflexivity|].
      rewrite nth_repeat_lt. destruct (Nat.ltb_spec v n); [reflexivity|lia]. }
    assert (Hp : forall v, pget (repeat None n) v = None).
    { intros v. unfold pget. rewrite nth_repeat_lt. now destruct (_ <? _)%nat. }
    assert (HI : 0 <= INF_DISTANCE) by (unfold INF_DISTANCE; lia).
    pose proof (sort_queue_frz (seq 0 n) d (start:=0) ltac:(lia)) as Hfrz.
    constructor.
    - apply Hfrz.
    - apply repeat_length.
    - unfold d. now rewrite vset_length, repeat_length.
    - intros v Hv. rewrite Hd by assumption. destruct (Nat.eqb v s); lia.
    - split; [|apply Hp]. rewrite Hd by assumption. now rewrite Nat.eqb_refl.
    - intros v Hv Hvs _. rewrite Hd by assumption. destruct (Nat.eqb_spec v s); [contradiction|reflexivity].
    - intros v u _ Hpv. rewrite Hp in Hpv. discriminate.
    - intros; lia.
    - intros; lia.
    - intros; lia.
    - intros x Hx. apply sort_queue_min; [rewrite seq_length; lia|exact Hx].
  Qed.

  (** Consequences of [final]. *)
  Lemma final_lower p d : final p d -> forall t c, walk (mlink m) s t c ->
    c < INF_DISTANCE -> dget d t <= c.
  Proof. intros F t c Hw.
    (* generalise over the start of the remaining walk *)
    assert (Hgen : forall u t c, walk (mlink m) u t c -> forall b, dget d u <= b ->
              b + c < INF_DISTANCE -> dget d t <= b + c).
    { clear Hw. intros u0 t0 c0 Hw. induction Hw as [u0|u0 v0 w0 c1 c2 Hl Hw IH]; intros b Hb Hlt.
      - lia.
      - pose proof (walk_nonneg (mlink_nonneg (m:=m)) Hw) as Hn2.
        pose proof (mlink_nonneg Hl) as Hn1.
        pose proof (f_5 F Hl ltac:(lia)) as H5.
        specialize (IH (b + c1) ltac:(lia) ltac:(lia)). lia. }
    intros Hlt. destruct (f_2 F) as [H0 _].
    specialize (Hgen s t c Hw 0 ltac:(lia) ltac:(lia)). lia. Qed.

  (** From the parent table: a walk of that cost, and the parent walk finds its first hop. *)
  Lemma final_parent_walk p d : final p d -> forall fuel t nh rank,
    (forall v, (v < n)%nat -> (rank v < n)%nat) ->
    (forall v u, (v < n)%nat -> pget p v = Some u ->
       mlink m u v (mget m u v) /\ dget d v = dget d u + mget m u v /\
       (rank u < rank v)%nat /\ dget d u < INF_DISTANCE /\ dget d v < INF_DISTANCE) ->
    (t < n)%nat -> (rank t <= fuel)%nat -> dget d t < INF_DISTANCE ->
    exists h, next_hop_loop p fuel nh t = Some (h, s) /\
      walk (mlink m) s t (dget d t) /\
      ((t = s /\ h = nh) \/
       exists hv, h = Some hv /\ t <> s /\ pget p hv = Some s /\
         mlink m s hv (mget m s hv) /\
         walk (mlink m) hv t (dget d t - mget m s hv)).
  Proof. intros F. induction fuel as [|fuel IH]; intros t nh rank Hr1 Hr2 Ht Hrk Hlt.
    - destruct (pget p t) as [u|] eqn:Ep.
      + destruct (Hr2 t u Ht Ep) as (_ & _ & Hr & _ & _). lia.
      + destruct (Nat.eq_dec t s) as [->|Hts].
        * exists nh. simpl. rewrite Ep. split; [reflexivity|].
          destruct (f_2 F) as [H0 _]. rewrite H0. split; [constructor|]. left. auto.
        * rewrite (f_3 F Ht Hts Ep) in Hlt. lia.
    - destruct (pget p t) as [u|] eqn:Ep.
      + destruct (Hr2 t u Ht Ep) as (Hml & Hdt & Hr & Hdu & _).
        assert (Hu : (u < n)%nat) by apply Hml.
        destruct (IH u (Some t) rank Hr1 Hr2 Hu ltac:(lia) Hdu) as (h & Hloop & Hw & Hcase).
        exists h. simpl. rewrite Ep. split; [exact Hloop|]. split.
        { rewrite Hdt. eapply walk_snoc; eassumption. }
        right.
        assert (Hts : t <> s).
        { intros ->. destruct (f_2 F) as [_ H0]. congruence. }
        destruct Hcase as [[-> ->]|(hv & -> & Hus & Hph & Hmh & Hwh)].
        * exists t. repeat (split; [solve [auto]|]).
          destruct (f_2 F) as [H0 _]. rewrite H0 in Hdt. rewrite Hdt.
          replace (0 + mget m s t - mget m s t) with 0 by lia. constructor.
        * exists hv. repeat (split; [solve [auto]|]).
          rewrite Hdt.
          replace (dget d u + mget m u t - mget m s hv)
            with ((dget d u - mget m s hv) + mget m u t) by lia.
          eapply walk_snoc; eassumption.
      + destruct (Nat.eq_dec t s) as [->|Hts].
        * exists nh. simpl. rewrite Ep. split; [reflexivity|].
          destruct (f_2 F) as [H0 _]. rewrite H0. split; [constructor|]. left. auto.
        * rewrite (f_3 F Ht Hts Ep) in Hlt. lia.
  Qed.

  Lemma final_noparent p d : final p d -> forall t, (t < n)%nat ->
    dget d t = INF_DISTANCE -> pget p t = None.
  Proof. intros F t Ht Hd. destruct (pget p t) as [u|] eqn:Ep; [|reflexivity].
    exfalso. destruct (f_4 F) as (rank & Hr1 & Hr2).
    destruct (Hr2 t u Ht Ep) as (_ & _ & _ & _ & Hlt). lia. Qed.

End Dij.

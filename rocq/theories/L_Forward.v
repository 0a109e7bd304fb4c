(** Loop freedom of single-path link-state forwarding. *)
From Coq Require Import Permutation.
From Verif Require Import Base M_Nexthop M_LinkState S_Graph S_LinkState L_LsTable.
Open Scope Z_scope.
Set Implicit Arguments.

Lemma usable_perm l1 l2 u v c : Permutation l1 l2 -> usable l1 u v c -> usable l2 u v c.
Proof. intros Hp (a & b & (x & Hx & Hx') & (y & Hy & Hy') & H). exists a, b.
  split; [exists x; split; [eapply Permutation_in; eassumption|assumption]|].
  split; [exists y; split; [eapply Permutation_in; eassumption|assumption]|exact H]. Qed.

Lemma wf_perm l1 l2 : Permutation l1 l2 -> wf_lsdb l1 -> wf_lsdb l2.
Proof. intros Hp [H1 H2]. split.
  - eapply Permutation_NoDup; [apply Permutation_map; exact Hp|exact H1].
  - intros l Hl. apply H2. eapply Permutation_in; [symmetry; exact Hp|exact Hl]. Qed.

Lemma shortest_exists lsas s t c : wf_lsdb lsas -> walk (usable lsas) s t c -> c < INF_DISTANCE ->
  exists d, shortest (usable lsas) s t d /\ d <= c.
Proof. intros Hw Hwk Hlt. destruct (eq_dec t s) as [->|Hne].
  - exists 0. split.
    + split; [constructor|]. intros d' Hd'. eapply walk_nonneg; [|exact Hd']. intros; eapply usable_nonneg; eassumption.
    + eapply walk_nonneg; [|exact Hwk]. intros; eapply usable_nonneg; eassumption.
  - destruct (calc_single Hw s []) as (tb & _ & _ & H). destruct (H t Hne) as [(d & nb & c' & Hsh & _)|[Hno _]].
    + exists d. split; [exact Hsh|]. now apply Hsh.
    + apply Hno in Hwk. lia. Qed.

Section Net.
  Variable lsas : list adj_lsa.
  Hypothesis Hw : wf_lsdb lsas.
  Hypothesis Hpos : forall u v c, usable lsas u v c -> u <> v -> 0 < c.
  Variable lsdb : name -> list adj_lsa.
  Hypothesis Hsame : forall r, Permutation lsas (lsdb r).
  Variable adjs : name -> list (name * uri).
  Let linked r nb := exists c, usable lsas r nb c.
  Let face r nb := face_of (adjs r) nb.
  Hypothesis Hfaces : forall r u v, linked r u -> linked r v -> face r u = face r v -> u = v.
  Variable tbl : name -> rtable.
  Hypothesis Htbl : forall r, calc_link_state r 1 (adjs r) (lsdb r) = Ok (tbl r).

  Lemma usable_r r u v c : usable (lsdb r) u v c <-> usable lsas u v c.
  Proof. split; apply usable_perm; [symmetry|]; apply Hsame. Qed.

  Lemma walk_r r u v c : walk (usable (lsdb r)) u v c <-> walk (usable lsas) u v c.
  Proof. split; apply walk_mono; intros; now apply (usable_r r). Qed.

  (** What router [r] does for [dest]. *)
  Lemma forwards_step r dest d : r <> dest -> shortest (usable lsas) r dest d -> d < INF_DISTANCE ->
    (exists nb, forwards tbl face linked r dest nb) /\
    forall nb, forwards tbl face linked r dest nb ->
      exists d', shortest (usable lsas) nb dest d' /\ 0 <= d' < d.
  Proof. intros Hne Hsh Hlt.
    destruct (calc_single (wf_perm (Hsame r) Hw) r (adjs r)) as (t & Ht & _ & H).
    rewrite Htbl in Ht. injection Ht as <-.
    destruct (H dest ltac:(congruence)) as [(d0 & nb & c & Hs0 & Hd0 & Hnb & Hus & Hwk & Hhops)|[Hno _]].
    - apply usable_r in Hus. apply walk_r in Hwk.
      assert (Hdd : d0 = d).
      { destruct Hs0 as [W0 M0]. destruct Hsh as [W M]. apply walk_r in W0.
        specialize (M _ W0). specialize (M0 d (proj2 (walk_r r r dest d) W)). lia. }
      subst d0.
      pose proof (Hpos Hus ltac:(congruence)) as Hc.
      assert (Hlk : linked r nb) by (exists c; exact Hus).
      split.
      + exists nb. split; [exact Hlk|]. eexists. rewrite Hhops. split; [now left|reflexivity].
      + intros nb' (Hlk' & h & Hin & Hu). rewrite Hhops in Hin. destruct Hin as [<-|[]]. simpl in Hu.
        assert (nb' = nb) by (eapply Hfaces; [exact Hlk'|exact Hlk|symmetry; exact Hu]). subst nb'.
        destruct (shortest_exists Hw Hwk ltac:(lia)) as (d' & Hd' & Hle). exists d'. split; [exact Hd'|].
        split; [|lia]. eapply walk_nonneg; [|apply Hd']. intros; eapply usable_nonneg; eassumption.
    - destruct Hsh as [W _]. apply walk_r with (r := r) in W. apply Hno in W. lia. Qed.

  Lemma all_delivered dest : forall k r d, (Z.to_nat d < k)%nat -> shortest (usable lsas) r dest d -> 0 <= d < INF_DISTANCE ->
    delivered tbl face linked dest r.
  Proof. induction k as [|k IH]; intros r d Hk Hsh Hd; [lia|].
    destruct (eq_dec r dest) as [->|Hne]; [constructor|].
    destruct (forwards_step Hne Hsh ltac:(lia)) as [Hex Hall].
    constructor; [exact Hne|exact Hex|]. intros nb Hf. destruct (Hall nb Hf) as (d' & Hs' & Hd').
    apply (IH nb d'); [lia|exact Hs'|lia]. Qed.

  Lemma path_decreases dest r l : fwd_path tbl face linked dest r l -> forall d,
    shortest (usable lsas) r dest d -> d < INF_DISTANCE ->
    NoDup (r :: l) /\ forall x, In x l -> exists d', shortest (usable lsas) x dest d' /\ d' < d.
  Proof. intros Hp. induction Hp as [r|r nb l Hne Hf Hp IH]; intros d Hsh Hlt.
    - split; [constructor; [simpl; tauto|constructor]|]. intros x [].
    - destruct (forwards_step Hne Hsh Hlt) as [_ Hall]. destruct (Hall nb Hf) as (d1 & Hs1 & Hd1).
      destruct (IH d1 Hs1 ltac:(lia)) as [Hnd Hx].
      assert (Hdec : forall x, In x (nb :: l) -> exists d', shortest (usable lsas) x dest d' /\ d' < d).
      { intros x [<-|Hin]; [exists d1; split; [exact Hs1|lia]|].
        destruct (Hx x Hin) as (d' & Hs' & Hd'). exists d'. split; [exact Hs'|lia]. }
      split; [|exact Hdec]. constructor; [|exact Hnd].
      intros Hin. destruct (Hdec r Hin) as (d' & Hs' & Hd').
      pose proof (shortest_unique Hs' Hsh). lia. Qed.

  Lemma loop_free r dest c : walk (usable lsas) r dest c -> c < INF_DISTANCE ->
    delivered tbl face linked dest r /\
    forall l, fwd_path tbl face linked dest r l -> NoDup (r :: l).
  Proof. intros Hwk Hlt. destruct (shortest_exists Hw Hwk Hlt) as (d & Hsh & Hle).
    assert (Hd0 : 0 <= d) by (eapply walk_nonneg; [|apply Hsh]; intros; eapply usable_nonneg; eassumption).
    split.
    - eapply all_delivered; [apply Nat.lt_succ_diag_r|exact Hsh|lia].
    - intros l Hp. apply (path_decreases Hp Hsh). lia. Qed.
End Net.

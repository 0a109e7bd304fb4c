(** The name prefix table without pointers: entries by name, pool by router, and the invariant that
    ties the pointers to them. *)
From Verif Require Import Base M_Nexthop M_Lsa M_Lsdb M_LinkState M_Npt.
Open Scope Z_scope.
Set Implicit Arguments.

(** ** Views *)
Definition dest_of (h : amap nat pent) (o : nat) : name :=
  match get o h with Some p => pe_dest p | None => [] end.

(** Flags, routers and cached hops of the entry of a name. *)
Definition ent (s : npt) (n : name) : option (N * list name * nhl) :=
  match find_npte n (n_table s) with
  | Some (_, e) => Some (ne_flags e, map (dest_of (n_heap s)) (ne_rtes e), ne_nhl e)
  | None => None
  end.
(** Next hops of a router in the pool. *)
Definition poolh (s : npt) (d : name) : option nhl :=
  match get d (n_pool s) with Some o => Some (hops_of (n_heap s) o) | None => None end.
Definition costof (s : npt) (d n : name) : Z :=
  match get (d, n) (n_cost s) with Some v => v | None => 0 end.
Definition dests (s : npt) (n : name) : list name :=
  match ent s n with Some (_, ds, _) => ds | None => [] end.
Definition route (d : name) (t : rtable) : nhl :=
  match find_rte d t with Some l => l | None => [] end.

Definition agen (ph : name -> option nhl) (ds : list name) : nhl :=
  fold_left (fun acc x => nhl_addc x acc)
            (flat_map (fun d => match ph d with Some l => l | None => [] end) ds) [].
Definition shift (k : Z) (l : nhl) : nhl :=
  fold_left (fun acc h => nhl_addc (mk_nh (nh_uri h) (nh_cost h + k)) acc) l [].

(** ** The pointer invariant *)
Definition refs (t : amap nat npte) (o : nat) (n : name) (k : nat) : Prop :=
  exists e, get k t = Some e /\ ne_name e = n /\ In o (ne_rtes e).

Record pinv (s : npt) : Prop := PInv
  { pi_tk : NoDup (keys (n_table s));
    pi_tn : forall k k' e e', get k (n_table s) = Some e -> get k' (n_table s) = Some e' ->
              ne_name e = ne_name e' -> k = k';
    pi_pk : NoDup (keys (n_pool s));
    pi_pi : forall d d' o, get d (n_pool s) = Some o -> get d' (n_pool s) = Some o -> d = d';
    pi_bt : forall k e, get k (n_table s) = Some e -> (k < n_next s)%nat;
    pi_bp : forall d o, get d (n_pool s) = Some o -> (o < n_next s)%nat;
    pi_bh : forall o p, get o (n_heap s) = Some p -> (o < n_next s)%nat;
    pi_pool : forall d o, get d (n_pool s) = Some o ->
      exists p, get o (n_heap s) = Some p /\ pe_dest p = d /\ NoDup (keys (pe_names p)) /\
        pe_names p <> [] /\ pe_use p = N.of_nat (length (pe_names p)) /\
        forall n k, get n (pe_names p) = Some k <-> refs (n_table s) o n k;
    pi_tab : forall k e, get k (n_table s) = Some e ->
      NoDup (ne_rtes e) /\ ne_rtes e <> [] /\
      forall o, In o (ne_rtes e) -> exists d, get d (n_pool s) = Some o }.

Lemma pinv_init : pinv npt_init.
Proof. constructor; simpl; try (constructor; fail); try discriminate. Qed.

(** ** Lookup by name *)
Definition uniq (t : amap nat npte) : Prop :=
  NoDup (keys t) /\ forall k k' e e', get k t = Some e -> get k' t = Some e' -> ne_name e = ne_name e' -> k = k'.

Lemma find_npte_In n t k e : find_npte n t = Some (k, e) -> In (k, e) t /\ ne_name e = n.
Proof. unfold find_npte. intros H. apply find_some in H as [H1 H2]. simpl in H2.
  apply eqb_eq in H2. auto. Qed.

Lemma find_npte_Some n t k e : uniq t -> find_npte n t = Some (k, e) <-> get k t = Some e /\ ne_name e = n.
Proof. intros [Hk Hn]. split.
  - intros H. apply find_npte_In in H as [H1 H2]. split; [|exact H2]. now apply In_get.
  - intros [H1 H2]. destruct (find_npte n t) as [[k' e']|] eqn:F.
    + apply find_npte_In in F as [F1 F2]. apply In_get in F1; [|exact Hk].
      assert (k' = k) by (eapply Hn; eauto; congruence). subst k'. congruence.
    + unfold find_npte in F. apply get_In in H1. pose proof (find_none _ _ F _ H1) as X. simpl in X.
      apply eqb_neq in X. congruence. Qed.

Lemma find_npte_None n t : uniq t -> find_npte n t = None <-> forall k e, get k t = Some e -> ne_name e <> n.
Proof. intros U. split.
  - intros F k e H E. assert (find_npte n t = Some (k, e)) by (apply find_npte_Some; auto). congruence.
  - intros H. destruct (find_npte n t) as [[k e]|] eqn:F; [|reflexivity].
    apply find_npte_Some in F as [F1 F2]; [|exact U]. exfalso. eapply H; eauto. Qed.

Lemma pinv_uniq s : pinv s -> uniq (n_table s).
Proof. intros I. split; [exact (pi_tk I)|exact (pi_tn I)]. Qed.

(** Same name under a key, or a new key and name: the table keeps its uniqueness. *)
Lemma uniq_set k e t : uniq t -> (forall k' e', k' <> k -> get k' t = Some e' -> ne_name e' <> ne_name e) ->
  uniq (set k e t).
Proof. intros [Hk Hn] H. split; [now apply NoDup_set|]. intros k1 k2 e1 e2. rewrite !get_set.
  eqb_case k1 k; eqb_case k2 k; auto.
  - intros [= <-] H2 E'. exfalso. eapply H; eauto.
  - intros H1 [= <-] E'. exfalso. eapply H; eauto.
  - apply Hn. Qed.

Lemma uniq_del k t : uniq t -> uniq (del k t).
Proof. intros [Hk Hn]. split; [now apply NoDup_del|]. intros k1 k2 e1 e2. rewrite !get_del.
  eqb_case k1 k; [discriminate|]. eqb_case k2 k; [discriminate|]. apply Hn. Qed.

Lemma find_set k e t n : uniq t -> uniq (set k e t) ->
  find_npte n (set k e t) =
  if eqb n (ne_name e) then Some (k, e)
  else match find_npte n t with Some (k', e') => if eqb k' k then None else Some (k', e') | None => None end.
Proof. intros U U'. eqb_case n (ne_name e).
  - apply find_npte_Some; [exact U'|]. split; [apply get_set_eq|reflexivity].
  - destruct (find_npte n t) as [[k' e']|] eqn:F.
    + apply find_npte_Some in F as [F1 F2]; [|exact U]. eqb_case k' k.
      * apply find_npte_None; [exact U'|]. intros k1 e1. rewrite get_set. eqb_case k1 k.
        -- intros [= <-]. congruence.
        -- intros G G2. destruct U as [_ Hn]. apply E0. eapply Hn; eauto; congruence.
      * apply find_npte_Some; [exact U'|]. split; [now rewrite get_set_ne|exact F2].
    + apply find_npte_None; [exact U'|]. intros k1 e1. rewrite get_set. eqb_case k1 k.
      * intros [= <-]. congruence.
      * eapply find_npte_None; eauto. Qed.

Lemma find_del k e t n : uniq t -> get k t = Some e ->
  find_npte n (del k t) = if eqb n (ne_name e) then None else find_npte n t.
Proof. intros U G. pose proof (uniq_del k U) as U'. eqb_case n (ne_name e).
  - apply find_npte_None; [exact U'|]. intros k1 e1. rewrite get_del. eqb_case k1 k; [discriminate|].
    intros G1 G2. destruct U as [_ Hn]. apply E. eapply Hn; eauto.
  - destruct (find_npte n t) as [[k' e']|] eqn:F.
    + apply find_npte_Some in F as [F1 F2]; [|exact U]. apply find_npte_Some; [exact U'|].
      split; [|exact F2]. rewrite get_del. eqb_case k' k; [|exact F1]. congruence.
    + apply find_npte_None; [exact U'|]. intros k1 e1. rewrite get_del. eqb_case k1 k; [discriminate|].
      eapply find_npte_None; eauto. Qed.

(** ** Reading through the pool *)
Lemma pinv_rte s k e o : pinv s -> get k (n_table s) = Some e -> In o (ne_rtes e) ->
  get (dest_of (n_heap s) o) (n_pool s) = Some o.
Proof. intros I G H. destruct (pi_tab I _ G) as (_ & _ & T). destruct (T _ H) as [d D].
  destruct (pi_pool I _ D) as (p & P1 & P2 & _). unfold dest_of. rewrite P1, P2. exact D. Qed.

Lemma gen_agen s rtes : (forall o, In o rtes -> get (dest_of (n_heap s) o) (n_pool s) = Some o) ->
  gen_nhl (n_heap s) rtes = agen (poolh s) (map (dest_of (n_heap s)) rtes).
Proof. intros H. unfold gen_nhl, agen. f_equal.
  induction rtes as [|o rtes IH]; [reflexivity|]. cbn [map flat_map]. rewrite IH by (intros; apply H; now right).
  f_equal. unfold poolh. now rewrite (H o (or_introl eq_refl)). Qed.

Lemma dest_inj s o o' : get (dest_of (n_heap s) o) (n_pool s) = Some o ->
  get (dest_of (n_heap s) o') (n_pool s) = Some o' -> dest_of (n_heap s) o = dest_of (n_heap s) o' -> o = o'.
Proof. intros H1 H2 E. rewrite E in H1. congruence. Qed.

Lemma poolh_None s d : poolh s d = None <-> get d (n_pool s) = None.
Proof. unfold poolh. destruct (get d (n_pool s)); split; congruence. Qed.

(** A router is in the pool exactly when some entry refers to it. *)
Lemma pool_used s d : pinv s -> poolh s d <> None <-> exists n, In d (dests s n).
Proof. intros I. rewrite poolh_None. split.
  - intros H. destruct (get d (n_pool s)) as [o|] eqn:G; [|congruence].
    destruct (pi_pool I _ G) as (p & P1 & P2 & P3 & P4 & P5 & P6).
    destruct (pe_names p) as [|[n k] l] eqn:En; [congruence|].
    assert (X : refs (n_table s) o n k). { apply P6. simpl. now rewrite eqb_refl. }
    destruct X as (e & E1 & E2 & E3). exists n. unfold dests, ent.
    rewrite (proj2 (find_npte_Some n k e (pinv_uniq I))) by auto. apply in_map_iff. exists o.
    split; [|exact E3]. unfold dest_of. now rewrite P1.
  - intros [n Hn]. unfold dests, ent in Hn. destruct (find_npte n (n_table s)) as [[k e]|] eqn:F; [|destruct Hn].
    apply find_npte_Some in F as [F1 F2]; [|now apply pinv_uniq].
    apply in_map_iff in Hn as (o & <- & O). rewrite (@pinv_rte s k e o I F1 O). discriminate. Qed.

Lemma dests_NoDup s n : pinv s -> NoDup (dests s n).
Proof. intros I. unfold dests, ent. destruct (find_npte n (n_table s)) as [[k e]|] eqn:F; [|constructor].
  apply find_npte_Some in F as [F1 F2]; [|now apply pinv_uniq].
  pose proof (pi_tab I _ F1) as (T1 & _ & _).
  assert (X : forall o, In o (ne_rtes e) -> get (dest_of (n_heap s) o) (n_pool s) = Some o) by (intros; eapply pinv_rte; eauto).
  revert T1 X. generalize (ne_rtes e). intros l T1 X. induction T1 as [|o l Hni Hnd IH]; [constructor|].
  cbn [map]. constructor.
  - intros Hin. apply in_map_iff in Hin as (o' & E' & O'). apply Hni.
    assert (o' = o); [|subst; exact O']. eapply dest_inj; [apply X; now right|apply X; now left|exact E'].
  - apply IH. intros. apply X. now right. Qed.

Lemma ent_nonempty s n f ds h : pinv s -> ent s n = Some (f, ds, h) -> ds <> [].
Proof. intros I. unfold ent. destruct (find_npte n (n_table s)) as [[k e]|] eqn:F; [|discriminate].
  apply find_npte_Some in F as [F1 F2]; [|now apply pinv_uniq].
  pose proof (pi_tab I _ F1) as (_ & T2 & _). intros [= <- <- <-]. intros C. apply map_eq_nil in C. tauto. Qed.

Lemma dests_nil s n : pinv s -> dests s n = [] <-> ent s n = None.
Proof. intros I. unfold dests. destruct (ent s n) as [[[f ds] h]|] eqn:E; [|tauto].
  pose proof (ent_nonempty n I E). split; [tauto|discriminate]. Qed.

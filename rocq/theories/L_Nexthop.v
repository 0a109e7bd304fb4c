(** Facts about next-hop lists. *)
From Coq Require Import Sorting.Sorted Permutation.
From Verif Require Import Base M_Nexthop.
Open Scope Z_scope.
Set Implicit Arguments.

(** ** The URI order is a strict total order *)
Lemma uri_ltb_irrefl a : uri_ltb a a = false.
Proof. induction a as [|c a IH]; simpl; [reflexivity|]. now rewrite N.ltb_irrefl. Qed.

Lemma uri_ltb_trans a : forall b c, uri_ltb a b = true -> uri_ltb b c = true -> uri_ltb a c = true.
Proof. induction a as [|x a IH]; intros [|y b] [|z c]; simpl; try congruence; auto.
  destruct (N.ltb_spec (N_of_ascii x) (N_of_ascii y)) as [H1|H1];
  destruct (N.ltb_spec (N_of_ascii y) (N_of_ascii z)) as [H2|H2];
  destruct (N.ltb_spec (N_of_ascii y) (N_of_ascii x)) as [H3|H3];
  destruct (N.ltb_spec (N_of_ascii z) (N_of_ascii y)) as [H4|H4];
  destruct (N.ltb_spec (N_of_ascii x) (N_of_ascii z)) as [H5|H5];
  destruct (N.ltb_spec (N_of_ascii z) (N_of_ascii x)) as [H6|H6]; try lia; try congruence.
  apply IH. Qed.

Lemma uri_ltb_total a : forall b, uri_ltb a b = false -> uri_ltb b a = false -> a = b.
Proof. induction a as [|x a IH]; intros [|y b]; simpl; try congruence.
  destruct (N.ltb_spec (N_of_ascii x) (N_of_ascii y)) as [H1|H1]; [congruence|].
  destruct (N.ltb_spec (N_of_ascii y) (N_of_ascii x)) as [H3|H3]; [congruence|].
  intros Ha Hb. assert (Hxy : N_of_ascii x = N_of_ascii y) by lia.
  apply (f_equal ascii_of_N) in Hxy. rewrite !ascii_N_embedding in Hxy. subst y.
  f_equal. now apply IH. Qed.

Lemma nh_ltb_trans a b c : nh_ltb a b = true -> nh_ltb b c = true -> nh_ltb a c = true.
Proof. unfold nh_ltb. rewrite !orb_true_iff, !andb_true_iff, !Z.ltb_lt, !Z.eqb_eq.
  intros [H1|[H1 H1']] [H2|[H2 H2']]; try (left; lia).
  right. split; [lia|]. eapply uri_ltb_trans; eassumption. Qed.

Lemma nh_ltb_irrefl a : nh_ltb a a = false.
Proof. unfold nh_ltb. now rewrite Z.ltb_irrefl, uri_ltb_irrefl, andb_false_r. Qed.

Lemma nh_ltb_total a b : nh_ltb a b = false -> nh_ltb b a = false -> nh_uri a = nh_uri b.
Proof. unfold nh_ltb. rewrite !orb_false_iff, !andb_false_iff, !Z.ltb_ge, !Z.eqb_neq.
  intros [H1 [H2|H2]] [H3 [H4|H4]]; try lia. now apply uri_ltb_total. Qed.

Lemma nh_uri_ltb_total a b : nh_uri_ltb a b = false -> nh_uri_ltb b a = false -> nh_uri a = nh_uri b.
Proof. apply uri_ltb_total. Qed.

(** ** std::set insertion *)
Section Set_.
  Variable lt : nexthop -> nexthop -> bool.
  Hypothesis lt_trans : forall a b c, lt a b = true -> lt b c = true -> lt a c = true.
  Hypothesis lt_total : forall a b, lt a b = false -> lt b a = false -> nh_uri a = nh_uri b.

  Definition lt_sorted (l : list nexthop) : Prop := StronglySorted (fun a b => lt a b = true) l.

  Definition fresh (u : uri) (l : list nexthop) : Prop := ~ In u (map nh_uri l).

  Lemma sset_insert_perm x l : fresh (nh_uri x) l -> Permutation (x :: l) (sset_insert lt x l).
  Proof. unfold fresh. induction l as [|y l IH]; simpl; intros Hf; [auto|].
    destruct (lt x y) eqn:E1; [auto|].
    destruct (lt y x) eqn:E2.
    - rewrite perm_swap. apply perm_skip. apply IH. tauto.
    - exfalso. apply Hf. left. symmetry. now apply lt_total. Qed.

  Lemma sset_insert_sorted x l : fresh (nh_uri x) l -> lt_sorted l -> lt_sorted (sset_insert lt x l).
  Proof. unfold fresh. intros Hf Hs. induction Hs as [|y l Hs IH Hall]; simpl in *.
    - constructor; [constructor|constructor].
    - destruct (lt x y) eqn:E1.
      + constructor; [constructor; auto|]. constructor; [exact E1|].
        rewrite Forall_forall in *. intros z Hz. eapply lt_trans; [exact E1|auto].
      + destruct (lt y x) eqn:E2.
        * constructor; [apply IH; tauto|]. rewrite Forall_forall in *. intros z Hz.
          apply (Permutation_in z (Permutation_sym (@sset_insert_perm x l ltac:(unfold fresh; tauto)))) in Hz.
          destruct Hz as [<-|Hz]; auto.
        * exfalso. apply Hf. left. symmetry. now apply lt_total. Qed.

  Lemma find_uri_Some u l h : find_uri u l = Some h -> In h l /\ nh_uri h = u.
  Proof. induction l as [|y l IH]; simpl; [discriminate|]. eqb_case (nh_uri y) u.
    - intros [= <-]. auto.
    - intros H. apply IH in H. tauto. Qed.
  Lemma find_uri_None u l : find_uri u l = None -> fresh u l.
  Proof. unfold fresh. induction l as [|y l IH]; simpl; [tauto|]. eqb_case (nh_uri y) u; [discriminate|].
    intros H [He|Hi]; [contradiction|]. now apply IH. Qed.

  Lemma erase_uri_perm u l h : find_uri u l = Some h -> Permutation l (h :: erase_uri u l).
  Proof. induction l as [|y l IH]; simpl; [discriminate|]. eqb_case (nh_uri y) u.
    - intros [= <-]. auto.
    - intros H. rewrite perm_swap. apply perm_skip. auto. Qed.

  Lemma erase_uri_sorted u l : lt_sorted l -> lt_sorted (erase_uri u l).
  Proof. intros Hs. induction Hs as [|y l Hs IH Hall]; simpl; [constructor|].
    eqb_case (nh_uri y) u; [exact Hs|]. constructor; [exact IH|].
    rewrite Forall_forall in *. intros z Hz. apply Hall.
    clear - Hz. induction l as [|w l IH]; simpl in *; [tauto|].
    eqb_case (nh_uri w) u; [now right|]. destruct Hz as [<-|Hz]; [now left|right; auto]. Qed.

  (** A list is valid: sorted, one hop per URI. *)
  Definition nhl_valid (l : list nexthop) : Prop := lt_sorted l /\ NoDup (map nh_uri l).

  Lemma nhl_valid_nil : nhl_valid [].
  Proof. split; constructor. Qed.

  Lemma valid_unique l a b : nhl_valid l -> In a l -> In b l -> nh_uri a = nh_uri b -> a = b.
  Proof. intros [_ Hnd] Ha Hb He. induction l as [|x l IH]; simpl in *; [tauto|].
    inversion Hnd as [|? ? Hni Hnd']; subst.
    destruct Ha as [->|Ha], Hb as [->|Hb]; auto.
    - exfalso. apply Hni. rewrite He. now apply in_map.
    - exfalso. apply Hni. rewrite <- He. now apply in_map. Qed.

  Lemma nhl_add_spec nh l : nhl_valid l ->
    nhl_valid (nhl_add lt nh l) /\
    (forall h, In h (nhl_add lt nh l) -> h = nh \/ In h l) /\
    (exists h, In h (nhl_add lt nh l) /\ nh_uri h = nh_uri nh /\ nh_cost h <= nh_cost nh) /\
    (forall h, In h l -> exists h', In h' (nhl_add lt nh l) /\ nh_uri h' = nh_uri h /\ nh_cost h' <= nh_cost h) /\
    (forall h, In h l -> nh_uri h <> nh_uri nh -> In h (nhl_add lt nh l)).
  Proof. intros Hv. pose proof Hv as [Hs Hnd]. unfold nhl_add.
    destruct (find_uri (nh_uri nh) l) as [it|] eqn:Ef.
    - destruct (find_uri_Some _ _ Ef) as [Hin Hu].
      destruct (Z.ltb_spec (nh_cost nh) (nh_cost it)) as [Hlt|Hge].
      + pose proof (erase_uri_perm _ _ Ef) as Hp.
        pose proof (Permutation_NoDup (Permutation_map nh_uri Hp) Hnd) as Hnd2. simpl in Hnd2.
        inversion Hnd2 as [|? ? Hni Hnd3]; subst.
        assert (Hf : fresh (nh_uri nh) (erase_uri (nh_uri nh) l)) by (unfold fresh; rewrite <- Hu at 1; exact Hni).
        pose proof (sset_insert_perm _ Hf) as Hp2.
        assert (HinI : forall h, In h (sset_insert lt nh (erase_uri (nh_uri nh) l)) <-> h = nh \/ In h (erase_uri (nh_uri nh) l)).
        { intros h. split; intros H.
          - apply (Permutation_in h (Permutation_sym Hp2)) in H. destruct H; auto.
          - apply (Permutation_in h Hp2). destruct H; simpl; auto. }
        repeat split.
        * apply sset_insert_sorted; [exact Hf|]. now apply erase_uri_sorted.
        * eapply Permutation_NoDup; [apply (Permutation_map nh_uri Hp2)|]. simpl. constructor; [exact Hf|exact Hnd3].
        * intros h H. apply HinI in H as [->|H]; [auto|]. right.
          apply (Permutation_in h (Permutation_sym Hp)). now right.
        * exists nh. split; [apply HinI; auto|]. split; [reflexivity|lia].
        * intros h H. apply (Permutation_in h Hp) in H. destruct H as [<-|H].
          -- exists nh. split; [apply HinI; auto|]. split; [auto|lia].
          -- exists h. split; [apply HinI; auto|]. split; [auto|lia].
        * intros h H Hne. apply (Permutation_in h Hp) in H. destruct H as [<-|H]; [congruence|].
          apply HinI. auto.
      + repeat split; auto.
        * exists it. auto.
        * intros h H. exists h. split; [auto|]. split; [auto|lia].
    - apply find_uri_None in Ef. pose proof (sset_insert_perm _ Ef) as Hp2.
      assert (HinI : forall h, In h (sset_insert lt nh l) <-> h = nh \/ In h l).
      { intros h. split; intros H.
        - apply (Permutation_in h (Permutation_sym Hp2)) in H. destruct H; auto.
        - apply (Permutation_in h Hp2). destruct H; simpl; auto. }
      repeat split.
      + now apply sset_insert_sorted.
      + eapply Permutation_NoDup; [apply (Permutation_map nh_uri Hp2)|]. simpl. constructor; assumption.
      + intros h H. now apply HinI.
      + exists nh. split; [apply HinI; auto|]. split; [reflexivity|lia].
      + intros h H. exists h. split; [apply HinI; auto|]. split; [auto|lia].
      + intros h H _. apply HinI; auto. Qed.

  Lemma nhl_adds_spec hs : forall l, nhl_valid l ->
    let r := fold_left (fun l h => nhl_add lt h l) hs l in
    nhl_valid r /\
    (forall h, In h r -> In h hs \/ In h l) /\
    (forall h, In h hs \/ In h l -> exists h', In h' r /\ nh_uri h' = nh_uri h /\ nh_cost h' <= nh_cost h).
  Proof. induction hs as [|x hs IH]; intros l Hv; simpl.
    - split; [exact Hv|]. split; [auto|]. intros h [[]|H]. exists h. split; [auto|]. split; [auto|lia].
    - destruct (nhl_add_spec x Hv) as (V & A1 & A2 & A3 & _).
      destruct (IH _ V) as (V' & B1 & B2). split; [exact V'|]. split.
      + intros h H. apply B1 in H as [H|H]; [auto|]. apply A1 in H as [->|H]; auto.
      + intros h H.
        assert (Hs : In h hs \/ exists h1, In h1 (nhl_add lt x l) /\ nh_uri h1 = nh_uri h /\ nh_cost h1 <= nh_cost h).
        { destruct H as [[->|H]|H]; [right; exact A2|left; exact H|right; now apply A3]. }
        destruct Hs as [Hs|(h1 & H1 & H2 & H3)].
        * apply B2. now left.
        * destruct (B2 h1 (or_intror H1)) as (h2 & G1 & G2 & G3). exists h2. split; [auto|]. split; [congruence|lia]. Qed.
End Set_.

Lemma nhl_addc_spec nh l : nhl_valid nh_ltb l -> 
    nhl_valid nh_ltb (nhl_addc nh l) /\
    (forall h, In h (nhl_addc nh l) -> h = nh \/ In h l) /\
    (exists h, In h (nhl_addc nh l) /\ nh_uri h = nh_uri nh /\ nh_cost h <= nh_cost nh) /\
    (forall h, In h l -> exists h', In h' (nhl_addc nh l) /\ nh_uri h' = nh_uri h /\ nh_cost h' <= nh_cost h) /\
    (forall h, In h l -> nh_uri h <> nh_uri nh -> In h (nhl_addc nh l)).
Proof. apply nhl_add_spec; [apply nh_ltb_trans|apply nh_ltb_total]. Qed.

Lemma nh_uri_ltb_trans a b c : nh_uri_ltb a b = true -> nh_uri_ltb b c = true -> nh_uri_ltb a c = true.
Proof. apply uri_ltb_trans. Qed.

Lemma nhl_addu_spec nh l : nhl_valid nh_uri_ltb l -> 
    nhl_valid nh_uri_ltb (nhl_addu nh l) /\
    (forall h, In h (nhl_addu nh l) -> h = nh \/ In h l) /\
    (exists h, In h (nhl_addu nh l) /\ nh_uri h = nh_uri nh /\ nh_cost h <= nh_cost nh) /\
    (forall h, In h l -> exists h', In h' (nhl_addu nh l) /\ nh_uri h' = nh_uri h /\ nh_cost h' <= nh_cost h) /\
    (forall h, In h l -> nh_uri h <> nh_uri nh -> In h (nhl_addu nh l)).
Proof. apply nhl_add_spec; [apply nh_uri_ltb_trans|apply nh_uri_ltb_total]. Qed.

Lemma sorted_addc_nondec l : lt_sorted nh_ltb l -> Sorted Z.le (map adj_int l).
Proof. intros Hs. apply StronglySorted_Sorted. induction Hs as [|x l Hs IH Hall]; simpl; [constructor|].
  constructor; [exact IH|]. rewrite Forall_forall in *. intros z Hz.
  apply in_map_iff in Hz as (y & <- & Hy). apply Hall in Hy. unfold nh_ltb in Hy.
  rewrite orb_true_iff, andb_true_iff, Z.ltb_lt, Z.eqb_eq in Hy. lia. Qed.

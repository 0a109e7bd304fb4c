(** The name map is a bijection and the adjacency matrix is what the LSDB says. *)
From Coq Require Import Permutation.
From Verif Require Import Base M_Nexthop M_LinkState S_Graph S_LinkState L_Vec L_Dijkstra.
Open Scope Z_scope.
Set Implicit Arguments.

(** ** Name map *)

Lemma nm_add_NoDup m x : NoDup m -> NoDup (nm_add m x).
Proof. unfold nm_add. destruct (in_dec eq_dec x m) as [|Hn]; [auto|]. intros Hnd.
  apply NoDup_app_intro; [exact Hnd| |].
  - constructor; [simpl; tauto|constructor].
  - intros y Hy [<-|[]]. contradiction. Qed.

Lemma nm_add_In m x y : In y (nm_add m x) <-> In y m \/ y = x.
Proof. unfold nm_add. destruct (in_dec eq_dec x m) as [Hin|Hn].
  - split; [auto|]. intros [H| ->]; auto.
  - rewrite in_app_iff. simpl. intuition. Qed.

Lemma nm_adds_In l : forall m y, In y (fold_left nm_add l m) <-> In y m \/ In y l.
Proof. induction l as [|x l IH]; intros m y; simpl; [tauto|].
  rewrite IH, nm_add_In. intuition. Qed.

Lemma nm_adds_NoDup l : forall m, NoDup m -> NoDup (fold_left nm_add l m).
Proof. induction l as [|x l IH]; intros m Hm; simpl; [auto|]. apply IH. now apply nm_add_NoDup. Qed.

Lemma nm_from_adj_gen lsas : forall m,
  (NoDup m -> NoDup (fold_left (fun m l => fold_left nm_add (map fst (al_links l)) (nm_add m (al_origin l))) lsas m)) /\
  forall y, In y (fold_left (fun m l => fold_left nm_add (map fst (al_links l)) (nm_add m (al_origin l))) lsas m)
            <-> In y m \/ mentioned lsas y.
Proof. induction lsas as [|l lsas IH]; intros m; simpl.
  - split; [auto|]. intros y. split; [auto|]. intros [H|(l & [] & _)]. exact H.
  - destruct (IH (fold_left nm_add (map fst (al_links l)) (nm_add m (al_origin l)))) as [IH1 IH2].
    split.
    + intros Hm. apply IH1. apply nm_adds_NoDup. now apply nm_add_NoDup.
    + intros y. rewrite IH2, nm_adds_In, nm_add_In. unfold mentioned. split.
      * intros [[[H| ->]|H]|(l' & Hl' & Hc)].
        -- auto.
        -- right. exists l. simpl; auto.
        -- right. apply in_map_iff in H as ([z c] & <- & Hin). exists l. split; [now left|].
           right. now exists c.
        -- right. exists l'. simpl. auto.
      * intros [H|(l' & [<-|Hl'] & Hc)].
        -- auto.
        -- destruct Hc as [<-|(c & Hin)]; [auto|]. left. right.
           apply in_map_iff. exists (y, c). auto.
        -- right. now exists l'. Qed.

Lemma nm_from_adj_NoDup lsas : NoDup (nm_from_adj lsas).
Proof. apply nm_from_adj_gen. constructor. Qed.

Lemma nm_from_adj_In lsas x : In x (nm_from_adj lsas) <-> mentioned lsas x.
Proof. unfold nm_from_adj. destruct (nm_from_adj_gen lsas []) as [_ H]. rewrite H. simpl. tauto. Qed.

Lemma nm_num_Some m x i : nm_num m x = Some i -> nm_name m i = Some x.
Proof. revert i. induction m as [|y m IH]; intros i; simpl; [discriminate|].
  eqb_case x y.
  - intros [= <-]. simpl. reflexivity.
  - destruct (nm_num m x) as [j|]; simpl; [|discriminate]. intros [= <-]. simpl. now apply IH. Qed.

Lemma nm_num_None m x : nm_num m x = None <-> ~ In x m.
Proof. induction m as [|y m IH]; simpl; [tauto|].
  eqb_case x y.
  - split; [discriminate|]. intros H. exfalso. apply H. now left.
  - destruct (nm_num m x); simpl.
    + split; [discriminate|]. intros Hn. exfalso.
      assert (~ In x m) by tauto. apply IH in H. discriminate.
    + split; [|reflexivity]. intros _ [He|Hi]; [congruence|]. now apply IH. Qed.

Lemma nm_name_num m x i : NoDup m -> nm_name m i = Some x -> nm_num m x = Some i.
Proof. intros Hnd. revert i. induction Hnd as [|y m Hni Hnd IH]; intros i; simpl.
  - destruct i; discriminate.
  - destruct i as [|i]; simpl.
    + intros [= ->]. now rewrite eqb_refl.
    + intros Hi. eqb_case x y.
      * exfalso. apply Hni. apply nth_error_In in Hi. exact Hi.
      * now rewrite (IH i Hi). Qed.

Lemma nm_name_lt m i : (i < length m)%nat <-> exists x, nm_name m i = Some x.
Proof. unfold nm_name. rewrite <- nth_error_Some. destruct (nth_error m i); split; try congruence.
  - eauto.
  - intros (x & Hx). congruence. Qed.

Lemma nm_num_lt m x i : nm_num m x = Some i -> (i < length m)%nat.
Proof. intros H. apply nm_num_Some in H. apply nm_name_lt. eauto. Qed.

(** ** Matrix *)

Definition shape (n : nat) (m : matrix) : Prop := length m = n /\ forall i, (i < n)%nat -> length (nth i m []) = n.

Lemma mset_shape n m i j c : (i < n)%nat -> shape n m -> shape n (mset m i j c).
Proof. intros Hi [H1 H2]. split; unfold mset; [now rewrite vset_length|].
  intros k Hk. rewrite nth_vset by lia. destruct (Nat.eqb_spec k i) as [->|]; [rewrite vset_length|]; auto. Qed.

Lemma mget_mset n m i j c i' j' : shape n m -> (i < n)%nat -> (j < n)%nat ->
  mget (mset m i j c) i' j' = if (Nat.eqb i' i && Nat.eqb j' j)%bool then c else mget m i' j'.
Proof. intros [H1 H2] Hi Hj. unfold mget, mset. rewrite nth_vset by lia.
  destruct (Nat.eqb_spec i' i) as [->|]; simpl; [|reflexivity].
  rewrite nth_vset by (rewrite H2; lia). reflexivity. Qed.

Lemma mat_init_shape n : shape n (mat_init n).
Proof. split; unfold mat_init; [apply repeat_length|]. intros i Hi.
  rewrite nth_repeat_lt. destruct (Nat.ltb_spec i n); [apply repeat_length|lia]. Qed.

Lemma mget_init n i j : mget (mat_init n) i j = NON_ADJACENT_COST.
Proof. unfold mget, mat_init. rewrite nth_repeat_lt. destruct (i <? n)%nat.
  - rewrite nth_repeat_lt. now destruct (j <? n)%nat.
  - destruct j; reflexivity. Qed.

(** Filling: one LSA's row. *)
Definition lookup_link (ls : list (name * Z)) (v : name) : option Z :=
  match find (fun p => eqb (fst p) v) (rev ls) with Some p => Some (snd p) | None => None end.

Section Fill.
  Variable map : namemap.
  Hypothesis Hnd : NoDup map.
  Let n := length map.

  Lemma mat_link_shape row m l : shape n m -> shape n (mat_link map row m l).
  Proof. intros Hm. unfold mat_link. destruct row as [r|]; [|auto].
    destruct (nm_num map (fst l)) as [c|]; [|auto].
    destruct (Nat.ltb_spec r (length map)); simpl; [|auto].
    destruct (Nat.ltb_spec c (length map)); simpl; [|auto].
    now apply mset_shape. Qed.

  Lemma mat_links_shape row ls : forall m, shape n m -> shape n (fold_left (mat_link map row) ls m).
  Proof. induction ls as [|l ls IH]; intros m Hm; simpl; [auto|]. apply IH. now apply mat_link_shape. Qed.

  Lemma mat_fill_shape lsas : forall m, shape n m -> shape n (mat_fill map lsas m).
  Proof. unfold mat_fill. induction lsas as [|l lsas IH]; intros m Hm; simpl; [auto|].
    apply IH. now apply mat_links_shape. Qed.

  Lemma mat_links_get r ls : NoDup (List.map fst ls) -> (r < n)%nat ->
    forall m i j v, shape n m -> nm_name map j = Some v ->
    (forall c, i = r -> In (v, c) ls -> mget (fold_left (mat_link map (Some r)) ls m) i j = c) /\
    (i <> r \/ (forall c, ~ In (v, c) ls) ->
       mget (fold_left (mat_link map (Some r)) ls m) i j = mget m i j).
  Proof. intros Hn Hr. induction ls as [|[x cx] ls IH]; intros m i j v Hm Hj; cbn [fold_left].
    - split; [simpl; tauto|reflexivity].
    - inversion Hn as [|? ? Hni Hnd']; subst. simpl in Hni.
      specialize (IH Hnd' (mat_link map (Some r) m (x, cx)) i j v (mat_link_shape _ _ Hm) Hj).
      destruct IH as [IH1 IH2].
      assert (Hlink : mget (mat_link map (Some r) m (x, cx)) i j =
                 if (Nat.eqb i r && eqb v x)%bool then cx else mget m i j).
      { unfold mat_link. simpl fst; simpl snd.
        destruct (nm_num map x) as [k|] eqn:Ek.
        - pose proof (nm_num_lt _ _ Ek) as Hk.
          rewrite (proj2 (Nat.ltb_lt r (length map))) by exact Hr.
          rewrite (proj2 (Nat.ltb_lt k (length map))) by exact Hk. simpl.
          rewrite (mget_mset cx i j Hm Hr Hk).
          assert (Hjk : Nat.eqb j k = eqb v x).
          { eqb_case v x.
            - apply Nat.eqb_eq. apply (nm_name_num _ Hnd) in Hj. congruence.
            - apply Nat.eqb_neq. intros ->. apply nm_num_Some in Ek. congruence. }
          now rewrite Hjk.
        - eqb_case v x; [|now rewrite andb_false_r].
          exfalso. apply nm_num_None in Ek. apply Ek. eapply nth_error_In. exact Hj. }
      split.
      + intros c -> [[= <- <-]|Hin].
        * rewrite IH2.
          -- rewrite Hlink. now rewrite Nat.eqb_refl, eqb_refl.
          -- right. intros c Hin. apply Hni. change x with (fst (x, c)). now apply in_map.
        * now apply IH1.
      + intros Hc. rewrite IH2.
        * rewrite Hlink. destruct (Nat.eqb_spec i r) as [->|]; simpl; [|reflexivity].
          destruct Hc as [Hc|Hc]; [congruence|].
          eqb_case v x; [|reflexivity]. exfalso. apply (Hc cx). now left.
        * destruct Hc as [Hc|Hc]; [now left|]. right. intros c Hin. apply (Hc c). now right.
  Qed.

  (** After filling: an entry is the advertised cost, or unchanged. *)
  Lemma mat_fill_get lsas : wf_lsdb lsas -> (forall x, mentioned lsas x -> In x map) ->
    forall m i j u v, shape n m -> nm_name map i = Some u -> nm_name map j = Some v ->
    (forall c, advertises lsas u v c -> mget (mat_fill map lsas m) i j = c) /\
    ((forall c, ~ advertises lsas u v c) -> mget (mat_fill map lsas m) i j = mget m i j).
  Proof. unfold mat_fill. induction lsas as [|l lsas IH]; intros [Hw1 Hw2] Hment m i j u v Hm Hi Hj; simpl.
    - split; [|reflexivity]. intros c (l & [] & _).
    - inversion Hw1 as [|? ? Hni Hnd']; subst.
      assert (Hw' : wf_lsdb lsas) by (split; [exact Hnd'|]; intros l' Hl'; apply Hw2; now right).
      assert (Hment' : forall x, mentioned lsas x -> In x map).
      { intros x (l' & Hl' & Hc). apply Hment. exists l'. split; [now right|exact Hc]. }
      assert (Hol : In (al_origin l) map) by (apply Hment; exists l; split; [now left|now left]).
      destruct (nm_num map (al_origin l)) as [r|] eqn:Er.
      2:{ apply nm_num_None in Er. contradiction. }
      pose proof (nm_num_lt _ _ Er) as Hr.
      pose proof (mat_links_shape (Some r) (al_links l) Hm) as Hm'.
      destruct (IH Hw' Hment' _ i j u v Hm' Hi Hj) as [IH1 IH2].
      destruct (mat_links_get (al_links l) (Hw2 l (or_introl eq_refl)) Hr (m:=m) i j Hm Hj) as [L1 L2].
      assert (Hir : i = r <-> u = al_origin l).
      { split.
        - intros ->. apply nm_num_Some in Er. congruence.
        - intros ->. apply (nm_name_num _ Hnd) in Hi. congruence. }
      assert (Hsplit : forall c, advertises (l :: lsas) u v c <->
                 (u = al_origin l /\ In (v, c) (al_links l)) \/ advertises lsas u v c).
      { intros c. unfold advertises. split.
        - intros (l' & [<-|Hl'] & Ho & Hin); [left; auto|]. right. now exists l'.
        - intros [[-> Hin]|(l' & Hl' & Ho & Hin)]; [exists l; simpl; auto|]. exists l'. simpl; auto. }
      assert (Hexcl : forall c, u = al_origin l -> ~ advertises lsas u v c).
      { intros c -> (l' & Hl' & Ho & _). apply Hni. rewrite <- Ho. now apply in_map. }
      split.
      + intros c Ha. apply Hsplit in Ha as [[Hu Hin]|Ha].
        * rewrite IH2 by (intros c' Hc'; now apply (Hexcl c')). now apply L1; [apply Hir|].
        * now apply IH1.
      + intros Hno. rewrite IH2.
        * apply L2. destruct (eq_dec u (al_origin l)) as [Hu|Hu].
          -- right. intros c Hin. apply (Hno c). apply Hsplit. now left.
          -- left. intros Hc. now apply Hir in Hc.
        * intros c Ha. apply (Hno c). apply Hsplit. now right.
  Qed.
End Fill.

(** ** Fixing the two directions *)

Definition fixv (a b : Z) : Z :=
  if b =? a then a else if (0 <=? a) && (0 <=? b) then Z.max a b else NON_ADJACENT_COST.

Lemma fixv_refl a : fixv a a = a.
Proof. unfold fixv. now rewrite Z.eqb_refl. Qed.
Lemma fixv_comm a b : fixv a b = fixv b a.
Proof. unfold fixv. rewrite (Z.eqb_sym a b). destruct (Z.eqb_spec b a); [auto|].
  rewrite andb_comm, Z.max_comm. reflexivity. Qed.

Section Fix.
  Variable n : nat.
  Variable m0 : matrix.

  Definition fixed (m : matrix) (i j : nat) : Prop :=
    mget m i j = fixv (mget m0 i j) (mget m0 j i) /\ mget m j i = fixv (mget m0 i j) (mget m0 j i).
  Definition untouched (m : matrix) (i j : nat) : Prop :=
    mget m i j = mget m0 i j /\ mget m j i = mget m0 j i.
  Definition fixing (m : matrix) : Prop :=
    shape n m /\ forall i j, (i < n)%nat -> (j < n)%nat -> fixed m i j \/ untouched m i j.

  Lemma fixed_sym m i j : fixed m i j -> fixed m j i.
  Proof. unfold fixed. rewrite (fixv_comm (mget m0 j i)). tauto. Qed.

  Lemma mat_fix1_get m r c i j : shape n m -> (r < n)%nat -> (c < n)%nat ->
    mget (mat_fix1 m r c) i j =
      if (Nat.eqb i r && Nat.eqb j c || Nat.eqb i c && Nat.eqb j r)%bool
      then fixv (mget m r c) (mget m c r) else mget m i j.
  Proof. intros Hm Hr Hc. unfold mat_fix1, fixv.
    destruct (Z.eqb_spec (mget m c r) (mget m r c)) as [He|Hne].
    - destruct (Nat.eqb_spec i r), (Nat.eqb_spec j c), (Nat.eqb_spec i c), (Nat.eqb_spec j r);
        simpl; subst; congruence.
    - set (v := if (0 <=? mget m r c) && (0 <=? mget m c r) then _ else _).
      rewrite (mget_mset v i j (mset_shape c v Hr Hm) Hc Hr).
      rewrite (mget_mset v i j Hm Hr Hc).
      destruct (Nat.eqb i r && Nat.eqb j c)%bool, (Nat.eqb i c && Nat.eqb j r)%bool; reflexivity.
  Qed.

  Lemma mat_fix1_shape m r c : shape n m -> (r < n)%nat -> (c < n)%nat -> shape n (mat_fix1 m r c).
  Proof. intros Hm Hr Hc. unfold mat_fix1. destruct (_ =? _); [auto|].
    apply mset_shape; [auto|]. now apply mset_shape. Qed.

  Lemma mat_fix1_fixing m r c : fixing m -> (r < n)%nat -> (c < n)%nat ->
    fixing (mat_fix1 m r c) /\ fixed (mat_fix1 m r c) r c /\
    (forall i j, (i < n)%nat -> (j < n)%nat -> fixed m i j -> fixed (mat_fix1 m r c) i j).
  Proof. intros [Hm Hall] Hr Hc.
    assert (Hrc : fixv (mget m r c) (mget m c r) = fixv (mget m0 r c) (mget m0 c r)).
    { destruct (Hall r c Hr Hc) as [[-> ->]|[-> ->]]; [apply fixv_refl|reflexivity]. }
    assert (Hcase : forall i j, (i = r /\ j = c \/ i = c /\ j = r) \/
              (mget (mat_fix1 m r c) i j = mget m i j /\ mget (mat_fix1 m r c) j i = mget m j i)).
    { intros i j. rewrite !mat_fix1_get by assumption.
      destruct (Nat.eqb_spec i r), (Nat.eqb_spec j c), (Nat.eqb_spec i c), (Nat.eqb_spec j r); simpl; auto. }
    assert (Hfrc : fixed (mat_fix1 m r c) r c).
    { unfold fixed. rewrite !mat_fix1_get by assumption. rewrite !Nat.eqb_refl. simpl.
      rewrite orb_true_r. auto. }
    assert (Hfx : forall i j, (i < n)%nat -> (j < n)%nat -> fixed m i j -> fixed (mat_fix1 m r c) i j).
    { intros i j Hi Hj Hf. destruct (Hcase i j) as [[[-> ->]|[-> ->]]|[E1 E2]].
      - exact Hfrc.
      - now apply fixed_sym.
      - unfold fixed in *. now rewrite E1, E2. }
    split; [|auto]. split; [now apply mat_fix1_shape|].
    intros i j Hi Hj. destruct (Hcase i j) as [[[-> ->]|[-> ->]]|[E1 E2]].
    - now left.
    - left. now apply fixed_sym.
    - destruct (Hall i j Hi Hj) as [Hf|Hu]; [left; now apply Hfx|].
      right. unfold untouched in *. now rewrite E1, E2.
  Qed.

  Lemma fix_row r cols : (r < n)%nat -> (forall c, In c cols -> (c < n)%nat) -> forall m, fixing m ->
    fixing (fold_left (fun m col => mat_fix1 m r col) cols m) /\
    (forall c, In c cols -> fixed (fold_left (fun m col => mat_fix1 m r col) cols m) r c) /\
    (forall i j, (i < n)%nat -> (j < n)%nat -> fixed m i j ->
       fixed (fold_left (fun m col => mat_fix1 m r col) cols m) i j).
  Proof. intros Hr. induction cols as [|c cols IH]; intros Hcols m Hm; simpl.
    - split; [auto|]. split; [tauto|auto].
    - assert (Hc : (c < n)%nat) by (apply Hcols; now left).
      destruct (mat_fix1_fixing Hm Hr Hc) as (F1 & F2 & F3).
      destruct (IH (fun c' H => Hcols c' (or_intror H)) _ F1) as (I1 & I2 & I3).
      split; [exact I1|]. split.
      + intros c' [<-|Hin]; [|auto]. apply I3; auto.
      + intros i j Hi Hj Hf. apply I3; auto. Qed.

  Lemma fix_rows rows : (forall r, In r rows -> (r < n)%nat) -> forall m, fixing m ->
    fixing (fold_left (fun m row => fold_left (fun m col => mat_fix1 m row col) (seq 0 n) m) rows m) /\
    (forall r c, In r rows -> (c < n)%nat ->
      fixed (fold_left (fun m row => fold_left (fun m col => mat_fix1 m row col) (seq 0 n) m) rows m) r c) /\
    (forall i j, (i < n)%nat -> (j < n)%nat -> fixed m i j ->
       fixed (fold_left (fun m row => fold_left (fun m col => mat_fix1 m row col) (seq 0 n) m) rows m) i j).
  Proof. induction rows as [|r rows IH]; intros Hrows m Hm; cbn [fold_left].
    - split; [auto|]. split; [simpl; tauto|auto].
    - assert (Hr : (r < n)%nat) by (apply Hrows; now left).
      assert (Hseq : forall c, In c (seq 0 n) -> (c < n)%nat) by (intros c Hc; apply in_seq in Hc; lia).
      destruct (fix_row (seq 0 n) Hr Hseq Hm) as (F1 & F2 & F3).
      destruct (IH (fun c' H => Hrows c' (or_intror H)) _ F1) as (I1 & I2 & I3).
      split; [exact I1|]. split.
      + intros r' c [<-|Hin] Hc; [|auto]. apply I3; auto. apply F2. apply in_seq. lia.
      + intros i j Hi Hj Hf. apply I3; auto. Qed.

  Lemma mat_fix_spec : shape n m0 ->
    shape n (mat_fix n m0) /\
    forall i j, (i < n)%nat -> (j < n)%nat ->
      mget (mat_fix n m0) i j = fixv (mget m0 i j) (mget m0 j i).
  Proof. intros Hm. unfold mat_fix.
    assert (Hfx : fixing m0) by (split; [exact Hm|]; intros; right; split; reflexivity).
    destruct (fix_rows (seq 0 n) (fun r H => proj2 (proj1 (in_seq n 0 r) H)) Hfx) as (F1 & F2 & F3).
    split; [apply F1|]. intros i j Hi Hj. apply F2; [apply in_seq; lia|exact Hj]. Qed.
End Fix.

Section Make.
  Variable lsas : list adj_lsa.
  Hypothesis Hw : wf_lsdb lsas.
  Let map := nm_from_adj lsas.
  Let n := length map.
  Let m := make_matrix lsas map.

  Lemma make_matrix_shape : shape n m.
  Proof. unfold m, make_matrix. apply mat_fix_spec. apply mat_fill_shape. apply mat_init_shape. Qed.

  Definition dir_cost (u v : name) (c : Z) : Prop :=
    advertises lsas u v c \/ ((forall a, ~ advertises lsas u v a) /\ c = NON_ADJACENT_COST).

  Lemma adv_dec u v : (exists c, advertises lsas u v c) \/ (forall c, ~ advertises lsas u v c).
  Proof. unfold advertises. clear Hw map n m. induction lsas as [|l ls IH].
    - right. intros c (l & [] & _).
    - destruct IH as [(c & l' & Hl' & Hc)|Hno].
      + left. exists c, l'. simpl; auto.
      + destruct (eq_dec (al_origin l) u) as [Ho|Ho].
        * destruct (in_dec eq_dec v (List.map fst (al_links l))) as [Hin|Hni].
          -- left. apply in_map_iff in Hin as ([x c] & <- & Hin). exists c, l. simpl. auto.
          -- right. intros c (l' & [<-|Hl'] & Ho' & Hin).
             ++ apply Hni. change v with (fst (v, c)). now apply in_map.
             ++ apply (Hno c). now exists l'.
        * right. intros c (l' & [<-|Hl'] & Ho' & Hin); [contradiction|].
          apply (Hno c). now exists l'. Qed.

  Lemma fill_dir i j u v : nm_name map i = Some u -> nm_name map j = Some v ->
    dir_cost u v (mget (mat_fill map lsas (mat_init n)) i j).
  Proof. intros Hi Hj.
    destruct (mat_fill_get (nm_from_adj_NoDup lsas) Hw (fun x H => proj2 (nm_from_adj_In lsas x) H)
                (m:=mat_init n) i j (mat_init_shape n) Hi Hj) as [F1 F2].
    destruct (adv_dec u v) as [(c & Hc)|Hno].
    - left. fold map in F1. now rewrite (F1 c Hc).
    - right. split; [exact Hno|]. fold map in F2. rewrite (F2 Hno). apply mget_init. Qed.

  Lemma make_matrix_get i j u v : nm_name map i = Some u -> nm_name map j = Some v ->
    exists a b, dir_cost u v a /\ dir_cost v u b /\ mget m i j = fixv a b.
  Proof. intros Hi Hj.
    exists (mget (mat_fill map lsas (mat_init n)) i j), (mget (mat_fill map lsas (mat_init n)) j i).
    split; [now apply fill_dir|]. split; [now apply fill_dir|].
    unfold m, make_matrix. apply mat_fix_spec.
    - apply mat_fill_shape. apply mat_init_shape.
    - apply nm_name_lt. eauto.
    - apply nm_name_lt. eauto. Qed.

  (** The usable links of the matrix are the usable links of the LSDB. *)
  Lemma mlink_usable i j u v c : nm_name map i = Some u -> nm_name map j = Some v ->
    (mlink m i j c <-> usable lsas u v c).
  Proof. intros Hi Hj. destruct (make_matrix_get _ _ Hi Hj) as (a & b & Ha & Hb & Hm).
    unfold mlink. rewrite Hm. destruct make_matrix_shape as [Hlen _].
    assert (Hin : (i < length m)%nat) by (rewrite Hlen; apply nm_name_lt; eauto).
    assert (Hjn : (j < length m)%nat) by (rewrite Hlen; apply nm_name_lt; eauto).
    unfold fixv, usable, NON_ADJACENT_COST. split.
    - intros (_ & _ & -> & Hc0). exists a, b.
      destruct Ha as [Ha|[_ Ha]]; destruct Hb as [Hb|[_ Hb]];
        destruct (Z.eqb_spec b a); try (subst; unfold NON_ADJACENT_COST in *; lia);
        destruct (Z.leb_spec 0 a); destruct (Z.leb_spec 0 b); simpl in *; unfold NON_ADJACENT_COST in *; try lia;
        repeat split; auto; lia.
    - intros (a' & b' & A & B & Ha0 & Hb0 & ->).
      assert (a = a').
      { destruct Ha as [Ha|[Hn _]]; [exact (adv_fun Hw Ha A)|]. exfalso. exact (Hn _ A). }
      assert (b = b').
      { destruct Hb as [Hb|[Hn _]]; [exact (adv_fun Hw Hb B)|]. exfalso. exact (Hn _ B). }
      subst a' b'. repeat split; auto; [|lia].
      destruct (Z.eqb_spec b a); [subst; lia|].
      rewrite (proj2 (Z.leb_le 0 a)), (proj2 (Z.leb_le 0 b)) by assumption. reflexivity. Qed.

  Lemma walk_mlink_usable i j c : walk (mlink m) i j c -> forall u v,
    nm_name map i = Some u -> nm_name map j = Some v -> walk (usable lsas) u v c.
  Proof. intros Hwk. induction Hwk as [i|i k j c d Hl Hwk IH]; intros u v Hi Hj.
    - rewrite Hi in Hj. injection Hj as ->. constructor.
    - assert (Hk : exists x, nm_name map k = Some x).
      { apply nm_name_lt. destruct Hl as (_ & Hk & _). destruct make_matrix_shape as [Hlen _].
        rewrite Hlen in Hk. exact Hk. }
      destruct Hk as (x & Hk). apply walk_cons with (v := x); [|now apply IH].
      now apply (mlink_usable _ _ _ Hi Hk). Qed.

  Lemma walk_usable_mlink u v c : walk (usable lsas) u v c -> forall i j,
    nm_name map i = Some u -> nm_name map j = Some v -> walk (mlink m) i j c.
  Proof. intros Hwk. induction Hwk as [u|u x v c d Hl Hwk IH]; intros i j Hi Hj.
    - assert (i = j).
      { pose proof (nm_from_adj_NoDup lsas) as Hnd.
        apply (nm_name_num _ Hnd) in Hi. apply (nm_name_num _ Hnd) in Hj. congruence. }
      subst. constructor.
    - assert (Hx : In x map) by (apply nm_from_adj_In; apply usable_mentioned in Hl; tauto).
      destruct (nm_num map x) as [k|] eqn:Ek; [|apply nm_num_None in Ek; contradiction].
      apply nm_num_Some in Ek. apply walk_cons with (v := k); [|now apply IH].
      now apply (mlink_usable _ _ _ Hi Ek). Qed.
End Make.

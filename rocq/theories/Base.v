(** Common vocabulary: octet strings, NDN names, association maps. *)
From Coq Require Export String Ascii.
From Coq Require Export ZArith NArith Lia Bool Arith List.
From Coq Require Import Sorting.Permutation.
Export ListNotations.
Open Scope list_scope.

Set Implicit Arguments.

(** ** Decidable equality *)

Class EqDec (A : Type) := eq_dec : forall x y : A, {x = y} + {x <> y}.

Definition eqb {A} `{EqDec A} (x y : A) : bool := if eq_dec x y then true else false.

#[global] Instance EqDec_nat : EqDec nat := Nat.eq_dec.
#[global] Instance EqDec_N : EqDec N := N.eq_dec.
#[global] Instance EqDec_Z : EqDec Z := Z.eq_dec.
#[global] Instance EqDec_bool : EqDec bool := Bool.bool_dec.
#[global] Instance EqDec_string : EqDec string := String.string_dec.
#[global] Instance EqDec_prod A B `{EqDec A} `{EqDec B} : EqDec (A * B).
Proof. intros [a b] [c d]. destruct (eq_dec a c); destruct (eq_dec b d); subst;
  (left; reflexivity) || (right; congruence). Defined.
#[global] Instance EqDec_list A `{EqDec A} : EqDec (list A) := list_eq_dec eq_dec.
#[global] Instance EqDec_option A `{EqDec A} : EqDec (option A).
Proof. intros [a|] [b|]; try (right; discriminate); try (left; reflexivity).
  destruct (eq_dec a b); subst; [left|right]; congruence. Defined.

Lemma eqb_refl A `{EqDec A} (x : A) : eqb x x = true.
Proof. unfold eqb. destruct (eq_dec x x); congruence. Qed.

Lemma eqb_eq A `{EqDec A} (x y : A) : eqb x y = true <-> x = y.
Proof. unfold eqb. destruct (eq_dec x y); split; congruence. Qed.

Lemma eqb_neq A `{EqDec A} (x y : A) : eqb x y = false <-> x <> y.
Proof. unfold eqb. destruct (eq_dec x y); split; congruence. Qed.

Lemma eqb_sym A `{EqDec A} (x y : A) : eqb x y = eqb y x.
Proof. unfold eqb. destruct (eq_dec x y), (eq_dec y x); congruence. Qed.

Ltac eqb_cases :=
  repeat match goal with
  | |- context [eqb ?x ?y] => let E := fresh "E" in destruct (eqb x y) eqn:E;
       [apply eqb_eq in E | apply eqb_neq in E]
  | H : context [eqb ?x ?y] |- _ => let E := fresh "E" in destruct (eqb x y) eqn:E;
       [apply eqb_eq in E | apply eqb_neq in E]
  end.

Tactic Notation "eqb_case" constr(x) constr(y) :=
  let E := fresh "E" in destruct (eqb x y) eqn:E;
  [apply eqb_eq in E; try subst x; try subst y | apply eqb_neq in E].

(** ** NDN names *)

(** A name component: TLV type and octets (ndn-cxx name-component; external). *)
Record comp := Comp { ctype : N; cval : string }.

(** GenericNameComponent (type 8). *)
Definition gen (s : string) : comp := Comp 8 s.

Definition name := list comp.

#[global] Instance EqDec_comp : EqDec comp.
Proof. intros [t v] [t' v']. destruct (eq_dec t t'); destruct (eq_dec v v'); subst;
  (left; reflexivity) || (right; congruence). Defined.
#[global] Instance EqDec_name : EqDec name := list_eq_dec eq_dec.

(** Convenience for examples: a name made of generic components. *)
Definition nm (l : list string) : name := List.map gen l.

(** Face URIs are opaque octet strings (ndn-cxx FaceUri; external). *)
Definition uri := string.

(** ** Association maps

    Used for [std::map], [std::unordered_map] and unique containers keyed by
    name.  [get] returns the first binding, [set] overwrites in place or appends,
    [del] removes every binding; the laws below need no invariant. *)

Section Amap.
  Context {K V : Type} `{EqDec K}.

  Definition amap := list (K * V).

  Fixpoint get (k : K) (m : amap) : option V :=
    match m with
    | [] => None
    | (k', v) :: m' => if eqb k k' then Some v else get k m'
    end.

  Fixpoint set (k : K) (v : V) (m : amap) : amap :=
    match m with
    | [] => [(k, v)]
    | (k', v') :: m' => if eqb k k' then (k, v) :: m' else (k', v') :: set k v m'
    end.

  Fixpoint del (k : K) (m : amap) : amap :=
    match m with
    | [] => []
    | (k', v') :: m' => if eqb k k' then del k m' else (k', v') :: del k m'
    end.

  Definition keys (m : amap) : list K := List.map fst m.

  Lemma get_set_eq k v m : get k (set k v m) = Some v.
  Proof. induction m as [|[k' v'] m IH]; simpl.
    - now rewrite eqb_refl.
    - destruct (eqb k k') eqn:E; simpl; [now rewrite eqb_refl | rewrite E; exact IH].
  Qed.

  Lemma get_set_ne k k' v m : k' <> k -> get k' (set k v m) = get k' m.
  Proof. intros Hn. induction m as [|[k0 v0] m IH]; simpl.
    - destruct (eqb k' k) eqn:E; [apply eqb_eq in E; congruence|reflexivity].
    - destruct (eqb k k0) eqn:E; simpl.
      + apply eqb_eq in E; subst k0.
        destruct (eqb k' k) eqn:E'; [apply eqb_eq in E'; congruence|reflexivity].
      + destruct (eqb k' k0); [reflexivity|exact IH].
  Qed.

  Lemma get_set k k' v m : get k' (set k v m) = if eqb k' k then Some v else get k' m.
  Proof. destruct (eqb k' k) eqn:E.
    - apply eqb_eq in E; subst. apply get_set_eq.
    - apply eqb_neq in E. now apply get_set_ne.
  Qed.

  Lemma get_del_eq k m : get k (del k m) = None.
  Proof. induction m as [|[k' v'] m IH]; simpl; [reflexivity|].
    destruct (eqb k k') eqn:E; [exact IH|]. simpl. now rewrite E. Qed.

  Lemma get_del_ne k k' m : k' <> k -> get k' (del k m) = get k' m.
  Proof. intros Hn. induction m as [|[k0 v0] m IH]; simpl; [reflexivity|].
    destruct (eqb k k0) eqn:E.
    - apply eqb_eq in E; subst k0. rewrite IH.
      destruct (eqb k' k) eqn:E'; [apply eqb_eq in E'; congruence|reflexivity].
    - simpl. destruct (eqb k' k0); [reflexivity|exact IH].
  Qed.

  Lemma get_del k k' m : get k' (del k m) = if eqb k' k then None else get k' m.
  Proof. destruct (eqb k' k) eqn:E.
    - apply eqb_eq in E; subst. apply get_del_eq.
    - apply eqb_neq in E. now apply get_del_ne.
  Qed.

  Lemma get_In k v m : get k m = Some v -> In (k, v) m.
  Proof. induction m as [|[k' v'] m IH]; simpl; [discriminate|].
    destruct (eqb k k') eqn:E; intros Hg.
    - apply eqb_eq in E. left. congruence.
    - right. auto. Qed.

  Lemma In_get k v m : NoDup (keys m) -> In (k, v) m -> get k m = Some v.
  Proof. induction m as [|[k' v'] m IH]; simpl; [tauto|].
    intros Hnd Hin. inversion Hnd as [|? ? Hni Hnd']; subst.
    destruct Hin as [Heq|Hin].
    - injection Heq as -> ->. now rewrite eqb_refl.
    - destruct (eqb k k') eqn:E; [|auto].
      apply eqb_eq in E; subst k'. exfalso. apply Hni.
      change k with (fst (k, v)). now apply in_map. Qed.

  Lemma get_None_keys k m : get k m = None <-> ~ In k (keys m).
  Proof. induction m as [|[k' v'] m IH]; simpl; [tauto|].
    destruct (eqb k k') eqn:E.
    - apply eqb_eq in E; subst. split; [discriminate|intros Hn; exfalso; apply Hn; now left].
    - apply eqb_neq in E. rewrite IH. split; [intros Hn [Hx|Hx]; [congruence|tauto]|tauto]. Qed.

  Lemma get_Some_keys k m : In k (keys m) <-> exists v, get k m = Some v.
  Proof. destruct (get k m) eqn:E.
    - split; [eauto|intros _].
      apply get_In in E. change k with (fst (k, v)). now apply in_map.
    - split; [|intros [v Hv]; discriminate]. apply get_None_keys in E. tauto. Qed.

  Lemma keys_set k v m : In k (keys m) -> keys (set k v m) = keys m.
  Proof. induction m as [|[k' v'] m IH]; simpl; [tauto|]. intros Hin.
    destruct (eqb k k') eqn:E; simpl.
    - apply eqb_eq in E; now subst.
    - apply eqb_neq in E. f_equal. apply IH. destruct Hin; congruence. Qed.

  Lemma keys_set_new k v m : ~ In k (keys m) -> set k v m = m ++ [(k, v)].
  Proof. induction m as [|[k' v'] m IH]; simpl; [reflexivity|]. intros Hin.
    destruct (eqb k k') eqn:E.
    - apply eqb_eq in E; subst. exfalso; apply Hin; now left.
    - f_equal. apply IH. tauto. Qed.

  Lemma in_keys_set k k' v m : In k' (keys (set k v m)) <-> k' = k \/ In k' (keys m).
  Proof. rewrite !get_Some_keys, get_set. destruct (eqb k' k) eqn:E.
    - apply eqb_eq in E. split; [auto|]. intros _. eauto.
    - apply eqb_neq in E. split; [auto|]. intros [?|?]; [congruence|auto]. Qed.

  Lemma NoDup_set k v m : NoDup (keys m) -> NoDup (keys (set k v m)).
  Proof. intros Hnd. destruct (in_dec eq_dec k (keys m)) as [Hin|Hin].
    - now rewrite keys_set.
    - rewrite keys_set_new by assumption. unfold keys. rewrite map_app. simpl.
      apply NoDup_rev in Hnd. rewrite <- (rev_involutive (map fst m ++ [k])).
      apply NoDup_rev. rewrite rev_app_distr. simpl. constructor; [|exact Hnd].
      now rewrite <- in_rev. Qed.

  Lemma in_keys_del k k' m : In k' (keys (del k m)) <-> k' <> k /\ In k' (keys m).
  Proof. rewrite !get_Some_keys, get_del. destruct (eqb k' k) eqn:E.
    - apply eqb_eq in E. split; [intros [? ?]; discriminate|tauto].
    - apply eqb_neq in E. tauto. Qed.

  Lemma NoDup_del k m : NoDup (keys m) -> NoDup (keys (del k m)).
  Proof. induction m as [|[k' v'] m IH]; simpl; [auto|].
    intros Hnd. inversion Hnd as [|? ? Hni Hnd']; subst.
    destruct (eqb k k'); [auto|]. simpl. constructor; [|auto].
    intros Hin. apply in_keys_del in Hin. tauto. Qed.

  Lemma In_del k k' v m : In (k', v) (del k m) <-> k' <> k /\ In (k', v) m.
  Proof. induction m as [|[k0 v0] m IH]; simpl; [tauto|].
    destruct (eqb k k0) eqn:E.
    - apply eqb_eq in E; subst k0. rewrite IH. split; [tauto|].
      intros [Hn [Heq|Hin]]; [congruence|tauto].
    - apply eqb_neq in E. simpl. rewrite IH. split.
      + intros [Heq|[Hn Hin]]; [|tauto]. injection Heq as -> ->. auto.
      + tauto. Qed.

  Lemma del_notin k m : ~ In k (keys m) -> del k m = m.
  Proof. induction m as [|[k' v'] m IH]; simpl; [reflexivity|]. intros Hn.
    destruct (eqb k k') eqn:E; [apply eqb_eq in E; subst; tauto|].
    f_equal; tauto. Qed.

  Lemma length_del k v m : NoDup (keys m) -> get k m = Some v ->
    S (List.length (del k m)) = List.length m.
  Proof. induction m as [|[k' v'] m IH]; simpl; [discriminate|].
    intros Hnd. inversion Hnd as [|? ? Hni Hnd']; subst.
    destruct (eqb k k') eqn:E; intros Hg.
    - apply eqb_eq in E; subst k'. now rewrite del_notin.
    - simpl. f_equal. auto. Qed.
End Amap.

Arguments amap : clear implicits.

(** Iterating a step function that emits outputs, over an event list. *)
Section Run.
  Context {S E O : Type} (step : S -> E -> S * list O).
  Fixpoint run (s : S) (es : list E) : S * list O :=
    match es with
    | [] => (s, [])
    | e :: es' => let (s1, o1) := step s e in let (s2, o2) := run s1 es' in (s2, o1 ++ o2)
    end.

  Lemma run_app s es1 es2 :
    run s (es1 ++ es2) =
    let (s1, o1) := run s es1 in let (s2, o2) := run s1 es2 in (s2, o1 ++ o2).
  Proof. revert s. induction es1 as [|e es1 IH]; intros s; simpl.
    - destruct (run s es2); reflexivity.
    - destruct (step s e) as [s1 o1]. rewrite IH. destruct (run s1 es1) as [s2 o2].
      destruct (run s2 es2) as [s3 o3]. now rewrite app_assoc. Qed.

  Lemma run_inv (P : S -> Prop) s es :
    P s -> (forall s e, P s -> P (fst (step s e))) -> P (fst (run s es)).
  Proof. intros H0 Hstep. revert s H0. induction es as [|e es IH]; intros s H0; simpl; [auto|].
    specialize (Hstep s e H0) as Hs1. destruct (step s e) as [s1 o1]. simpl in Hs1.
    specialize (IH s1 Hs1). destruct (run s1 es). exact IH. Qed.

  Lemma run_snoc s es e :
    run s (es ++ [e]) =
    let (s1, o1) := run s es in let (s2, o2) := step s1 e in (s2, o1 ++ o2).
  Proof. rewrite run_app. destruct (run s es) as [s1 o1]. simpl.
    destruct (step s1 e) as [s2 o2]. now rewrite app_nil_r. Qed.
End Run.

Lemma NoDup_app_intro A (l1 l2 : list A) :
  NoDup l1 -> NoDup l2 -> (forall x, In x l1 -> ~ In x l2) -> NoDup (l1 ++ l2).
Proof. induction l1 as [|x l1 IH]; simpl; intros H1 H2 Hd; [exact H2|].
  inversion H1; subst. constructor.
  - rewrite in_app_iff. intros [|]; [contradiction|]. now apply (Hd x (or_introl eq_refl)).
  - apply IH; auto. Qed.

(** Lemmas for C92 and C93: what patterns match, and who stands between a packet and an anchor. *)
From Verif Require Import Base M_Lsa M_Lsdb M_Hello M_Router M_Cert M_Trust S_Trust.
Local Open Scope nat_scope.
Set Implicit Arguments.

(** *** Patterns *)

Inductive splits : pattern -> name -> list name -> Prop :=
| sp_nil : splits [] [] []
| sp_cons i p x n g : i_min i <= length x -> (forall m, i_max i = Some m -> length x <= m) -> forallb (i_ok i) x = true ->
    splits p n g -> splits (i :: p) (x ++ n) (if i_grp i then x :: g else g).

Lemma longest_some A (f : nat -> option A) k x : longest f k = Some x -> exists j, j <= k /\ f j = Some x.
Proof.
  induction k as [|k IH]; cbn [longest]; destruct f as [y|] eqn:E; intros H; try discriminate; try (injection H as <-; eauto).
  destruct (IH H) as (j & Hj & E'). exists j. split; [lia|exact E'].
Qed.
Lemma longest_none A (f : nat -> option A) k : longest f k = None -> forall j, j <= k -> f j = None.
Proof.
  induction k as [|k IH]; cbn [longest]; destruct f as [y|] eqn:E; intros H j Hj; try discriminate.
  - now replace j with 0 by lia.
  - destruct (Nat.eq_dec j (S k)) as [->|N]; [exact E|]. apply IH; [exact H|lia].
Qed.

Lemma rmatch_sound : forall p n g, rmatch p n = Some g -> splits p n g.
Proof.
  induction p as [|i p IH]; intros n g; cbn [rmatch]; [destruct n; [intros [= <-]; constructor|discriminate]|].
  intros H. apply longest_some in H as (k & Hk & H). unfold fits in H.
  destruct ((i_min i <=? k) && _ && _) eqn:F; [|discriminate]. apply andb_true_iff in F as [F F3]. apply andb_true_iff in F as [F1 F2].
  apply Nat.leb_le in F1. destruct (rmatch p (skipn k n)) as [g'|] eqn:E; [|discriminate]. injection H as <-.
  assert (L : length (firstn k n) = k) by (apply firstn_length_le; exact Hk).
  rewrite <- (firstn_skipn k n) at 1. apply sp_cons.
  - now rewrite L.
  - intros m Hm. rewrite Hm in F2. rewrite L. now apply Nat.leb_le.
  - exact F3.
  - now apply IH.
Qed.

Lemma rmatch_complete p n g : splits p n g -> exists g', rmatch p n = Some g'.
Proof.
  induction 1 as [|i p x n g H1 H2 H3 Hs [g' E]]; [now exists []|]. cbn [rmatch].
  destruct longest as [y|] eqn:L; [eauto|]. exfalso.
  assert (A : firstn (length x) (x ++ n) = x) by (rewrite firstn_app, Nat.sub_diag, firstn_all; cbn; now rewrite app_nil_r).
  assert (B : skipn (length x) (x ++ n) = n) by (rewrite skipn_app, Nat.sub_diag, skipn_all; reflexivity).
  assert (N := fun Hj => @longest_none _ _ _ L (length x) Hj). cbv beta in N. unfold fits in N. rewrite A, B, E, H3 in N.
  assert (M : match i_max i with Some m => length x <=? m | None => true end = true).
  { destruct (i_max i) as [m|]; [apply Nat.leb_le; now apply H2|reflexivity]. }
  rewrite M in N. replace (i_min i <=? length x) with true in N by (symmetry; now apply Nat.leb_le). cbn in N.
  rewrite app_length in N. specialize (N ltac:(lia)). discriminate N.
Qed.

Lemma rmatches_true p n : rmatches p n = true <-> exists g, splits p n g.
Proof.
  unfold rmatches. split.
  - destruct (rmatch p n) as [g|] eqn:E; [|discriminate]. intros _. exists g. now apply rmatch_sound.
  - intros [g H]. apply rmatch_complete in H as [g' ->]. reflexivity.
Qed.

Lemma sp_end n g : splits [] n g <-> n = [] /\ g = [].
Proof. split; [intros H; now inversion H|intros [-> ->]; constructor]. Qed.
Lemma sp_one f p n g : splits (one f :: p) n g <-> exists c n', n = c :: n' /\ f c = true /\ splits p n' g.
Proof.
  split.
  - intros H. inversion H as [|i p' x n' g' H1 H2 H3 H4]; subst. cbn in *. specialize (H2 1 eq_refl).
    destruct x as [|c [|d x]]; cbn in *; try lia. rewrite andb_true_r in H3. exists c, n'. auto.
  - intros (c & n' & -> & F & S). change (splits (one f :: p) ([c] ++ n') (if i_grp (one f) then [c] :: g else g)).
    apply sp_cons; cbn; auto; [intros m [= <-]; lia|]. now rewrite F.
Qed.
Lemma all_true (f : comp -> bool) (n : name) : forallb f n = true <-> forall c, In c n -> f c = true. Proof. apply forallb_forall. Qed.
Lemma sp_many f p n g : splits (many f :: p) n g <-> exists x n', n = x ++ n' /\ (forall c, In c x -> f c = true) /\ splits p n' g.
Proof.
  split.
  - intros H. inversion H as [|i p' x n' g' H1 H2 H3 H4]; subst. exists x, n'. split; [reflexivity|]. split; [now apply all_true|exact H4].
  - intros (x & n' & -> & F & S). change (splits (many f :: p) (x ++ n') (if i_grp (many f) then x :: g else g)).
    apply sp_cons; cbn; auto; [lia|discriminate|now apply all_true].
Qed.
Lemma sp_grp f p n g : splits (grp f :: p) n g <-> exists x n' g', n = x ++ n' /\ g = x :: g' /\ (forall c, In c x -> f c = true) /\ splits p n' g'.
Proof.
  split.
  - intros H. inversion H as [|i p' x n' g' H1 H2 H3 H4]; subst. exists x, n', g'. split; [reflexivity|]. split; [reflexivity|]. split; [now apply all_true|exact H4].
  - intros (x & n' & g' & -> & -> & F & S). change (splits (grp f :: p) (x ++ n') (if i_grp (grp f) then x :: g' else g')).
    apply sp_cons; cbn; auto; [lia|discriminate|now apply all_true].
Qed.
Lemma sp_one3 n g : splits [one3] n g <-> 1 <= length n <= 3 /\ g = [].
Proof.
  split.
  - intros H. inversion H as [|i p' x n' g' H1 H2 H3 H4]; subst. apply sp_end in H4 as [-> ->]. cbn in *. specialize (H2 3 eq_refl).
    rewrite app_nil_r. split; [lia|reflexivity].
  - intros [L ->]. rewrite <- (app_nil_r n). change (splits [one3] (n ++ []) (if i_grp one3 then n :: [] else [])).
    apply sp_cons; cbn; [lia|intros m [= <-]; lia|now apply all_true|constructor].
Qed.

Lemma lit_true s c : lit s c = true <-> c = gen s. Proof. apply eqb_eq. Qed.
Lemma lit_false s c : lit s c = false <-> c <> gen s. Proof. apply eqb_neq. Qed.
Lemma neither_true f g c : neither f g c = true <-> f c = false /\ g c = false.
Proof. unfold neither. destruct (f c), (g c); cbn; intuition congruence. Qed.

(** A part without some component, followed by that component, can be cut off in one way only. *)
Lemma cut_unique (P : comp -> Prop) a b x y c d :
  (forall z, In z a -> ~ P z) -> (forall z, In z b -> ~ P z) -> P c -> P d -> a ++ c :: x = b ++ d :: y -> a = b /\ c = d /\ x = y.
Proof.
  revert b. induction a as [|z a IH]; intros [|w b] Ha Hb Hc Hd E; cbn in E.
  - injection E as -> ->. auto.
  - injection E as <- _. destruct (Hb c (or_introl eq_refl) Hc).
  - injection E as -> _. destruct (Ha d (or_introl eq_refl) Hd).
  - injection E as <- E. destruct (IH b) as (-> & -> & ->); auto; intros v Hv; [apply Ha|apply Hb]; now right.
Qed.

(** *** Owners *)

Lemma owner_cut a x : ~ In KEY a -> owner (a ++ KEY :: x) = a.
Proof.
  induction a as [|c a IH]; intros H; cbn [app owner]; [now rewrite eqb_refl|].
  assert (E : eqb c KEY = false) by (apply eqb_neq; intros ->; apply H; now left). rewrite E. f_equal. apply IH. intros X. apply H. now right.
Qed.
Lemma owner_head a : exists x, a = owner a ++ x.
Proof. induction a as [|c a [x E]]; cbn [owner]; [now exists []|]. destruct (eqb c KEY); [now exists (c :: a)|]. exists x. cbn. now rewrite <- E. Qed.
Lemma owner_app a x : exists y, owner (a ++ x) = owner a ++ y.
Proof.
  induction a as [|c a [y E]]; cbn [app owner]; [now eexists|]. destruct (eqb c KEY); [now exists []|]. exists y. cbn. now rewrite E.
Qed.
Lemma owner_no_key a : ~ In KEY (owner a).
Proof. induction a as [|c a IH]; cbn [owner]; [tauto|]. eqb_case c KEY; [tauto|]. intros [->|H]; [congruence|tauto]. Qed.
(** A prefix without KEY is a prefix of the owner. *)
Lemma owner_prefix a x : ~ In KEY a -> exists y, owner (a ++ x) = a ++ y.
Proof.
  induction a as [|c a IH]; intros H; cbn [app owner]; [now eexists|].
  assert (E : eqb c KEY = false) by (apply eqb_neq; intros ->; apply H; now left). rewrite E.
  destruct IH as [y ->]; [intros X; apply H; now right|]. now exists y.
Qed.
(** What stands before KEY in a longer name than [a ++ KEY ..] belongs to the owner of [a]. *)
Lemma owner_under a x y : exists z, owner (a ++ y) = owner (a ++ KEY :: x) ++ z.
Proof.
  induction a as [|c a [z E]]; cbn [app owner]; [rewrite eqb_refl; now eexists|]. destruct (eqb c KEY); [now exists []|].
  exists z. cbn. now rewrite E.
Qed.

Lemma prefix_of_iff p n : prefix_of p n = true <-> exists x, n = p ++ x.
Proof.
  revert n. induction p as [|c p IH]; intros n; cbn [prefix_of]; [split; [now exists n|reflexivity]|].
  destruct n as [|d n]; [split; [discriminate|intros [x [=]]]|]. rewrite andb_true_iff, eqb_eq, IH. split.
  - intros [-> [x ->]]. now exists x.
  - intros [x [= -> ->]]. split; [reflexivity|now exists x].
Qed.

Lemma prefixes_related (a b n x y : name) : n = a ++ x -> n = b ++ y -> related a b.
Proof.
  intros -> E. revert b E. induction a as [|c a IH]; intros b E; [left; now exists b|].
  destruct b as [|d b]; [right; now exists (c :: a)|]. cbn in E. injection E as -> E.
  destruct (IH b E) as [[z ->]|[z ->]]; [left|right]; now exists z.
Qed.
(** A name above a related name is related. *)
Lemma related_above a b t x : b = a ++ x -> related b t -> related a t.
Proof.
  intros -> [[y E]|[y E]].
  - left. exists (x ++ y). now rewrite app_assoc.
  - now apply (@prefixes_related a t (t ++ y) x y).
Qed.
Lemma related_sym a b : related a b -> related b a.
Proof. intros [H|H]; [right|left]; exact H. Qed.

Lemma may_vouch_above r a b x : b = a ++ x -> may_vouch r b -> may_vouch r a.
Proof.
  intros E [H|(s & m & rest & o & H1 & H2 & H3 & H4 & H5)]; [left; eauto using related_above|].
  right. exists s, m, rest, o. repeat split; auto. eapply related_above; eauto.
Qed.

(** *** One step up the chain *)

Lemma free_prefix f A m v F x : f m = true -> free f F -> A ++ m :: v = F ++ x -> exists y, A = F ++ y.
Proof.
  intros Hm. revert A. induction F as [|c F IH]; intros A HF E; [now exists A|]. destruct A as [|a A]; cbn in E; injection E as E1 E.
  - subst c. now rewrite (HF m (or_introl eq_refl)) in Hm.
  - subst a. destruct (IH A (fun z Hz => HF z (or_intror Hz)) E) as [y ->]. now exists y.
Qed.
Lemma first_mark f (r : name) : free f r \/ exists s m rest, r = s ++ m :: rest /\ free f s /\ f m = true.
Proof.
  induction r as [|c r IH]; [left; now intros ? []|]. destruct (f c) eqn:E.
  - right. exists [], c, r. split; [reflexivity|]. split; [now intros ? []|exact E].
  - destruct IH as [H|(s & m & rest & -> & H1 & H2)].
    + left. intros z [<-|Hz]; auto.
    + right. exists (c :: s), m, rest. split; [reflexivity|]. split; [|exact H2]. intros z [<-|Hz]; auto.
Qed.
Lemma mark_not s x c : mark s c = true -> String.length x <> 2 + String.length s -> c <> gen x.
Proof.
  intros H N ->. unfold mark, gen in H. destruct x as [|a [|b x]]; try discriminate. apply andb_true_iff in H as [_ H]. apply eqb_eq in H. subst. now apply N.
Qed.
Lemma router_not_operator c : is_router c = true -> is_operator c = true -> False.
Proof.
  destruct c as [t [|a [|b x]]]; unfold is_router, is_operator, mark; try discriminate. rewrite !andb_true_iff, !eqb_eq. intros (_ & ->) (_ & E). discriminate E.
Qed.

Lemma policy_hit rs n kl : policy rs n kl = true -> exists r, In r rs /\ rmatches (r_filter r) n = true /\ check (r_check r) n kl = true.
Proof.
  unfold policy. destruct find as [r|] eqn:E; [|discriminate]. intros H. apply find_some in E as [E1 E2]. eauto.
Qed.
Lemma check_hyper k rel p n kl : check (Hyper k rel p) n kl = true -> exists gp gk, splits p n gp /\ splits k kl gk /\ rel (concat gk) (concat gp) = true.
Proof.
  cbn [check]. destruct (rmatch p n) as [gp|] eqn:E1; [|discriminate]. destruct (rmatch k kl) as [gk|] eqn:E2; [|discriminate].
  intros H. exists gp, gk. split; [now apply rmatch_sound|]. split; [now apply rmatch_sound|exact H].
Qed.
Ltac parse :=
  repeat match goal with
  | H : splits (one _ :: _) _ _ |- _ => apply sp_one in H as (? & ? & ? & ? & H)
  | H : splits (many _ :: _) _ _ |- _ => apply sp_many in H as (? & ? & ? & ? & H)
  | H : splits (grp _ :: _) _ _ |- _ => apply sp_grp in H as (? & ? & ? & ? & ? & ? & H)
  | H : splits [one3] _ _ |- _ => apply sp_one3 in H as [? ?]
  | H : splits [] _ _ |- _ => apply sp_end in H as [? ?]
  | H : lit _ _ = true |- _ => apply lit_true in H
  end; subst.

Lemma hier_parts n kl : check hierarchical n kl = true -> exists X y w, kl = X ++ KEY :: y /\ n = X ++ w.
Proof.
  intros H. apply check_hyper in H as (gp & gk & H1 & H2 & H3). parse. cbn in H3. rewrite !app_nil_r in *. apply prefix_of_iff in H3 as [w ->].
  match goal with E : eqb KEY _ = true |- _ => apply eqb_eq in E; subst end. eauto.
Qed.

(** The certificate of a hierarchical signer belongs to a name above. *)
Lemma hier_owner n kl d : check hierarchical n kl = true -> prefix_of kl d = true -> exists z, owner n = owner d ++ z.
Proof.
  intros H P. apply hier_parts in H as (X & y & w & -> & ->). apply prefix_of_iff in P as [z ->].
  rewrite <- app_assoc. cbn [app]. apply owner_under.
Qed.

Definition LOCALHOP : comp := gen "localhop"%string.

Section Step.
Variable r : name.
Hypothesis not_local : hd_error r <> Some LOCALHOP.

Lemma not_localhop n : may_vouch r (owner n) -> hd_error n <> Some LOCALHOP.
Proof.
  destruct n as [|c n]; [discriminate|]. cbn [hd_error owner]. intros H [= ->].
  change (eqb LOCALHOP KEY) with false in H. cbv iota in H.
  destruct H as [[[x E]|[x E]]|(s & m & rest & o & -> & _ & Hm & Ho & [[x E]|[x E]])].
  - destruct r as [|c r']; cbn in E; injection E as E _; [discriminate E|]. apply not_local. subst. reflexivity.
  - destruct r as [|c r']; cbn in E; injection E as E _; [discriminate E|]. apply not_local. subst. reflexivity.
  - destruct s as [|c s]; cbn in E; injection E as E _; [|apply not_local; subst; reflexivity]. subst o. discriminate Ho.
  - destruct s as [|c s]; cbn in E; injection E as E _; [|apply not_local; subst; reflexivity]. subst o. discriminate Ho.
Qed.

Lemma key_free (f : comp -> bool) (a : name) : (forall c, In c a -> neither (lit "KEY") f c = true) -> ~ In KEY a.
Proof. intros H X. apply H in X. apply neither_true in X as [X _]. discriminate X. Qed.

Lemma second_free (f g : comp -> bool) (a : name) : (forall c, In c a -> neither f g c = true) -> free g a.
Proof. intros H c Hc. apply H in Hc. now apply neither_true in Hc as [_ Hc]. Qed.

Lemma router_parts n kl : check (r_check router_rule) n kl = true ->
  exists A m v t o u y, n = A ++ m :: v ++ KEY :: t /\ kl = A ++ o :: u ++ KEY :: y /\ is_router m = true /\ is_operator o = true /\
    ~ In KEY A /\ free is_router A /\ free is_operator A /\ ~ In KEY v /\ ~ In KEY u.
Proof.
  intros K. apply check_hyper in K as (gp & gk & K1 & K2 & K3).
  apply sp_grp in K1 as (A & n1 & g1 & -> & -> & HA & K1). apply sp_one in K1 as (m & n2 & -> & Hm & K1).
  apply sp_many in K1 as (v & n3 & -> & Hv & K1). apply sp_one in K1 as (k & n4 & -> & Hk & K1). apply lit_true in Hk. subst k.
  apply sp_grp in K2 as (B & l1 & g2 & -> & -> & HB & K2). apply sp_one in K2 as (o & l2 & -> & Ho & K2).
  apply sp_many in K2 as (u & l3 & -> & Hu & K2). apply sp_one in K2 as (k & l4 & -> & Hk & K2). apply lit_true in Hk. subst k.
  parse. cbn in K3. rewrite !app_nil_r in K3. apply eqb_eq in K3. subst B.
  exists A, m, v. eexists. exists o, u, l4. split; [reflexivity|]. split; [reflexivity|]. split; [exact Hm|]. split; [exact Ho|].
  split; [eapply key_free; exact HA|]. split; [eapply second_free; exact HA|]. split; [eapply second_free; exact HB|].
  split; eapply key_free; eassumption.
Qed.

Lemma is_router_not_key m : is_router m = true -> m <> KEY. Proof. intros H ->. discriminate H. Qed.
Lemma is_operator_not_key m : is_operator m = true -> m <> KEY. Proof. intros H ->. discriminate H. Qed.

Lemma vouch_router n kl d : may_vouch r (owner n) -> check (r_check router_rule) n kl = true -> prefix_of kl d = true -> may_vouch r (owner d).
Proof.
  intros V K P. apply router_parts in K as (A & m & v & t & o & u & y & -> & -> & Hm & Ho & KA & RA & OA & Kv & Ku).
  apply prefix_of_iff in P as [z ->].
  assert (E1 : owner (A ++ m :: v ++ KEY :: t) = A ++ m :: v).
  { replace (A ++ m :: v ++ KEY :: t) with ((A ++ m :: v) ++ KEY :: t) by (rewrite <- app_assoc; reflexivity).
    apply owner_cut. rewrite in_app_iff. intros [X|[X|X]]; [auto| |auto]. now apply is_router_not_key in Hm. }
  assert (E2 : owner ((A ++ o :: u ++ KEY :: y) ++ z) = A ++ o :: u).
  { replace ((A ++ o :: u ++ KEY :: y) ++ z) with ((A ++ o :: u) ++ KEY :: (y ++ z)) by (rewrite <- !app_assoc; cbn [app]; now rewrite <- app_assoc).
    apply owner_cut. rewrite in_app_iff. intros [X|[X|X]]; [auto| |auto]. now apply is_operator_not_key in Ho. }
  rewrite E1 in V. rewrite E2. clear E1 E2.
  assert (RN : is_router NLSR = false) by reflexivity.
  destruct V as [V|(s & m' & rest & o' & E & Hs & Hm' & Ho' & V)].
  - destruct (first_mark is_router r) as [Fr|(s & m' & rest & E & Hs & Hm')].
    + left. assert (FN : free is_router (r ++ [NLSR])) by (intros c Hc; apply in_app_or in Hc as [Hc|[<-|[]]]; auto).
      destruct V as [[x E]|[x E]].
      * exfalso. specialize (FN m). rewrite E in FN. rewrite FN in Hm; [discriminate|]. rewrite !in_app_iff. left. right. now left.
      * destruct (@free_prefix _ _ _ _ _ _ Hm FN E) as [w ->]. right. exists (w ++ o :: u). now rewrite app_assoc.
    + right. exists s, m', rest, o. split; [exact E|]. split; [exact Hs|]. split; [exact Hm'|]. split; [exact Ho|].
      assert (A = s) as ->.
      { destruct V as [[x V]|[x V]]; rewrite E in V; rewrite <- !app_assoc in V; cbn [app] in V.
        - refine (eq_sym (proj1 (@cut_unique (fun c => is_router c = true) _ _ _ _ _ _ _ _ Hm' Hm V))); intros c Hc; rewrite ?(Hs c Hc), ?(RA c Hc); discriminate.
        - refine (proj1 (@cut_unique (fun c => is_router c = true) _ _ _ _ _ _ _ _ Hm Hm' V)); intros c Hc; rewrite ?(Hs c Hc), ?(RA c Hc); discriminate. }
      right. exists u. rewrite <- app_assoc. reflexivity.
  - exfalso. assert (FN : free is_router (s ++ [o'])).
    { intros c Hc. apply in_app_or in Hc as [Hc|[<-|[]]]; [auto|]. destruct (is_router o') eqn:R; [destruct (@router_not_operator _ R Ho')|reflexivity]. }
    destruct V as [[x V]|[x V]].
    + specialize (FN m). rewrite V in FN. rewrite FN in Hm; [discriminate|]. rewrite !in_app_iff. left. right. now left.
    + destruct (@free_prefix _ _ _ _ _ _ Hm FN V) as [w ->]. rewrite (OA o') in Ho'; [discriminate|]. rewrite !in_app_iff. left. right. now left.
Qed.

Lemma vouch_step n kl d : cert_named n = true -> may_vouch r (owner n) -> policy validator n kl = true -> prefix_of kl d = true ->
  may_vouch r (owner d).
Proof.
  intros C V H P. apply policy_hit in H as (ru & [<-|[<-|[<-|[<-|[<-|[]]]]]] & F & K).
  - exfalso. clear K. apply rmatches_true in F as [g F]. unfold hello_rule in F. cbn [r_filter] in F. parse.
    unfold cert_named, back in C. rewrite rev_app_distr in C. cbn in C. discriminate C.
  - exfalso. apply check_hyper in K as (gp & gk & K & _). parse. now apply (@not_localhop _ V).
  - apply check_hyper in K as (gp & gk & K1 & K2 & K3). clear F.
    apply sp_grp in K1 as (A & n1 & g1 & -> & -> & HA & K1). apply sp_grp in K2 as (B & l1 & g2 & -> & -> & HB & K2).
    parse. cbn in K3. rewrite !app_nil_r in K3. apply eqb_eq in K3. subst B.
    apply prefix_of_iff in P as [z ->]. rewrite <- app_assoc. cbn [app]. change (gen "KEY") with KEY.
    apply key_free in HB. rewrite owner_cut by exact HB.
    match type of V with may_vouch _ (owner (_ ++ ?b)) => destruct (@owner_prefix A b HB) as [y E] end.
    eapply may_vouch_above; eauto.
  - now apply (@vouch_router n kl d).
  - destruct (@hier_owner _ _ _ K P) as [z E]. eapply may_vouch_above; eauto.
Qed.

(** Everything on a chain that starts at the router's process may vouch for the router. *)
Lemma vouched_all anchors store K :
  (forall c, In c anchors \/ In c store -> may_vouch r (owner (tc_name c)) -> ~ K (tc_key c)) ->
  forall extra c, (forall x, In x extra -> K (tc_sig x)) -> trusted validator anchors (store ++ extra) c -> may_vouch r (owner (tc_name c)) ->
    ~ K (tc_key c) /\ trusted validator anchors store c.
Proof.
  intros Honest extra c Hx T. induction T as [c Hc|c d Hc Cn Hp T IH P E]; intros V.
  - split; [apply Honest; auto|]. now apply tr_anchor.
  - destruct (IH (@vouch_step _ _ _ Cn V Hp P)) as [Nk T']. apply in_app_or in Hc as [Hc|Hc].
    + split; [apply Honest; auto|]. now apply (@tr_signed _ _ _ c d).
    + exfalso. apply Nk. rewrite <- E. now apply Hx.
Qed.
End Step.

(** *** Which rule decides *)

Lemma tail4 (x y : name) a b c d a' b' c' d' : x ++ [a; b; c; d] = y ++ [a'; b'; c'; d'] -> x = y /\ a = a' /\ b = b' /\ c = c' /\ d = d'.
Proof.
  intros E. change [a; b; c; d] with ([a; b; c] ++ [d]) in E. change [a'; b'; c'; d'] with ([a'; b'; c'] ++ [d']) in E.
  rewrite !app_assoc in E. apply app_inj_tail in E as [E ->].
  change [a; b; c] with ([a; b] ++ [c]) in E. change [a'; b'; c'] with ([a'; b'] ++ [c']) in E. rewrite !app_assoc in E. apply app_inj_tail in E as [E ->].
  change [a; b] with ([a] ++ [b]) in E. change [a'; b'] with ([a'] ++ [b']) in E. rewrite !app_assoc in E. apply app_inj_tail in E as [E ->].
  apply app_inj_tail in E as [E ->]. auto.
Qed.

Lemma hello_no n a b c d : a <> NLSR -> rmatches (r_filter hello_rule) (n ++ [a; b; c; d]) = false.
Proof.
  intros N. destruct rmatches eqn:E; [|reflexivity]. exfalso. apply rmatches_true in E as [g E]. unfold hello_rule in E. cbn [r_filter] in E.
  apply sp_many in E as (x & n' & E0 & _ & E). parse. apply tail4 in E0 as (_ & E0 & _). now apply N.
Qed.
Lemma cert_no n a b c d : a <> KEY -> rmatches (r_filter cert_rule) (n ++ [a; b; c; d]) = false.
Proof.
  intros N. destruct rmatches eqn:E; [|reflexivity]. exfalso. apply rmatches_true in E as [g E]. unfold cert_rule in E. cbn [r_filter] in E.
  apply sp_many in E as (x & n' & E0 & _ & E). parse. apply tail4 in E0 as (_ & E0 & _). now apply N.
Qed.
(** The first component nlsr, and what follows it *)
Lemma after_nlsr f g a p n gs : splits (many (neither (lit "nlsr") f) :: one (lit "nlsr") :: one g :: p) n gs ->
  ~ In NLSR a -> forall c t, n = a ++ NLSR :: c :: t -> g c = true.
Proof.
  intros S Ha c t ->. apply sp_many in S as (x & n' & E & Hx & S). apply sp_one in S as (k & n2 & -> & Hk & S). apply lit_true in Hk. subst k.
  apply sp_one in S as (k & n3 & -> & Hk & S).
  assert (E' : c :: t = k :: n3).
  { refine (proj2 (proj2 (@cut_unique (fun z => z = NLSR) _ _ _ _ _ _ _ _ eq_refl eq_refl E))); intros z Hz ->; [auto|].
    apply Hx in Hz. apply neither_true in Hz as [Hz _]. discriminate Hz. }
  now injection E' as -> _.
Qed.
Lemma has_nlsr f p n gs : splits (many f :: one (lit "nlsr") :: p) n gs -> In NLSR n.
Proof. intros S. apply sp_many in S as (x & n' & -> & _ & S). apply sp_one in S as (k & n2 & -> & Hk & S). apply lit_true in Hk. subst. apply in_or_app. right. now left. Qed.

Lemma lsa_no a c t : ~ In NLSR a -> c <> gen "LSA" -> rmatches (r_filter lsa_rule) (a ++ NLSR :: c :: t) = false.
Proof.
  intros Ha Hc. destruct rmatches eqn:E; [|reflexivity]. exfalso. apply rmatches_true in E as [g E].
  pose proof (@after_nlsr _ _ a _ _ _ E Ha c t eq_refl) as E'. clear E; rename E' into E. now apply lit_true in E.
Qed.
Lemma dataset_no a c t : ~ In NLSR a -> c <> gen "lsdb" -> c <> gen "routing-table" -> rmatches (r_filter dataset_rule) (a ++ NLSR :: c :: t) = false.
Proof.
  intros Ha Hc Hd. destruct rmatches eqn:E; [|reflexivity]. exfalso. apply rmatches_true in E as [g E].
  pose proof (@after_nlsr _ _ a _ _ _ E Ha c t eq_refl) as E'. clear E; rename E' into E. unfold either in E. apply orb_true_iff in E as [E|E]; now apply lit_true in E.
Qed.
Lemma lsa_no' n : ~ In NLSR n -> rmatches (r_filter lsa_rule) n = false.
Proof. intros H. destruct rmatches eqn:E; [|reflexivity]. exfalso. apply rmatches_true in E as [g E]. now apply has_nlsr in E. Qed.
Lemma dataset_no' n : ~ In NLSR n -> rmatches (r_filter dataset_rule) n = false.
Proof. intros H. destruct rmatches eqn:E; [|reflexivity]. exfalso. apply rmatches_true in E as [g E]. now apply has_nlsr in E. Qed.
Lemma router_no n a b c : free is_router n \/ (exists n', n = n' ++ [NLSR]) -> rmatches (r_filter router_rule) (n ++ [KEY; a; b; c]) = false.
Proof.
  intros H. destruct rmatches eqn:E; [|reflexivity]. exfalso. apply rmatches_true in E as [g E]. unfold router_rule in E. cbn [r_filter] in E.
  apply sp_many in E as (x & n1 & E0 & Hx & E). apply sp_one in E as (m & n2 & -> & Hm & E). apply sp_many in E as (v & n3 & -> & Hv & E). parse.
  replace (x ++ m :: v ++ _) with ((x ++ m :: v) ++ [gen "KEY"; x2; x4; x6]) in E0 by (rewrite <- app_assoc; reflexivity).
  apply tail4 in E0 as (-> & _). destruct H as [H|[n' E0]].
  - rewrite (H m) in Hm; [discriminate|]. apply in_or_app. right. now left.
  - destruct v as [|k v _] using rev_ind.
    + apply app_inj_tail in E0 as [_ ->]. discriminate Hm.
    + rewrite app_comm_cons, app_assoc in E0. apply app_inj_tail in E0 as [_ ->].
      specialize (Hv NLSR ltac:(apply in_or_app; right; now left)). discriminate Hv.
Qed.

(** Name prefix table: the invariants that hold between events. *)
From Verif Require Import Base M_Nexthop M_Lsa M_Lsdb M_LinkState M_Npt S_Npt L_Npt L_Npt2 L_Npt3 L_Npt4.
Open Scope Z_scope.
Set Implicit Arguments.

(** ** References *)
Lemma added_dests n d fl s s' out : added n d fl s s' out ->
  forall n' d', In d' (dests s' n') <-> In d' (dests s n') \/ (n' = n /\ d' = d).
Proof. intros A n' d'. unfold dests at 1. rewrite (ad_ent A). eqc n' n.
  - unfold add_dest. destruct (in_dec eq_dec d (dests s n)) as [H|H].
    + split; [auto|]. intros [?|[_ ->]]; auto.
    + rewrite in_app_iff. simpl. split; [intros [?|[<-|[]]]; auto|intros [?|[_ ->]]; auto].
  - fold (dests s n'). split; [auto|]. intros [?|[? _]]; [auto|congruence]. Qed.

Lemma removed_dests n d s s' out : pinv s -> removed n d s s' out ->
  forall n' d', In d' (dests s' n') <-> In d' (dests s n') /\ ~ (n' = n /\ d' = d).
Proof. intros I R n' d'. unfold dests at 1. rewrite (rm_ent R). eqc n' n.
  - destruct (ent s n) as [[[f ds] h]|] eqn:E; [|unfold dests; rewrite E; simpl; tauto].
    assert (Ed : dests s n = ds) by (unfold dests; now rewrite E). rewrite Ed.
    destruct (poolh s d) as [l|] eqn:P.
    + assert (X : (In d' ds /\ ~ (n = n /\ d' = d)) <-> In d' (rem_dest d ds)) by (rewrite rem_dest_In; tauto).
      rewrite X. destruct (rem_dest d ds); simpl; tauto.
    + assert (~ In d ds). { intros C. assert (poolh s d <> None); [|congruence]. apply pool_used; [exact I|]. exists n. now rewrite Ed. }
      split; [|tauto]. intros H'. split; [exact H'|]. intros [_ ->]. contradiction.
  - fold (dests s n'). tauto. Qed.

(** ** The caches are current *)
Definition fresh (s : npt) : Prop := forall n f ds h, ent s n = Some (f, ds, h) -> h = agen (poolh s) ds.
Definition routed (s : npt) : Prop := forall d l, poolh s d = Some l -> nhl_eqb l (route d (n_rt s)) = true.

Lemma ent_dests s n f ds h : ent s n = Some (f, ds, h) -> dests s n = ds.
Proof. intros E. unfold dests. now rewrite E. Qed.

Lemma ent_pool s n f ds h d : pinv s -> ent s n = Some (f, ds, h) -> In d ds -> poolh s d <> None.
Proof. intros I E H. apply pool_used; [exact I|]. exists n. now rewrite (@ent_dests s n f ds h E). Qed.

Lemma nh_eqb_refl h : nh_eqb h h = true.
Proof. unfold nh_eqb. now rewrite Z.eqb_refl, eqb_refl. Qed.
Lemma nhl_eqb_refl l : nhl_eqb l l = true.
Proof. induction l as [|h l IH]; [reflexivity|]. cbn [nhl_eqb]. now rewrite nh_eqb_refl. Qed.

Lemma added_fresh n d fl s s' out : pinv s -> added n d fl s s' out -> fresh s -> fresh s'.
Proof. intros I A F n' f ds h. rewrite (ad_ent A). eqc n' n.
  - intros [= <- <- <-]. reflexivity.
  - intros E'. rewrite (F _ _ _ _ E'). apply agen_ext. intros x X. rewrite (ad_pool A). eqc x d; [|reflexivity].
    pose proof (ent_pool n' _ I E' X). destruct (poolh s d); congruence. Qed.

Lemma added_routed n d fl s s' out : added n d fl s s' out -> routed s -> routed s'.
Proof. intros A R d' l. rewrite (ad_pool A), (ad_rt A). eqc d' d; [|apply R].
  destruct (poolh s d) as [l'|] eqn:P; intros [= <-]; [now apply R|apply nhl_eqb_refl]. Qed.

Lemma removed_fresh n d s s' out : pinv s -> pinv s' -> removed n d s s' out -> fresh s -> fresh s'.
Proof. intros I I' R F.
  assert (Keep : forall n' f ds h x, ent s' n' = Some (f, ds, h) -> In x ds -> poolh s' x = poolh s x).
  { intros n' f ds h x E X. destruct (eq_dec x d) as [->|Hne]; [|now apply (rm_pool R)].
    pose proof (ent_pool n' _ I' E X). destruct (rm_pool_d R) as [H0|H0]; [exact H0|congruence]. }
  intros n' f ds h E. pose proof E as E'. rewrite (rm_ent R) in E.
  transitivity (agen (poolh s) ds).
  - eqc n' n.
    + destruct (ent s n) as [[[f0 ds0] h0]|] eqn:En; [|discriminate]. destruct (poolh s d).
      * destruct (rem_dest d ds0) as [|x y] eqn:Er; [discriminate|]. injection E as <- <- <-. reflexivity.
      * injection E as <- <- <-. eauto.
    + eauto.
  - apply agen_ext. intros x X. symmetry. eapply Keep; eauto. Qed.

Lemma removed_routed n d s s' out : removed n d s s' out -> routed s -> routed s'.
Proof. intros R H d' l P. rewrite (rm_rt R). apply H. destruct (eq_dec d' d) as [->|Hne].
  - destruct (rm_pool_d R); congruence.
  - now rewrite <- (rm_pool R) by exact Hne. Qed.

Lemma rerouted_fresh rt d s s' out : rerouted rt d s s' out -> fresh s -> fresh s'.
Proof. intros R F n f ds h E. destruct (in_dec eq_dec d ds) as [Hd|Hd].
  - destruct (rr_ent_d R) as [(H1 & H2 & _)|(H1 & _)].
    + rewrite H1 in E. rewrite (F _ _ _ _ E). apply agen_ext. auto.
    + destruct (rr_ent R n) as [H2|(f' & ds' & h' & E1 & E2 & E3)].
      * rewrite H2 in E. pose proof (H1 _ _ _ _ E Hd) as H3. rewrite H2 in H3. congruence.
      * rewrite E3 in E. now injection E as <- <- <-.
  - destruct (rr_ent R n) as [H2|(f' & ds' & h' & E1 & E2 & E3)].
    + rewrite H2 in E. rewrite (F _ _ _ _ E). apply agen_ext. intros x X. symmetry. apply (rr_pool R). congruence.
    + rewrite E3 in E. injection E as <- <- <-. contradiction. Qed.

Lemma rerouted_dests rt d s s' out n : rerouted rt d s s' out -> dests s' n = dests s n.
Proof. intros R. unfold dests. destruct (rr_ent R n) as [H|(f & ds & h & E1 & E2 & E3)]; [now rewrite H|now rewrite E1, E3]. Qed.

(** ** What the FIB was told *)
Definition tell (f : N) (l : nhl) : option (nhl * N) := match l with [] => None | _ => Some (l, f) end.

Lemma told1f_word p cur n k f h : told1f p cur (word n k f h) = if eqb n p then tell f (shift k h) else cur.
Proof. unfold word. destruct h as [|x h]; cbn [told1f]; eqc n p; reflexivity. Qed.

Lemma told_app p o1 o2 : fib_told p (o1 ++ o2) = fold_left (told1f p) o2 (fib_told p o1).
Proof. unfold fib_told. apply fold_left_app. Qed.

Definition about (o : nout) : name := match o with NUpdate n _ _ => n | NRemove n => n end.
Lemma about_word n k f h : about (word n k f h) = n.
Proof. unfold word. now destruct h. Qed.

Lemma told_other p out cur : (forall x, In x out -> about x <> p) -> fold_left (told1f p) out cur = cur.
Proof. revert cur. induction out as [|x out IH]; intros cur H; [reflexivity|]. cbn [fold_left].
  rewrite IH by (intros; apply H; now right). pose proof (H x (or_introl eq_refl)) as Hx.
  destruct x; cbn [told1f about] in *; eqc n p; congruence. Qed.

Lemma told_same p out w cur : (forall x, In x out -> about x = p -> x = w) -> In w out -> about w = p ->
  fold_left (told1f p) out cur = told1f p None w.
Proof. intros H Hin Hw. 
  assert (X : forall c, told1f p c w = told1f p None w).
  { intros c. destruct w; cbn [told1f about] in *; subst; rewrite eqb_refl; reflexivity. }
  assert (G : forall out cur, (forall x, In x out -> about x = p -> x = w) ->
     (In w out \/ cur = told1f p None w) -> fold_left (told1f p) out cur = told1f p None w).
  { clear out cur H Hin. induction out as [|x out IH]; intros cur H Hc; cbn [fold_left].
    - destruct Hc as [[]|Hc]; exact Hc.
    - apply IH; [intros; apply H; auto with *|]. destruct (eq_dec (about x) p) as [E|E].
      + right. rewrite (H x (or_introl eq_refl) E). apply X.
      + destruct Hc as [[->|Hc]|Hc]; [congruence|now left|]. right.
        destruct x; cbn [told1f about] in *; eqc n p; congruence. }
  apply G; auto. Qed.

(** ** The section: offsets *)
Section Offsets.
Variable self : name.
(** costs a prefix may have been advertised with; operations that may happen; offsets that may be used *)
Variable seen : name -> Z -> Prop.
Variable ok : name -> name -> Prop.   (* router, prefix *)
Variable K : (name -> name -> Z) -> name -> Z -> Prop.
Hypothesis K_local : forall c c' n k, (forall d, c d n = c' d n) -> K c n k -> K c' n k.
Hypothesis K_op : forall c d n, ok d n -> c d n = 0 \/ seen n (c d n) -> K c n (c d n).
Hypothesis K_erase : forall o p, ok o p -> (forall c c' k, K c p k -> K c' p k) \/ (forall d, ok d p -> d = o).

Definition told_ok (s : npt) (outs : list nout) : Prop :=
  forall n, match ent s n with
            | None => fib_told n outs = None
            | Some (f, ds, h) => exists k, K (costof s) n k /\ fib_told n outs = tell f (shift k h)
            end.

Definition bounded (s : npt) : Prop := forall d n, costof s d n = 0 \/ seen n (costof s d n).
Definition oks (s : npt) : Prop := forall n d, In d (dests s n) -> ok d n.

Definition costs (A : name -> name -> option Z) (s : npt) : Prop :=
  forall o p, match A o p with
              | Some c => get (o, p) (n_cost s) = Some c
              | None => get (o, p) (n_cost s) = None \/ get (o, p) (n_cost s) = Some 0
              end.

Record good (A : name -> name -> option Z) (s : npt) (outs : list nout) : Prop := Good
  { g_p : pinv s; g_f : fresh s; g_r : routed s; g_c : costs A s; g_b : bounded s; g_o : oks s;
    g_t : told_ok s outs }.

Lemma same_cost_costs A s s' : same_cost s s' -> costs A s -> costs A s'.
Proof. intros [S1 S2] H o p. specialize (H o p). destruct (A o p) as [c|]; [now apply S2|].
  destruct H as [H|H]; [|right; now apply S2].
  specialize (S1 o p). unfold costof in S1. rewrite H in S1. destruct (get (o, p) (n_cost s')); [right; congruence|now left]. Qed.
Lemma same_cost_bounded s s' : same_cost s s' -> bounded s -> bounded s'.
Proof. intros [S1 _] H d n. rewrite S1. apply H. Qed.

Lemma add_good A n d fl s outs :
  pinv s -> fresh s -> routed s -> costs A s -> bounded s -> oks s -> ok d n ->
  (forall n', n' <> n -> match ent s n' with
            | None => fib_told n' outs = None
            | Some (f, ds, h) => exists k, K (costof s) n' k /\ fib_told n' outs = tell f (shift k h)
            end) ->
  exists s' out, add_entry n d fl s = Ok (s', out) /\ good A s' (outs ++ out) /\
    (forall n' d', In d' (dests s' n') <-> In d' (dests s n') \/ (n' = n /\ d' = d)) /\ n_rt s' = n_rt s.
Proof. intros I F R C B O Hok T1. destruct (add_entry_eff n d fl I) as (s' & out & E & I' & AD).
  exists s', out. split; [exact E|]. pose proof (added_dests AD) as DD.
  split; [|split; [exact DD|exact (ad_rt AD)]].
  constructor.
  - exact I'.
  - eapply added_fresh; [exact I|exact AD|exact F].
  - eapply added_routed; [exact AD|exact R].
  - eapply same_cost_costs; [exact (ad_cost AD)|exact C].
  - eapply same_cost_bounded; [exact (ad_cost AD)|exact B].
  - intros n' d' H. apply DD in H as [H|[-> ->]]; [now apply O|exact Hok].
  - intros n'. rewrite told_app, (ad_out AD). cbn [fold_left]. rewrite told1f_word.
    rewrite (ad_ent AD). rewrite (eqb_sym n n'). eqc n' n.
    + exists (costof s d n). split; [|reflexivity]. eapply K_local; [intros; symmetry; apply (proj1 (ad_cost AD))|].
      apply K_op; [exact Hok|apply B].
    + specialize (T1 n' E0). destruct (ent s n') as [[[f ds] h]|]; [|exact T1].
      destruct T1 as (k & K1 & T1). exists k. split; [|exact T1]. eapply K_local; [|exact K1]. intros; symmetry; apply (proj1 (ad_cost AD)). Qed.

Lemma tell_nil f k h : tell f (shift k h) = match h with [] => None | _ => tell f (shift k h) end.
Proof. destruct h; reflexivity. Qed.

(** Removal after the cost of (d, n) may have changed: what is told about [n] before is given apart. *)
Lemma remove_good A n d s outs :
  pinv s -> fresh s -> routed s -> costs A s -> bounded s -> oks s -> ok d n ->
  (forall n', n' <> n -> match ent s n' with
            | None => fib_told n' outs = None
            | Some (f, ds, h) => exists k, K (costof s) n' k /\ fib_told n' outs = tell f (shift k h)
            end) ->
  (ent s n = None -> fib_told n outs = None) ->
  (forall f ds h, ent s n = Some (f, ds, h) -> ~ In d ds -> exists k, K (costof s) n k /\ fib_told n outs = tell f (shift k h)) ->
  exists s' out, remove_entry n d s = Ok (s', out) /\ good A s' (outs ++ out) /\
    (forall n' d', In d' (dests s' n') <-> In d' (dests s n') /\ ~ (n' = n /\ d' = d)) /\ n_rt s' = n_rt s /\
    same_cost s s'.
Proof. intros I F R C B O Hok T1 T2 T3. destruct (remove_entry_eff n d I) as (s' & out & E & I' & RM).
  exists s', out. split; [exact E|]. pose proof (removed_dests I RM) as DD.
  split; [|split; [exact DD|split; [exact (rm_rt RM)|exact (rm_cost RM)]]].
  constructor.
  - exact I'.
  - eapply removed_fresh; [exact I|exact I'|exact RM|exact F].
  - eapply removed_routed; [exact RM|exact R].
  - eapply same_cost_costs; [exact (rm_cost RM)|exact C].
  - eapply same_cost_bounded; [exact (rm_cost RM)|exact B].
  - intros n' d' H. apply DD in H as [H _]. now apply O.
  - intros n'. rewrite told_app. rewrite (rm_ent RM). eqc n' n.
    + rewrite (rm_out RM). destruct (ent s n) as [[[f ds] h]|] eqn:En.
      * destruct (poolh s d) as [l|] eqn:P.
        -- destruct (rem_dest d ds) as [|x y] eqn:Er; cbn [fold_left told1f]; rewrite eqb_refl; [reflexivity|].
           exists (costof s d n). split; [|reflexivity]. eapply K_local; [intros; symmetry; apply (proj1 (rm_cost RM))|].
           apply K_op; [exact Hok|apply B].
        -- cbn [fold_left]. destruct (T3 f ds h eq_refl) as (k & K1 & K2).
           { intros Hd. apply (ent_pool n _ I En Hd). exact P. }
           exists k. split; [|exact K2]. eapply K_local; [|exact K1]. intros; symmetry; apply (proj1 (rm_cost RM)).
      * cbn [fold_left]. auto.
    + rewrite told_other.
      * specialize (T1 n' E0). destruct (ent s n') as [[[f ds] h]|]; [|exact T1].
        destruct T1 as (k & K1 & K2). exists k. split; [|exact K2]. eapply K_local; [|exact K1]. intros; symmetry; apply (proj1 (rm_cost RM)).
      * intros x Hx. rewrite (rm_out RM) in Hx. destruct (ent s n) as [[[f ds] h]|]; [|destruct Hx].
        destruct (poolh s d); [|destruct Hx]. destruct (rem_dest d ds); destruct Hx as [<-|[]]; cbn [about]; congruence. Qed.

(** ** One prefix *)
Definition updA (o p : name) (v : option Z) (A : name -> name -> option Z) : name -> name -> option Z :=
  fun o' p' => if eqb o' o && eqb p' p then v else A o' p'.

Lemma costof_set c s o p d n : costof (wn_cost (set (o, p) c (n_cost s)) s) d n = if eqb d o && eqb n p then c else costof s d n.
Proof. unfold costof. cbn [n_cost wn_cost]. rewrite get_set. eqc (d, n) (o, p).
  - injection E as -> ->. now rewrite !eqb_refl.
  - eqc d o; [|reflexivity]. eqc n p; [congruence|reflexivity]. Qed.
Lemma costof_del s o p d n : costof (wn_cost (del (o, p) (n_cost s)) s) d n = if eqb d o && eqb n p then 0 else costof s d n.
Proof. unfold costof. cbn [n_cost wn_cost]. rewrite get_del. eqc (d, n) (o, p).
  - injection E as -> ->. now rewrite !eqb_refl.
  - eqc d o; [|reflexivity]. eqc n p; [congruence|reflexivity]. Qed.

Lemma add_prefix_good A o p c s outs : good A s outs -> ok o p -> seen p c -> p <> self ->
  exists s' out, add_prefix self o (p, c) s = Ok (s', out) /\ good (updA o p (Some c) A) s' (outs ++ out) /\
    (forall n' d', In d' (dests s' n') <-> In d' (dests s n') \/ (n' = p /\ d' = o)) /\ n_rt s' = n_rt s.
Proof. intros G Hok Hs Hp. unfold add_prefix. cbn [fst snd]. eqc p self; [congruence|].
  set (s1 := wn_cost (set (o, p) c (n_cost s)) s).
  apply (@add_good (updA o p (Some c) A) p o CHILD_INHERIT s1 outs).
  - apply pinv_wn_cost. exact (g_p G).
  - exact (g_f G).
  - exact (g_r G).
  - intros o' p'. unfold updA. cbn [s1 n_cost wn_cost]. rewrite get_set. pose proof (g_c G o' p') as C.
    eqc o' o; cbn [andb]; [eqc p' p|].
    + now rewrite eqb_refl.
    + eqc (o, p') (o, p); [congruence|exact C].
    + eqc (o', p') (o, p); [congruence|exact C].
  - intros d n. unfold s1. rewrite costof_set. eqc d o; cbn [andb]; [eqc n p|]; [now right|apply (g_b G)|apply (g_b G)].
  - exact (g_o G).
  - exact Hok.
  - intros n' Hn. pose proof (g_t G n') as T. change (ent s1 n') with (ent s n').
    destruct (ent s n') as [[[f ds] h]|]; [|exact T]. destruct T as (k & K1 & T). exists k. split; [|exact T].
    eapply K_local; [|exact K1]. intros d. unfold s1. rewrite costof_set. eqc n' p; [congruence|]. now rewrite andb_false_r. Qed.

Lemma rem_prefix_good A o p s outs : good A s outs -> ok o p -> A o p <> None -> p <> self ->
  exists s' out, rem_prefix self o p s = Ok (s', out) /\ good (updA o p None A) s' (outs ++ out) /\
    (forall n' d', In d' (dests s' n') <-> In d' (dests s n') /\ ~ (n' = p /\ d' = o)) /\ n_rt s' = n_rt s.
Proof. intros G Hok HA Hp. unfold rem_prefix. eqc p self; [congruence|]. unfold erase_cost.
  pose proof (g_c G o p) as Cp. destruct (A o p) as [c|]; [|congruence]. rewrite Cp. cbn [nbind].
  set (s1 := wn_cost (del (o, p) (n_cost s)) s).
  assert (X : exists s' out, remove_entry p o s1 = Ok (s', out) /\ good (updA o p None A) s' (outs ++ out) /\
    (forall n' d', In d' (dests s' n') <-> In d' (dests s1 n') /\ ~ (n' = p /\ d' = o)) /\ n_rt s' = n_rt s1 /\ same_cost s1 s').
  { apply remove_good.
    - apply pinv_wn_cost. exact (g_p G).
    - exact (g_f G).
    - exact (g_r G).
    - intros o' p'. unfold updA. cbn [s1 n_cost wn_cost]. rewrite get_del. pose proof (g_c G o' p') as C.
      eqc o' o; cbn [andb]; [eqc p' p|].
      + rewrite eqb_refl. now left.
      + eqc (o, p') (o, p); [congruence|exact C].
      + eqc (o', p') (o, p); [congruence|exact C].
    - intros d n. unfold s1. rewrite costof_del. eqc d o; cbn [andb]; [eqc n p|]; [now left|apply (g_b G)|apply (g_b G)].
    - exact (g_o G).
    - exact Hok.
    - intros n' Hn. pose proof (g_t G n') as T. change (ent s1 n') with (ent s n').
      destruct (ent s n') as [[[f ds] h]|]; [|exact T]. destruct T as (k & K1 & T). exists k. split; [|exact T].
      eapply K_local; [|exact K1]. intros d. unfold s1. rewrite costof_del. eqc n' p; [congruence|]. now rewrite andb_false_r.
    - change (ent s1 p) with (ent s p). intros En. pose proof (g_t G p) as T. now rewrite En in T.
    - change (ent s1 p) with (ent s p). intros f ds h En Hd. pose proof (g_t G p) as T. rewrite En in T.
      destruct T as (k & K1 & T). exists k. split; [|exact T].
      destruct (K_erase Hok) as [St|Only]; [eapply St; exact K1|]. exfalso. apply Hd.
      pose proof (ent_nonempty p (g_p G) En) as Ne. destruct ds as [|x ds]; [congruence|].
      assert (x = o). { apply Only. apply (g_o G). unfold dests. rewrite En. now left. }
      subst x. now left. }
  destruct X as (s' & out & -> & G' & D' & R' & _). exists s', out. cbn [app]. auto. Qed.

(** ** All prefixes of an LSA *)
Definition addsA (o : name) (L : npl) (A : name -> name -> option Z) : name -> name -> option Z :=
  fold_left (fun A x => if eqb (fst x) self then A else updA o (fst x) (Some (snd x)) A) L A.
Definition remsA (o : name) (L : list name) (A : name -> name -> option Z) : name -> name -> option Z :=
  fold_left (fun A p => if eqb p self then A else updA o p None A) L A.

Lemma adds_good o L : forall A s outs, good A s outs -> (forall p c, In (p, c) L -> p <> self -> ok o p /\ seen p c) ->
  exists s' out, neach (add_prefix self o) L s = Ok (s', out) /\ good (addsA o L A) s' (outs ++ out) /\
    (forall n' d', In d' (dests s' n') <-> In d' (dests s n') \/ (In n' (keys L) /\ n' <> self /\ d' = o)) /\ n_rt s' = n_rt s.
Proof. induction L as [|[p c] L IH]; intros A s outs G H; cbn [neach].
  - exists s, []. rewrite app_nil_r. split; [reflexivity|]. split; [exact G|]. split; [|reflexivity]. intros. simpl. tauto.
  - destruct (eq_dec p self) as [->|Hp].
    + unfold add_prefix at 1. cbn [fst]. rewrite eqb_refl. cbn [nbind].
      destruct (IH A s outs G) as (s' & out & -> & G' & D' & R'); [intros; apply H; auto with *|].
      exists s', out. split; [reflexivity|]. split; [|split; [|exact R']].
      * unfold addsA. cbn [fold_left fst]. rewrite eqb_refl. exact G'.
      * intros n' d'. rewrite D'. simpl. split; [tauto|]. intros [?|([<-|?] & ? & ?)]; try tauto.
    + destruct (H p c (or_introl eq_refl) Hp) as [Ho Hs].
      destruct (add_prefix_good G Ho Hs Hp) as (s1 & o1 & -> & G1 & D1 & R1). cbn [nbind].
      destruct (IH _ s1 (outs ++ o1) G1) as (s' & out & -> & G' & D' & R'); [intros; apply H; auto with *|].
      exists s', (o1 ++ out). split; [reflexivity|]. split; [|split; [|congruence]].
      * rewrite app_assoc. unfold addsA. cbn [fold_left fst snd]. eqc p self; [congruence|]. exact G'.
      * intros n' d'. rewrite D', D1. simpl. split.
        -- intros [[?|[-> ->]]|?]; auto. tauto.
        -- intros [?|([<-|?] & ? & ->)]; tauto. Qed.

Lemma updA_same o p v A : updA o p v A o p = v.
Proof. unfold updA. now rewrite !eqb_refl. Qed.
Lemma updA_ne o p v A o' p' : (o', p') <> (o, p) -> updA o p v A o' p' = A o' p'.
Proof. intros H. unfold updA. eqc o' o; [|reflexivity]. eqc p' p; [congruence|reflexivity]. Qed.

Lemma rems_good o L : forall A s outs, good A s outs -> NoDup L ->
  (forall p, In p L -> p <> self -> ok o p /\ A o p <> None) ->
  exists s' out, neach (rem_prefix self o) L s = Ok (s', out) /\ good (remsA o L A) s' (outs ++ out) /\
    (forall n' d', In d' (dests s' n') <-> In d' (dests s n') /\ ~ (In n' L /\ n' <> self /\ d' = o)) /\ n_rt s' = n_rt s.
Proof. induction L as [|p L IH]; intros A s outs G Nd H; cbn [neach].
  - exists s, []. rewrite app_nil_r. split; [reflexivity|]. split; [exact G|]. split; [|reflexivity]. intros. simpl. tauto.
  - inversion Nd as [|? ? Hni Nd']; subst. destruct (eq_dec p self) as [->|Hp].
    + unfold rem_prefix at 1. rewrite eqb_refl. cbn [nbind].
      destruct (IH A s outs G Nd') as (s' & out & -> & G' & D' & R'); [intros; apply H; auto with *|].
      exists s', out. split; [reflexivity|]. split; [|split; [|exact R']].
      * unfold remsA. cbn [fold_left]. rewrite eqb_refl. exact G'.
      * intros n' d'. rewrite D'. simpl. split; [|tauto]. intros [X Y]. split; [exact X|]. intros ([<-|?] & ? & ?); tauto.
    + destruct (H p (or_introl eq_refl) Hp) as [Ho Hs].
      destruct (rem_prefix_good G Ho Hs Hp) as (s1 & o1 & -> & G1 & D1 & R1). cbn [nbind].
      destruct (IH _ s1 (outs ++ o1) G1 Nd') as (s' & out & -> & G' & D' & R').
      { intros q Q Qs. rewrite updA_ne; [apply H; auto with *|]. intros [= ->]. contradiction. }
      exists s', (o1 ++ out). split; [reflexivity|]. split; [|split; [|congruence]].
      * rewrite app_assoc. unfold remsA. cbn [fold_left]. eqc p self; [congruence|]. exact G'.
      * intros n' d'. rewrite D', D1. simpl. split.
        -- intros [[X Y] Z']. split; [exact X|]. intros ([<-|?] & ? & ?); tauto.
        -- intros [X Y]. split; [split; [exact X|]|]; [|tauto]. intros [-> ->]. apply Y. auto. Qed.

Lemma good_ext A A' s outs : (forall o p, A' o p = A o p) -> good A s outs -> good A' s outs.
Proof. intros H G. constructor; try apply G. intros o p. rewrite H. apply (g_c G). Qed.

Lemma add_self_good A n d fl s outs : good A s outs -> ok d n ->
  exists s' out, add_entry n d fl s = Ok (s', out) /\ good A s' (outs ++ out) /\
    (forall n' d', In d' (dests s' n') <-> In d' (dests s n') \/ (n' = n /\ d' = d)) /\ n_rt s' = n_rt s.
Proof. intros G Hok. apply add_good; [exact (g_p G)|exact (g_f G)|exact (g_r G)|exact (g_c G)|exact (g_b G)|exact (g_o G)|exact Hok|].
  intros n' _. exact (g_t G n'). Qed.

Lemma remove_self_good A n d s outs : good A s outs -> ok d n ->
  exists s' out, remove_entry n d s = Ok (s', out) /\ good A s' (outs ++ out) /\
    (forall n' d', In d' (dests s' n') <-> In d' (dests s n') /\ ~ (n' = n /\ d' = d)) /\ n_rt s' = n_rt s.
Proof. intros G Hok. destruct (@remove_good A n d s outs) as (s' & out & E & G' & D & R & _);
    [exact (g_p G)|exact (g_f G)|exact (g_r G)|exact (g_c G)|exact (g_b G)|exact (g_o G)|exact Hok|intros n' _; exact (g_t G n')| | |].
  - intros En. pose proof (g_t G n) as T. now rewrite En in T.
  - intros f ds h En _. pose proof (g_t G n) as T. now rewrite En in T.
  - exists s', out. auto. Qed.

(** ** New routes *)
Lemma reroute_good A rt nord d s outs : pinv s -> fresh s -> costs A s -> bounded s -> oks s -> told_ok s outs ->
  In d (keys (n_pool s)) ->
  exists s' out, reroute rt nord d s = Ok (s', out) /\
    pinv s' /\ fresh s' /\ costs A s' /\ bounded s' /\ oks s' /\ told_ok s' (outs ++ out) /\
    (forall n, dests s' n = dests s n) /\ n_pool s' = n_pool s /\ n_rt s' = n_rt s /\
    (forall d', d' <> d -> poolh s' d' = poolh s d') /\
    (forall l, poolh s' d = Some l -> nhl_eqb l (route d rt) = true).
Proof. intros I F C B O T Hin. apply get_Some_keys in Hin as [o Go].
  destruct (@reroute_eff rt nord d s o I Go) as (s' & out & E & I' & R). exists s', out. split; [exact E|].
  split; [exact I'|]. split; [eapply rerouted_fresh; eauto|]. split; [eapply same_cost_costs; [exact (rr_cost R)|exact C]|].
  split; [eapply same_cost_bounded; [exact (rr_cost R)|exact B]|].
  assert (DD : forall n, dests s' n = dests s n) by (intros; eapply rerouted_dests; eauto).
  split; [intros n d' H; rewrite DD in H; now apply O|].
  split; [|split; [exact DD|split; [exact (rr_keys R)|split; [exact (rr_rt R)|split; [exact (rr_pool R)|]]]]].
  - intros n. rewrite told_app.
    assert (Old : ent s' n = ent s n -> fold_left (told1f n) out (fib_told n outs) = fib_told n outs ->
      match ent s' n with None => fold_left (told1f n) out (fib_told n outs) = None
      | Some (f, ds, h) => exists k, K (costof s') n k /\ fold_left (told1f n) out (fib_told n outs) = tell f (shift k h) end).
    { intros -> ->. specialize (T n). destruct (ent s n) as [[[f ds] h]|]; [|exact T]. destruct T as (k & K1 & T).
      exists k. split; [|exact T]. eapply K_local; [|exact K1]. intros; symmetry; apply (proj1 (rr_cost R)). }
    destruct (rr_ent_d R) as [(H1 & H2 & ->)|(H1 & H2 & H3)]; [apply Old; [apply H1|reflexivity]|].
    destruct (ent s' n) as [[[f ds] h]|] eqn:En.
    + destruct (in_dec eq_dec d ds) as [Hd|Hd].
      * exists (costof s d n). split.
        { eapply K_local; [intros; symmetry; apply (proj1 (rr_cost R))|]. apply K_op; [|apply B].
          apply O. rewrite <- DD. unfold dests. now rewrite En. }
        rewrite (@told_same n out (word n (costof s d n) f h)).
        -- rewrite told1f_word, eqb_refl. reflexivity.
        -- intros x Hx Ha. destruct (H2 x Hx) as (n1 & f1 & ds1 & h1 & E1 & _ & ->). rewrite about_word in Ha. subst n1. congruence.
        -- eapply H3; eauto.
        -- apply about_word.
      * rewrite <- En in *. assert (Eq : ent s' n = ent s n).
        { destruct (rr_ent R n) as [H|(f1 & ds1 & h1 & _ & Hd1 & E3)]; [exact H|]. rewrite E3 in En. injection En as <- <- <-. contradiction. }
        rewrite told_other.
        -- specialize (T n). rewrite <- Eq, En in T. destruct T as (k & K1 & T). exists k. split; [|exact T].
           eapply K_local; [|exact K1]. intros; symmetry; apply (proj1 (rr_cost R)).
        -- intros x Hx Ha. destruct (H2 x Hx) as (n1 & f1 & ds1 & h1 & E1 & Hd1 & ->). rewrite about_word in Ha. subst n1.
           rewrite E1 in En. injection En as <- <- <-. contradiction.
    + assert (Eq : ent s n = None) by (destruct (rr_ent R n) as [H|(f1 & ds1 & h1 & _ & _ & E3)]; congruence).
      specialize (T n). rewrite Eq in T. rewrite told_other; [exact T|].
      intros x Hx Ha. destruct (H2 x Hx) as (n1 & f1 & ds1 & h1 & E1 & _ & ->). rewrite about_word in Ha. subst n1. congruence.
  - intros l Pl. destruct (rr_pool_d R) as [P|(l' & P1 & P2 & P3)].
    + assert (l = route d rt) by congruence. subst l. apply nhl_eqb_refl.
    + assert (l = l') by congruence. now subst l'. Qed.

Lemma reroutes_good A rt nord L : forall s outs done, pinv s -> fresh s -> costs A s -> bounded s -> oks s -> told_ok s outs ->
  (forall d, In d L -> In d (keys (n_pool s))) ->
  (forall d l, In d done -> poolh s d = Some l -> nhl_eqb l (route d rt) = true) ->
  exists s' out, neach (reroute rt nord) L s = Ok (s', out) /\
    pinv s' /\ fresh s' /\ costs A s' /\ bounded s' /\ oks s' /\ told_ok s' (outs ++ out) /\
    (forall n, dests s' n = dests s n) /\ n_pool s' = n_pool s /\ n_rt s' = n_rt s /\
    (forall d l, In d done \/ In d L -> poolh s' d = Some l -> nhl_eqb l (route d rt) = true).
Proof. induction L as [|d L IH]; intros s outs done I F C B O T Hk Hd; cbn [neach].
  - exists s, []. rewrite app_nil_r. split; [reflexivity|]. repeat (split; [assumption || reflexivity|]).
    intros d l [H|[]]. now apply Hd.
  - destruct (@reroute_good A rt nord d s outs I F C B O T (Hk d (or_introl eq_refl)))
      as (s1 & o1 & -> & I1 & F1 & C1 & B1 & O1 & T1 & D1 & P1 & R1 & Q1 & Q2). cbn [nbind].
    destruct (IH s1 (outs ++ o1) (d :: done) I1 F1 C1 B1 O1 T1) as (s2 & o2 & -> & I2 & F2 & C2 & B2 & O2 & T2 & D2 & P2 & R2 & Z2).
    + intros d' H. rewrite P1. apply Hk. now right.
    + intros d' l [<-|H]; [apply Q2|]. destruct (eq_dec d' d) as [->|Hne]; [apply Q2|]. rewrite Q1 by exact Hne. now apply Hd.
    + exists s2, (o1 ++ o2). split; [reflexivity|]. rewrite app_assoc. repeat (split; [assumption|]).
      split; [intros; rewrite D2; apply D1|]. split; [congruence|]. split; [congruence|].
      intros d' l H. apply Z2. simpl. simpl in H. tauto. Qed.

Lemma new_routes_good A rt pord nord s outs : good A s outs ->
  exists s' out, new_routes rt pord nord s = Ok (s', out) /\ good A s' (outs ++ out) /\
    (forall n, dests s' n = dests s n) /\ n_rt s' = rt.
Proof. intros G. unfold new_routes. set (s1 := wn_rt rt s).
  assert (I1 : pinv s1) by (destruct (g_p G); constructor; assumption).
  destruct (@reroutes_good A rt nord (arrange pord (keys (n_pool s1))) s1 outs []) as
    (s2 & o2 & E2 & I2 & F2 & C2 & B2 & O2 & T2 & D2 & P2 & R2 & Z2).
  - exact I1.
  - exact (g_f G).
  - exact (g_c G).
  - exact (g_b G).
  - exact (g_o G).
  - exact (g_t G).
  - intros d. rewrite In_arrange. auto.
  - intros d l [].
  - exists s2, o2. split; [exact E2|]. split; [|split; [exact D2|exact R2]].
    constructor; auto. intros d l Pl. rewrite R2. apply Z2; [|exact Pl]. right. rewrite In_arrange.
    rewrite <- P2. apply get_Some_keys. unfold poolh in Pl. destruct (get d (n_pool s2)); [eauto|discriminate]. Qed.
End Offsets.

(** Lemmas about the FIB model. *)
From Coq Require Import Sorting.Permutation Sorting.Sorted.
From Verif Require Import Base M_Nexthop L_Nexthop M_Adj M_Fib S_Fib.
Open Scope Z_scope.

Notation uvalid := (nhl_valid nh_uri_ltb).
Notation addus := (fold_left (fun l h => nhl_addu h l)).

(** ** Runs *)
Lemma fstate_nil c l t0 : fstate c l t0 [] = fib_init l t0.
Proof. reflexivity. Qed.
Lemma fstate_snoc c l t0 evs e : fstate c l t0 (evs ++ [e]) = fst (fstep c (fstate c l t0 evs) e).
Proof. unfold fstate, fexec. rewrite run_app. destruct (run (fstep c) (fib_init l t0) evs) as [s o]. simpl.
  destruct (fstep c s e). reflexivity. Qed.
Lemma fouts_snoc c l t0 evs e : fouts c l t0 (evs ++ [e]) = fouts c l t0 evs ++ fsent c l t0 evs e.
Proof. unfold fouts, fsent, fstate, fexec. rewrite run_app. destruct (run (fstep c) (fib_init l t0) evs) as [s o]. simpl.
  destruct (fstep c s e). simpl. now rewrite app_nil_r. Qed.

(** ** URI-sorted sets *)
Lemma addus_spec hs l : uvalid l ->
  let r := addus hs l in
  uvalid r /\ (forall h, In h r -> In h hs \/ In h l) /\
  (forall h, In h hs \/ In h l -> exists h', In h' r /\ nh_uri h' = nh_uri h /\ nh_cost h' <= nh_cost h).
Proof. apply nhl_adds_spec; [apply nh_uri_ltb_trans|apply nh_uri_ltb_total]. Qed.

Lemma nh_uri_ltb_irrefl x : nh_uri_ltb x x = false.
Proof. apply uri_ltb_irrefl. Qed.

Lemma set_diff_spec fuel : forall a b, (length a + length b <= fuel)%nat ->
  lt_sorted nh_uri_ltb a -> lt_sorted nh_uri_ltb b ->
  forall h, In h (set_diff fuel a b) <-> In h a /\ ~ In (nh_uri h) (map nh_uri b).
Proof. induction fuel as [|fuel IH]; intros a b Hl Ha Hb h.
  - destruct a; [simpl; tauto|simpl in Hl; lia].
  - destruct a as [|x a]; [simpl; tauto|]. destruct b as [|y b]; [simpl; tauto|].
    cbn [set_diff]. inversion Ha as [|? ? Ha' Fa]; subst. inversion Hb as [|? ? Hb' Fb]; subst.
    rewrite Forall_forall in Fa, Fb. simpl in Hl.
    destruct (nh_uri_ltb x y) eqn:E1; [|destruct (nh_uri_ltb y x) eqn:E2].
    + cbn [In]. rewrite IH by (simpl; lia || assumption). split.
      * intros [<-|[H1 H2]]; [|auto]. split; [auto|]. simpl. intros [E|Hi].
        -- unfold nh_uri_ltb in E1. rewrite E, uri_ltb_irrefl in E1. discriminate.
        -- apply in_map_iff in Hi as (z & Ez & Hz). apply Fb in Hz.
           pose proof (nh_uri_ltb_trans _ _ _ E1 Hz) as H. unfold nh_uri_ltb in H.
           rewrite Ez, uri_ltb_irrefl in H. discriminate.
      * intros [[H|H] H2]; auto.
    + rewrite IH by (simpl; lia || assumption). simpl. split.
      * intros [H1 H2]. split; [exact H1|]. intros [E|Hi]; [|auto].
        destruct H1 as [<-|H1].
        -- unfold nh_uri_ltb in E2. rewrite E, uri_ltb_irrefl in E2. discriminate.
        -- apply Fa in H1. pose proof (nh_uri_ltb_trans _ _ _ E2 H1) as H. unfold nh_uri_ltb in H.
           rewrite E, uri_ltb_irrefl in H. discriminate.
      * intros [H1 H2]. split; [exact H1|]. intros Hi. apply H2. now right.
    + pose proof (nh_uri_ltb_total _ _ E1 E2) as Eu.
      rewrite IH by (simpl; lia || assumption). simpl. split.
      * intros [H1 H2]. split; [auto|]. intros [E|Hi]; [|auto].
        apply Fa in H1. unfold nh_uri_ltb in H1. rewrite Eu, E, uri_ltb_irrefl in H1. discriminate.
      * intros [[<-|H1] H2]; [exfalso; apply H2; now left|]. split; [exact H1|]. tauto.
Qed.

Lemma uri_diff_spec a b : uvalid a -> uvalid b ->
  forall h, In h (uri_diff a b) <-> In h a /\ ~ In (nh_uri h) (map nh_uri b).
Proof. intros [Ha _] [Hb _]. apply set_diff_spec; auto. Qed.

Lemma set_diff_NoDup fuel : forall a b, lt_sorted nh_uri_ltb a -> NoDup (map nh_uri a) -> NoDup (set_diff fuel a b).
Proof. induction fuel as [|fuel IH]; intros a b Ha Hn; [constructor|].
  destruct a as [|x a]; [constructor|]. simpl in Hn. inversion Hn as [|? ? Hx Hn']; subst.
  inversion Ha as [|? ? Ha' Fa]; subst.
  destruct b as [|y b].
  - cbn [set_diff]. apply NoDup_map_inv with (f := nh_uri). now constructor.
  - cbn [set_diff]. destruct (nh_uri_ltb x y); [|destruct (nh_uri_ltb y x)].
    + constructor; [|now apply IH]. intros Hi. apply Hx. apply in_map.
      assert (Hsub : forall f a b h, In h (set_diff f a b) -> In h a).
      { clear. induction f as [|f IH]; intros a b h; [simpl; tauto|].
        destruct a as [|x a]; [simpl; tauto|]. destruct b as [|y b]; [simpl; tauto|]. cbn [set_diff].
        destruct (nh_uri_ltb x y); [|destruct (nh_uri_ltb y x)].
        - intros [<-|H]; [now left|right; eauto].
        - apply IH.
        - intros H. right. eauto. }
      eapply Hsub. exact Hi.
    + apply IH; [assumption|]. now constructor.
    + now apply IH. Qed.

Lemma nhl_remove_sub h l x : In x (nhl_remove h l) -> In x l.
Proof. induction l as [|y l IH]; simpl; [tauto|]. destruct (nh_eqb y h); simpl; [auto|]. intros [->|H]; auto. Qed.

Lemma nhl_remove_spec h l : uvalid l -> In h l ->
  uvalid (nhl_remove h l) /\ forall x, In x (nhl_remove h l) <-> In x l /\ x <> h.
Proof. intros [Hs Hn]. induction l as [|y l IH]; simpl; [tauto|]. intros Hin.
  inversion Hs as [|? ? Hs' Fa]; subst. simpl in Hn. inversion Hn as [|? ? Hy Hn']; subst.
  destruct (nh_eqb y h) eqn:E.
  - assert (y = h) as ->.
    { unfold nh_eqb in E. apply andb_true_iff in E as [_ E]. apply eqb_eq in E.
      destruct Hin as [->|Hin]; [reflexivity|]. exfalso. apply Hy. rewrite E. now apply in_map. }
    split; [split; assumption|]. intros x. split.
    + intros Hx. split; [now right|]. intros ->. apply Hy. now apply in_map.
    + intros [[Hx|Hx] Hne]; [congruence|exact Hx].
  - assert (Hne : y <> h).
    { intros ->. unfold nh_eqb in E. rewrite Z.eqb_refl, eqb_refl in E. discriminate. }
    destruct Hin as [Hin|Hin]; [congruence|]. destruct (IH Hs' Hn' Hin) as [[V1 V2] I].
    split.
    + split.
      * constructor; [exact V1|]. rewrite Forall_forall in *. intros z Hz. apply Fa. now apply nhl_remove_sub in Hz.
      * simpl. constructor; [|exact V2]. intros Hi. apply Hy. apply in_map_iff in Hi as (z & <- & Hz).
        apply in_map. now apply nhl_remove_sub in Hz.
    + intros x. simpl. rewrite I. split.
      * intros [->|[Hx Hne']]; [auto|]. auto.
      * intros [[Hx|Hx] Hne']; auto. Qed.

Lemma nhl_removes_spec gone : forall l, uvalid l -> (forall h, In h gone -> In h l) -> NoDup gone ->
  let r := fold_left (fun acc h => nhl_remove h acc) gone l in
  uvalid r /\ forall x, In x r <-> In x l /\ ~ In x gone.
Proof. induction gone as [|h gone IH]; intros l Hv Hg Hn; simpl.
  - split; [exact Hv|]. intros x. tauto.
  - inversion Hn as [|? ? Hh Hn']; subst.
    destruct (@nhl_remove_spec h l Hv (Hg _ (or_introl eq_refl))) as [V I].
    destruct (IH (nhl_remove h l) V) as [V' I'].
    + intros x Hx. apply I. split; [apply Hg; now right|]. intros ->. contradiction.
    + exact Hn'.
    + split; [exact V'|]. intros x. rewrite I', I. split.
      * intros [[A B] C]. split; [exact A|]. intros [->|D]; auto.
      * intros [A B]. split; [split; [exact A|]|]; intros D; apply B; auto. Qed.

(** The next hop set of an entry after an update with the hops [new]. *)
Lemma merge_spec old new : uvalid old -> uvalid new ->
  let st := addus new old in
  let st' := fold_left (fun acc h => nhl_remove h acc) (uri_diff st new) st in
  uvalid st' /\
  (forall u, In u (map nh_uri st') <-> In u (map nh_uri new)) /\
  (forall h, In h st' -> In h old \/ In h new) /\
  (forall h, In h new -> exists h', In h' st' /\ nh_uri h' = nh_uri h /\ nh_cost h' <= nh_cost h) /\
  (forall u, In u (map nh_uri (uri_diff st new)) <-> In u (map nh_uri old) /\ ~ In u (map nh_uri new)).
Proof. intros Ho Hn st st'.
  destruct (@addus_spec new old Ho) as (V & A & B). fold st in V, A, B.
  pose proof (@uri_diff_spec _ _ V Hn) as D.
  assert (ND : NoDup (uri_diff st new)).
  { unfold uri_diff. destruct V as [Vs Vn]. now apply set_diff_NoDup. }
  destruct (@nhl_removes_spec (uri_diff st new) st V (fun h H => proj1 (proj1 (D h) H)) ND) as [V' I].
  fold st' in V', I. cbv zeta in I.
  assert (I2 : forall x, In x st' <-> In x st /\ In (nh_uri x) (map nh_uri new)).
  { intros x. rewrite I, D. split.
    - intros [H1 H2]. split; [exact H1|]. destruct (in_dec string_dec (nh_uri x) (map nh_uri new)); tauto.
    - tauto. }
  split; [exact V'|]. split; [|split; [|split]].
  - intros u. split.
    + intros H. apply in_map_iff in H as (x & <- & Hx). now apply I2 in Hx.
    + intros H. apply in_map_iff in H as (x & <- & Hx).
      destruct (B x (or_introl Hx)) as (h' & H1 & H2 & _). rewrite <- H2. apply in_map. apply I2.
      split; [exact H1|]. rewrite H2. now apply in_map.
  - intros h H. apply I2 in H as [H _]. apply A in H. tauto.
  - intros h H. destruct (B h (or_introl H)) as (h' & H1 & H2 & H3). exists h'. split; [|auto]. apply I2.
    split; [exact H1|]. rewrite H2. now apply in_map.
  - intros u. split.
    + intros H. apply in_map_iff in H as (x & <- & Hx). apply D in Hx as [Hx Hx']. split; [|exact Hx'].
      apply A in Hx as [Hx|Hx]; [|now apply in_map]. exfalso. apply Hx'. now apply in_map.
    + intros [H H']. apply in_map_iff in H as (x & <- & Hx).
      destruct (B x (or_intror Hx)) as (h' & H1 & H2 & _). rewrite <- H2. apply in_map. apply D.
      split; [exact H1|]. now rewrite H2. Qed.

(** The hops an update installs. *)
Lemma hops_to_add_valid c hops : uvalid (hops_to_add c hops).
Proof. unfold hops_to_add. apply (@addus_spec (firstn (num_faces c hops) hops) _ (nhl_valid_nil nh_uri_ltb)). Qed.

Lemma addus_exact hs : forall l, uvalid l -> NoDup (map nh_uri hs) ->
  (forall h, In h hs -> ~ In (nh_uri h) (map nh_uri l)) -> Permutation (addus hs l) (hs ++ l).
Proof. induction hs as [|x hs IH]; intros l Hv Hn Hd; simpl; [reflexivity|].
  simpl in Hn. inversion Hn as [|? ? Hx Hn']; subst.
  assert (P : Permutation (nhl_addu x l) (x :: l)).
  { unfold nhl_addu, nhl_add. destruct (find_uri (nh_uri x) l) as [it|] eqn:E.
    - exfalso. apply find_uri_Some in E as [E1 E2]. apply (Hd x); [now left|]. rewrite <- E2. now apply in_map.
    - apply find_uri_None in E. symmetry. apply sset_insert_perm; [apply nh_uri_ltb_total|exact E]. }
  destruct (nhl_addu_spec x Hv) as [V _].
  rewrite (IH (nhl_addu x l)).
  - rewrite P. symmetry. apply Permutation_middle.
  - exact V.
  - exact Hn'.
  - intros h Hh Hi. pose proof (Permutation_in _ (Permutation_map nh_uri P) Hi) as Hi'. simpl in Hi'.
    destruct Hi' as [E|Hi']; [|apply (Hd h); [now right|exact Hi']].
    apply Hx. rewrite E. now apply in_map. Qed.

Lemma NoDup_firstn A (l : list A) : forall k, NoDup l -> NoDup (firstn k l).
Proof. induction l as [|x l IH]; intros [|k] H; simpl; try constructor.
  - inversion H as [|? ? Hx H']; subst. intros Hi. apply Hx. clear - Hi.
    revert k Hi. induction l as [|y l IH]; intros [|k]; simpl; try tauto. intros [->|Hi]; [auto|]. right. eauto.
  - inversion H; subst. now apply IH. Qed.

Lemma num_faces_wanted c hops : num_faces c hops = wanted (fc_max c) (length hops).
Proof. reflexivity. Qed.

Lemma hops_to_add_perm c hops : NoDup (map nh_uri hops) ->
  Permutation (hops_to_add c hops) (firstn (wanted (fc_max c) (length hops)) hops).
Proof. intros H. unfold hops_to_add. rewrite num_faces_wanted.
  rewrite <- (app_nil_r (firstn _ hops)) at 2. apply addus_exact.
  - apply nhl_valid_nil.
  - rewrite <- firstn_map. now apply NoDup_firstn.
  - simpl. tauto. Qed.

Lemma wanted_le max n : (wanted max n <= n)%nat.
Proof. unfold wanted. destruct (max =? 0)%N; lia. Qed.

Lemma Sorted_le_firstn l : Sorted Z.le l -> forall k a b, In a (firstn k l) -> In b (skipn k l) -> a <= b.
Proof. intros H. apply Sorted_StronglySorted in H; [|intros x y z; lia].
  induction H as [|x l H IH F]; intros [|k] a b; simpl; try tauto.
  rewrite Forall_forall in F. intros [->|Ha] Hb.
  - apply F. rewrite <- (firstn_skipn k l). apply in_or_app. now right.
  - eapply IH; eassumption. Qed.

Lemma cheapest_firstn max hops : is_nhl hops -> cheapest max hops (firstn (wanted max (length hops)) hops).
Proof. intros [Hs Hn]. split.
  - rewrite firstn_length. pose proof (wanted_le max (length hops)). lia.
  - exists (skipn (wanted max (length hops)) hops). split; [now rewrite firstn_skipn|].
    intros a b Ha Hb. apply (@Sorted_le_firstn _ Hs (wanted max (length hops))).
    + rewrite firstn_map. now apply in_map.
    + rewrite skipn_map. now apply in_map. Qed.

Lemma hops_to_add_nil c hops : hops_to_add c hops = [] <-> hops = [].
Proof. unfold hops_to_add. rewrite num_faces_wanted. split; [|intros ->; now rewrite firstn_nil].
  intros H. destruct hops as [|h hops]; [reflexivity|]. exfalso.
  assert (E : exists k, wanted (fc_max c) (length (h :: hops)) = S k).
  { unfold wanted. destruct (fc_max c =? 0)%N eqn:E; [simpl; eauto|]. apply N.eqb_neq in E. simpl.
    destruct (N.to_nat (fc_max c)) eqn:E2; [lia|]. eauto. }
  destruct E as [k E]. rewrite E in H.
  destruct (@addus_spec (firstn (S k) (h :: hops)) _ (nhl_valid_nil nh_uri_ltb)) as (_ & _ & B).
  destruct (B h) as (h' & Hh & _); [left; now left|]. rewrite H in Hh. contradiction. Qed.

Lemma hops_to_add_sub c hops h : In h (hops_to_add c hops) -> In h hops.
Proof. unfold hops_to_add. intros H.
  destruct (@addus_spec (firstn (num_faces c hops) hops) _ (nhl_valid_nil nh_uri_ltb)) as (_ & A & _).
  destruct (A h H) as [H'|[]]. rewrite <- (firstn_skipn (num_faces c hops) hops). apply in_or_app. now left. Qed.

(** ** Commands *)

(** Commands without their numbers. *)
Definition anon (o : fout) : fout :=
  match o with
  | FReg _ n f cost ttl flags => FReg 0 n f cost ttl flags
  | FStrategy _ n s => FStrategy 0 n s
  | x => x
  end.
Lemma fwd_do_anon r o : fwd_do r (anon o) = fwd_do r o.
Proof. destruct o; reflexivity. Qed.
Lemma routes_from_anon o : forall r, fold_left fwd_do (map anon o) r = fold_left fwd_do o r.
Proof. induction o as [|x o IH]; intros r; simpl; [reflexivity|]. now rewrite fwd_do_anon, IH. Qed.
Lemma lives_do_anon t r o : lives_do t r (anon o) = lives_do t r o.
Proof. destruct o; reflexivity. Qed.
Lemma lives_from_anon t o : forall r, fold_left (lives_do t) (map anon o) r = fold_left (lives_do t) o r.
Proof. induction o as [|x o IH]; intros r; simpl; [reflexivity|]. now rewrite lives_do_anon, IH. Qed.

Definition reg_cmds (n : name) (u : uri) (cost ttl : Z) (flags : N) (l : adl) : list fout :=
  if (0 <? get_face_id u l)%N then [FReg 0 n (get_face_id u l) cost ttl flags] else [].
Definition regs (n : name) (ttl : Z) (flags : N) (l : adl) (hops : nhl) : list fout :=
  flat_map (fun h => reg_cmds n (nh_uri h) (adj_int h) ttl flags l) hops.

(** The parts of the state that commands do not change. *)
Definition same (s s' : fib) : Prop := f_tab s' = f_tab s /\ f_adl s' = f_adl s /\ f_now s' = f_now s.
Lemma same_refl s : same s s.
Proof. repeat split. Qed.
Lemma same_trans s1 s2 s3 : same s1 s2 -> same s2 s3 -> same s1 s3.
Proof. intros (A & B & D) (E & F & G). repeat split; congruence. Qed.

Lemma register_spec n u cost ttl flags times s :
  same s (fst (register n u cost ttl flags times s)) /\
  map anon (snd (register n u cost ttl flags times s)) = reg_cmds n u cost ttl flags (f_adl s).
Proof. unfold register, reg_cmds. destruct (0 <? get_face_id u (f_adl s))%N; simpl; repeat split. Qed.

Lemma add_fib_hops_spec c n reg flags hops : forall set0 s set2 s2 o,
  add_fib_hops c n reg flags hops set0 s = (set2, s2, o) ->
  set2 = addus hops set0 /\ same s s2 /\
  map anon o = if reg then regs n (fib_ttl c) flags (f_adl s) hops else [].
Proof. induction hops as [|h hops IH]; intros set0 s set2 s2 o; cbn [add_fib_hops].
  - intros [= <- <- <-]. split; [reflexivity|]. split; [apply same_refl|]. now destruct reg.
  - destruct reg.
    + pose proof (register_spec n (nh_uri h) (adj_int h) (fib_ttl c) flags 0 s) as [R1 R2].
      destruct (register n (nh_uri h) (adj_int h) (fib_ttl c) flags 0 s) as [s1 o1]. simpl in R1, R2.
      destruct (add_fib_hops c n true flags hops (nhl_addu h set0) s1) as [[set3 s3] o3] eqn:E.
      intros [= <- <- <-]. apply IH in E as (E1 & E2 & E3). split; [exact E1|].
      split; [eapply same_trans; eassumption|]. rewrite map_app, R2, E3. destruct R1 as (_ & -> & _). reflexivity.
    + destruct (add_fib_hops c n false flags hops (nhl_addu h set0) s) as [[set3 s3] o3] eqn:E.
      intros [= <- <- <-]. apply IH in E as (E1 & E2 & E3). auto. Qed.

Lemma refresh_hops_spec c n flags hops : forall s,
  same s (fst (refresh_hops c n flags hops s)) /\
  map anon (snd (refresh_hops c n flags hops s)) = regs n (fib_ttl c) flags (f_adl s) hops.
Proof. induction hops as [|h hops IH]; intros s; cbn [refresh_hops].
  - split; [apply same_refl|reflexivity].
  - pose proof (register_spec n (nh_uri h) (adj_int h) (fib_ttl c) flags 0 s) as [R1 R2].
    destruct (register n (nh_uri h) (adj_int h) (fib_ttl c) flags 0 s) as [s1 o1]. simpl in R1, R2.
    pose proof (IH s1) as [I1 I2]. destruct (refresh_hops c n flags hops s1) as [s2 o2]. simpl in *.
    split; [eapply same_trans; eassumption|]. rewrite map_app, R2, I2. destruct R1 as (_ & -> & _). reflexivity. Qed.

(** Unregister commands. *)
Definition unregs (n : name) (l : adl) (us : list uri) : list fout :=
  flat_map (fun u => if (0 <? get_face_id u l)%N then [FUnreg n (get_face_id u l)] else []) us.
Lemma unregister_spec n u s : unregister n u s = unregs n (f_adl s) [u].
Proof. unfold unregister, unregs, get_face_id. simpl. now rewrite app_nil_r. Qed.
Lemma unregisters n s hops : flat_map (fun h => unregister n (nh_uri h) s) hops = unregs n (f_adl s) (map nh_uri hops).
Proof. induction hops as [|h hops IH]; simpl; [reflexivity|]. rewrite IH, unregister_spec. unfold unregs. simpl.
  now rewrite app_nil_r. Qed.
Lemma unregs_anon n l us : map anon (unregs n l us) = unregs n l us.
Proof. unfold unregs. induction us as [|u us IH]; simpl; [reflexivity|]. rewrite map_app, IH.
  now destruct (0 <? get_face_id u l)%N. Qed.

(** ** Invariant: every entry is a URI-sorted set, not empty *)
Definition tab_ok (s : fib) : Prop :=
  forall n e, get n (f_tab s) = Some e -> uvalid (fe_hops e) /\ fe_hops e <> [].

Definition entry_hops (s : fib) (n : name) : nhl :=
  match get n (f_tab s) with Some e => fe_hops e | None => [] end.

Lemma ensure_refresh_spec c n flags s :
  f_adl (ensure_refresh c n flags s) = f_adl s /\ f_now (ensure_refresh c n flags s) = f_now s /\
  f_cmds (ensure_refresh c n flags s) = f_cmds s /\ f_scmds (ensure_refresh c n flags s) = f_scmds s /\
  f_next (ensure_refresh c n flags s) = f_next s /\
  (forall m, entry_hops (ensure_refresh c n flags s) m = entry_hops s m) /\
  (forall m, m <> n -> get m (f_tab (ensure_refresh c n flags s)) = get m (f_tab s)) /\
  (forall e, get n (f_tab s) = Some e ->
     get n (f_tab (ensure_refresh c n flags s)) =
     Some (FEnt (fe_hops e)
             (match fe_refresh e with
              | Some r => Some r
              | None => if not_neighbor n s then Some (refresh_at c flags s) else None
              end) (fe_seq e))).
Proof. unfold ensure_refresh. destruct (get n (f_tab s)) as [e|] eqn:E.
  2:{ repeat (split; [reflexivity|]). discriminate. }
  destruct (fe_refresh e) as [r|] eqn:Er.
  { repeat (split; [reflexivity|]). intros e' [= <-]. rewrite E, Er. rewrite <- Er. now destruct e. }
  destruct (not_neighbor n s) eqn:En.
  2:{ repeat (split; [reflexivity|]). intros e' [= <-]. rewrite E, Er. rewrite <- Er. now destruct e. }
  cbn [wf_tab f_adl f_now f_cmds f_scmds f_next f_tab]. repeat (split; [reflexivity|]). split; [|split].
  - intros m. unfold entry_hops. cbn [f_tab wf_tab]. rewrite get_set. eqb_case m n; [now rewrite E|reflexivity].
  - intros m Hm. now rewrite get_set_ne.
  - intros e' [= <-]. rewrite get_set_eq. now rewrite Er. Qed.

Lemma not_neighbor_adl n s s' : f_adl s' = f_adl s -> not_neighbor n s' = not_neighbor n s.
Proof. intros H. unfold not_neighbor. now rewrite H. Qed.

Lemma is_neighbor_spec n l : is_neighbor n l = true <-> neighbour l n.
Proof. unfold is_neighbor, neighbour. induction l as [|a l IH]; simpl; [split; [discriminate|tauto]|].
  eqb_case (a_name a) n; [split; auto|]. rewrite IH. split; [auto|]. intros [?|?]; [contradiction|auto]. Qed.
Lemma not_neighbor_spec n s : not_neighbor n s = true <-> ~ neighbour (f_adl s) n.
Proof. unfold not_neighbor. rewrite negb_true_iff, <- is_neighbor_spec. destruct (is_neighbor n (f_adl s)); split; congruence. Qed.

(** What an update does, in one statement. *)
Lemma fib_update_spec c n hops flags s : tab_ok s ->
  let s' := fst (fib_update c n hops flags s) in
  let o := snd (fib_update c n hops flags s) in
  let new := hops_to_add c hops in
  let old := entry_hops s n in
  f_adl s' = f_adl s /\ f_now s' = f_now s /\
  (forall m, m <> n -> get m (f_tab s') = get m (f_tab s)) /\
  (new <> [] ->
     exists e', get n (f_tab s') = Some e' /\
       (forall e, get n (f_tab s) = Some e ->
          fe_hops e' = fold_left (fun acc h => nhl_remove h acc) (uri_diff (addus new old) new) (addus new old)) /\
       (get n (f_tab s) = None -> fe_hops e' = addus new []) /\
       fe_refresh e' = (match match get n (f_tab s) with Some e => fe_refresh e | None => None end with
                        | Some r => Some r
                        | None => if not_neighbor n s then Some (refresh_at c flags s) else None end) /\
       map anon o = if not_neighbor n s
                    then regs n (fib_ttl c) flags (f_adl s) new ++
                         match get n (f_tab s) with
                         | Some _ => unregs n (f_adl s) (map nh_uri (uri_diff (addus new old) new))
                         | None => [] end
                    else []) /\
  (new = [] -> (s', o) = fib_remove n s).
Proof. intros Hok s' o new old. subst s' o. unfold fib_update. fold new.
  destruct (get n (f_tab s)) as [e|] eqn:E.
  - destruct new as [|x new'] eqn:En; [|rewrite <- En in *].
    + unfold fib_remove. rewrite E. destruct (not_neighbor n s); simpl.
      * split; [reflexivity|]. split; [reflexivity|]. split; [intros m Hm; now apply get_del_ne|]. split; [congruence|auto].
      * repeat (split; [reflexivity|]). split; [congruence|auto].
    + replace (match new with [] => fib_remove n s | _ :: _ => _ end) with
        (let '(st, s1, o1) := add_fib_hops c n (not_neighbor n s) flags new (fe_hops e) s in
         let gone := uri_diff st new in
         let o2 := if not_neighbor n s then flat_map (fun h => unregister n (nh_uri h) s1) gone else [] in
         let st' := fold_left (fun acc h => nhl_remove h acc) gone st in
         (ensure_refresh c n flags
            (wf_tab (set n (FEnt st' (fe_refresh e) (fe_seq e + 1)) (f_tab s1)) s1), o1 ++ o2)) by now rewrite En.
      assert (Eo : old = fe_hops e) by (unfold old, entry_hops; now rewrite E).
      destruct (add_fib_hops c n (not_neighbor n s) flags new (fe_hops e) s) as [[st s1] o1] eqn:Ea.
      apply add_fib_hops_spec in Ea as (A1 & (A2 & A3 & A4) & A5). rewrite <- Eo in A1. subst st.
      cbv zeta. cbn [fst snd].
      set (s2 := wf_tab _ s1).
      destruct (ensure_refresh_spec c n flags s2) as (B1 & B2 & _ & _ & _ & _ & B3 & B4).
      split; [rewrite B1; exact A3|]. split; [rewrite B2; exact A4|]. split.
      { intros m Hm. rewrite B3 by exact Hm. unfold s2. cbn [f_tab wf_tab]. rewrite get_set_ne by exact Hm. now rewrite A2. }
      split; [|intros H; congruence]. intros _.
      eexists. split; [apply B4; unfold s2; cbn [f_tab wf_tab]; apply get_set_eq|]. cbn [fe_hops fe_refresh].
      split; [intros e' [= <-]; reflexivity|]. split; [discriminate|].
      assert (Enn : not_neighbor n s2 = not_neighbor n s) by (apply not_neighbor_adl; exact A3).
      split.
      { destruct (fe_refresh e); [reflexivity|]. rewrite Enn. unfold refresh_at, s2. cbn [f_now wf_tab]. now rewrite A4. }
      rewrite map_app, A5. destruct (not_neighbor n s); [|reflexivity].
      rewrite unregisters, unregs_anon, A3. reflexivity.
  - destruct new as [|x new'] eqn:En; [|rewrite <- En in *].
    + unfold fib_remove. rewrite E. simpl. repeat (split; [reflexivity|]). split; [congruence|auto].
    + replace (match new with [] => fib_remove n s | _ :: _ => _ end) with
        (let '(st, s1, o) := add_fib_hops c n (not_neighbor n s) flags new [] s in
         (ensure_refresh c n flags (wf_tab (set n (FEnt st None 1) (f_tab s1)) s1), o)) by now rewrite En.
      destruct (add_fib_hops c n (not_neighbor n s) flags new [] s) as [[st s1] o1] eqn:Ea.
      apply add_fib_hops_spec in Ea as (A1 & (A2 & A3 & A4) & A5). subst st. cbn [fst snd].
      set (s2 := wf_tab _ s1).
      destruct (ensure_refresh_spec c n flags s2) as (B1 & B2 & _ & _ & _ & _ & B3 & B4).
      split; [rewrite B1; exact A3|]. split; [rewrite B2; exact A4|]. split.
      { intros m Hm. rewrite B3 by exact Hm. unfold s2. cbn [f_tab wf_tab]. rewrite get_set_ne by exact Hm. now rewrite A2. }
      split; [|intros H; congruence]. intros _.
      eexists. split; [apply B4; unfold s2; cbn [f_tab wf_tab]; apply get_set_eq|]. cbn [fe_hops fe_refresh].
      split; [discriminate|]. split; [reflexivity|].
      assert (Enn : not_neighbor n s2 = not_neighbor n s) by (apply not_neighbor_adl; exact A3).
      split.
      { rewrite Enn. unfold refresh_at, s2. cbn [f_now wf_tab]. now rewrite A4. }
      rewrite A5. destruct (not_neighbor n s); [|reflexivity]. now rewrite app_nil_r.
Qed.

Lemma remove_spec n s :
  let s' := fst (fib_remove n s) in
  f_adl s' = f_adl s /\ f_now s' = f_now s /\ f_cmds s' = f_cmds s /\
  (forall m, m <> n -> get m (f_tab s') = get m (f_tab s)) /\
  (not_neighbor n s = true -> get n (f_tab s') = None /\
     snd (fib_remove n s) = unregs n (f_adl s) (map nh_uri (entry_hops s n))) /\
  (not_neighbor n s = false -> s' = s /\ snd (fib_remove n s) = []).
Proof. unfold fib_remove, entry_hops. destruct (get n (f_tab s)) as [e|] eqn:E.
  - destruct (not_neighbor n s); cbn [fst snd wf_tab f_adl f_now f_cmds f_tab].
    + repeat (split; [reflexivity|]). split; [intros m Hm; now apply get_del_ne|].
      split; [|discriminate]. intros _. split; [apply get_del_eq|]. apply unregisters.
    + repeat (split; [reflexivity|]). split; [discriminate|auto].
  - repeat (split; [reflexivity|]). split; [intros _; split; [exact E|reflexivity]|auto]. Qed.

Lemma refresh_spec c n s :
  let s' := fst (fib_refresh c n s) in
  f_adl s' = f_adl s /\ f_now s' = f_now s /\
  (forall m, m <> n -> get m (f_tab s') = get m (f_tab s)) /\
  ((s' = s /\ snd (fib_refresh c n s) = [] /\
    (forall e due flags, get n (f_tab s) = Some e -> fe_refresh e = Some (due, flags) -> f_now s < due)) \/
   exists e due flags, get n (f_tab s) = Some e /\ fe_refresh e = Some (due, flags) /\ due <= f_now s /\
     get n (f_tab s') = Some (FEnt (fe_hops e) (Some (refresh_at c flags s)) (fe_seq e + 1)) /\
     map anon (snd (fib_refresh c n s)) = regs n (fib_ttl c) flags (f_adl s) (fe_hops e)).
Proof. unfold fib_refresh. destruct (get n (f_tab s)) as [e|] eqn:E.
  2:{ repeat (split; [reflexivity|]). left. split; [reflexivity|]. split; [reflexivity|]. discriminate. }
  destruct (fe_refresh e) as [[due flags]|] eqn:Er.
  2:{ repeat (split; [reflexivity|]). left. split; [reflexivity|]. split; [reflexivity|].
      intros e' d f [= <-]. congruence. }
  destruct (Z.leb_spec due (f_now s)) as [Hd|Hd].
  2:{ repeat (split; [reflexivity|]). left. split; [reflexivity|]. split; [reflexivity|].
      intros e' d f [= <-]. rewrite Er. intros [= <- <-]. exact Hd. }
  pose proof (refresh_hops_spec c n flags (fe_hops e) s) as [(A1 & A2 & A3) B].
  destruct (refresh_hops c n flags (fe_hops e) s) as [s1 o]. cbn [fst snd] in *.
  cbn [f_adl wf_tab f_now f_tab]. split; [exact A2|]. split; [exact A3|]. split.
  - intros m Hm. rewrite get_set_ne by exact Hm. now rewrite A1.
  - right. exists e, due, flags. split; [reflexivity|]. split; [exact Er|]. split; [exact Hd|].
    split; [apply get_set_eq|exact B]. Qed.

(** Events that leave the table alone. *)
Lemma other_tab c s e :
  match e with FvUpdate _ _ _ | FvRemove _ | FvRefresh _ => True | _ => f_tab (fst (fstep c s e)) = f_tab s end.
Proof. destruct e; cbn [fstep]; auto.
  - apply (proj1 (register_spec n u cost ttl flags 0 s)).
  - unfold on_reg_ok. now destruct (get id (f_cmds s)).
  - unfold on_reg_fail. destruct (get id (f_cmds s)) as [r|]; [|reflexivity].
    destruct (rc_times r <? 3)%N; [|reflexivity].
    apply (proj1 (register_spec (rc_name r) (rc_uri r) (rc_cost r) (rc_ttl r) (rc_flags r) (rc_times r + 1)
      (wf_cmds (del id (f_cmds s)) (f_next s) s))).
  - unfold on_strat_fail. destruct (get id (f_scmds s)) as [r|]; [|reflexivity]. now destruct (sc_count r <? 3)%N. Qed.

Lemma update_hops c n hops flags s : tab_ok s -> hops <> [] ->
  let s' := fst (fib_update c n hops flags s) in
  let new := hops_to_add c hops in
  exists e', get n (f_tab s') = Some e' /\ uvalid (fe_hops e') /\
    (forall u, In u (map nh_uri (fe_hops e')) <-> In u (map nh_uri new)) /\
    (forall h, In h (fe_hops e') -> In h (entry_hops s n) \/ In h new) /\
    (forall h, In h new -> exists h', In h' (fe_hops e') /\ nh_uri h' = nh_uri h /\ nh_cost h' <= nh_cost h).
Proof. intros Hok Hh s' new. pose proof (@fib_update_spec c n hops flags s Hok) as (_ & _ & _ & A & _).
  assert (Hn : hops_to_add c hops <> []) by (intros H; apply hops_to_add_nil in H; contradiction).
  destruct (A Hn) as (e' & E1 & E2 & E3 & _). exists e'. split; [exact E1|].
  pose proof (hops_to_add_valid c hops) as Vn. fold new in Vn, E2, E3.
  destruct (get n (f_tab s)) as [e|] eqn:E.
  - rewrite (E2 e eq_refl). destruct (Hok n e E) as [Vo _].
    assert (Eo : entry_hops s n = fe_hops e) by (unfold entry_hops; now rewrite E). rewrite Eo.
    destruct (@merge_spec (fe_hops e) new Vo Vn) as (M1 & M2 & M3 & M4 & _). auto.
  - rewrite (E3 eq_refl). destruct (@addus_spec new [] (nhl_valid_nil _)) as (M1 & M2 & M3).
    split; [exact M1|]. split; [|split; [|intros h H; apply M3; auto]].
    + intros u. split; intros H; apply in_map_iff in H as (x & <- & Hx).
      * apply M2 in Hx as [Hx|[]]. now apply in_map.
      * destruct (M3 x (or_introl Hx)) as (h' & H1 & H2 & _). rewrite <- H2. now apply in_map.
    + intros h H. apply M2 in H as [H|[]]. auto. Qed.

Lemma fstep_tab_ok c s e : tab_ok s -> tab_ok (fst (fstep c s e)).
Proof. intros Hok. pose proof (other_tab c s e) as Ho.
  destruct e; try (intros m x; rewrite Ho; apply Hok); clear Ho.
  - cbn [fstep]. intros m x. destruct (eq_dec m n) as [->|Hm].
    + destruct hops as [|h hops].
      * pose proof (@fib_update_spec c n [] flags s Hok) as (_ & _ & _ & _ & A).
        assert (E : hops_to_add c [] = []) by now apply hops_to_add_nil.
        specialize (A E). apply (f_equal fst) in A. cbn [fst] in A. rewrite A.
        destruct (remove_spec n s) as (_ & _ & _ & _ & R1 & R2).
        destruct (not_neighbor n s).
        -- destruct (R1 eq_refl) as [R _]. rewrite R. discriminate.
        -- destruct (R2 eq_refl) as [R _]. rewrite R. apply Hok.
      * destruct (@update_hops c n (h :: hops) flags s Hok ltac:(discriminate)) as (e' & E & V & U & _).
        rewrite E. intros [= <-]. split; [exact V|]. intros Hnil. rewrite Hnil in U.
        destruct (hops_to_add c (h :: hops)) as [|y l] eqn:E2.
        { apply hops_to_add_nil in E2. discriminate. }
        apply (U (nh_uri y)). now left.
    + pose proof (@fib_update_spec c n hops flags s Hok) as (_ & _ & A & _). rewrite A by exact Hm. apply Hok.
  - cbn [fstep]. intros m x. destruct (remove_spec n s) as (_ & _ & _ & A & R1 & R2).
    destruct (eq_dec m n) as [->|Hm]; [|rewrite A by exact Hm; apply Hok].
    destruct (not_neighbor n s).
    + destruct (R1 eq_refl) as [R _]. rewrite R. discriminate.
    + destruct (R2 eq_refl) as [R _]. rewrite R. apply Hok.
  - cbn [fstep]. intros m x. destruct (refresh_spec c n s) as (_ & _ & A & B).
    destruct (eq_dec m n) as [->|Hm]; [|rewrite A by exact Hm; apply Hok].
    destruct B as [(B & _)|(e & due & flags & B1 & _ & _ & B2 & _)].
    + rewrite B. apply Hok.
    + rewrite B2. intros [= <-]. apply (Hok n e B1). Qed.

Lemma fstate_tab_ok c l t0 evs : tab_ok (fstate c l t0 evs).
Proof. unfold fstate, fexec. apply run_inv; [intros n e; discriminate|]. intros s e. apply fstep_tab_ok. Qed.

Lemma in_anon o x : In x o -> In (anon x) (map anon o).
Proof. apply in_map. Qed.
Lemma in_regs_iff n ttl flags l hops x : In x (regs n ttl flags l hops) <->
  exists h, In h hops /\ (0 < get_face_id (nh_uri h) l)%N /\ x = FReg 0 n (get_face_id (nh_uri h) l) (adj_int h) ttl flags.
Proof. unfold regs. rewrite in_flat_map. split.
  - intros (h & Hh & H). unfold reg_cmds in H. destruct (0 <? _)%N eqn:E; [|contradiction]. destruct H as [<-|[]].
    apply N.ltb_lt in E. eauto.
  - intros (h & Hh & H & ->). exists h. split; [exact Hh|]. unfold reg_cmds. apply N.ltb_lt in H. rewrite H. now left. Qed.
Lemma in_unregs_iff n l us x : In x (unregs n l us) <->
  exists u, In u us /\ (0 < get_face_id u l)%N /\ x = FUnreg n (get_face_id u l).
Proof. unfold unregs. rewrite in_flat_map. split.
  - intros (h & Hh & H). destruct (0 <? _)%N eqn:E; [|contradiction]. destruct H as [<-|[]].
    apply N.ltb_lt in E. eauto.
  - intros (h & Hh & H & ->). exists h. split; [exact Hh|]. apply N.ltb_lt in H. rewrite H. now left. Qed.

(** Replaying registrations and unregistrations. *)
Lemma regs_routes n ttl flags l hops : forall (r : fwd) m f,
  In (m, f) (keys (fold_left fwd_do (regs n ttl flags l hops) r)) <->
  In (m, f) (keys r) \/ (m = n /\ exists h, In h hops /\ get_face_id (nh_uri h) l = f /\ (0 < f)%N).
Proof. induction hops as [|h hops IH]; intros r m f; simpl.
  - split; [auto|]. intros [H|(_ & x & [] & _)]. exact H.
  - unfold regs in *. cbn [flat_map]. rewrite fold_left_app, IH. unfold reg_cmds.
    destruct (N.ltb_spec 0 (get_face_id (nh_uri h) l)) as [Hf|Hf]; cbn [fold_left fwd_do].
    + rewrite in_keys_set. split.
      * intros [[[= -> ->]|H]|(-> & x & Hx & H)]; [right; split; [reflexivity|]; exists h; auto|auto|].
        right. split; [reflexivity|]. exists x. auto.
      * intros [H|(-> & x & [<-|Hx] & <- & H2)]; [auto|auto|]. right. split; [reflexivity|]. eauto.
    + split.
      * intros [H|(-> & x & Hx & H)]; [auto|]. right. split; [reflexivity|]. exists x. auto.
      * intros [H|(-> & x & [<-|Hx] & <- & H2)]; [auto|lia|]. right. split; [reflexivity|]. eauto. Qed.

Lemma unregs_routes n l us : forall (r : fwd) m f,
  In (m, f) (keys (fold_left fwd_do (unregs n l us) r)) <->
  In (m, f) (keys r) /\ ~ (m = n /\ exists u, In u us /\ get_face_id u l = f /\ (0 < f)%N).
Proof. induction us as [|u us IH]; intros r m f; simpl.
  - split; [|tauto]. intros H. split; [exact H|]. intros (_ & x & [] & _).
  - unfold unregs in *. cbn [flat_map]. rewrite fold_left_app, IH.
    destruct (N.ltb_spec 0 (get_face_id u l)) as [Hf|Hf]; cbn [fold_left fwd_do].
    + rewrite in_keys_del. split.
      * intros [[H1 H2] H3]. split; [exact H2|]. intros (-> & x & [<-|Hx] & Ex & Hx2).
        -- apply H1. congruence.
        -- apply H3. eauto.
      * intros [H1 H2]. split; [split; [|exact H1]|].
        -- intros [= -> ->]. apply H2. split; [reflexivity|]. exists u. auto.
        -- intros (-> & x & Hx). apply H2. split; [reflexivity|]. exists x. tauto.
    + split.
      * intros [H1 H2]. split; [exact H1|]. intros (-> & x & [<-|Hx] & Ex & Hx2); [lia|]. apply H2. eauto.
      * intros [H1 H2]. split; [exact H1|]. intros (-> & x & Hx). apply H2. split; [reflexivity|]. exists x. tauto. Qed.

(** ** Neighbours' prefixes have no refresh, and are never named in a command *)

(** The neighbours stay the configured ones; their faces and status may change. *)

Lemma upd_first_names p f l : (forall a, a_name (f a) = a_name a) -> map a_name (upd_first p f l) = map a_name l.
Proof. intros H. induction l as [|a l IH]; simpl; [reflexivity|]. destruct (p a); simpl; [now rewrite H|now rewrite IH]. Qed.

Lemma register_adl n u cost ttl flags times s : f_adl (fst (register n u cost ttl flags times s)) = f_adl s.
Proof. apply (proj1 (register_spec n u cost ttl flags times s)). Qed.
Lemma fstep_names c s e names : keeps_names names e -> map a_name (f_adl s) = names ->
  map a_name (f_adl (fst (fstep c s e))) = names.
Proof. intros Hk Hn. destruct e; cbn [fstep] in *.
  - unfold fib_update. destruct (get n (f_tab s)) as [e|] eqn:E, (hops_to_add c hops) as [|x new] eqn:En;
      try (unfold fib_remove; rewrite E; try destruct (not_neighbor n s); assumption).
    + destruct (add_fib_hops c n (not_neighbor n s) flags (x :: new) (fe_hops e) s) as [[st s1] o1] eqn:Ea.
      apply add_fib_hops_spec in Ea as (_ & (_ & A & _) & _). cbn [fst].
      match goal with |- context [ensure_refresh c n flags ?q] =>
        destruct (ensure_refresh_spec c n flags q) as (B1 & _) end.
      rewrite B1. simpl. congruence.
    + destruct (add_fib_hops c n (not_neighbor n s) flags (x :: new) [] s) as [[st s1] o1] eqn:Ea.
      apply add_fib_hops_spec in Ea as (_ & (_ & A & _) & _). cbn [fst].
      match goal with |- context [ensure_refresh c n flags ?q] =>
        destruct (ensure_refresh_spec c n flags q) as (B1 & _) end.
      rewrite B1. simpl. congruence.
  - destruct (remove_spec n s) as (A & _). now rewrite A.
  - now rewrite register_adl.
  - exact Hn.
  - destruct (refresh_spec c n s) as (A & _). now rewrite A.
  - unfold on_reg_ok. destruct (get id (f_cmds s)); [|exact Hn]. simpl. rewrite upd_first_names; [exact Hn|reflexivity].
  - unfold on_reg_fail. destruct (get id (f_cmds s)) as [r|]; [|exact Hn].
    destruct (rc_times r <? 3)%N; [|exact Hn]. rewrite register_adl. exact Hn.
  - exact Hn.
  - unfold on_strat_fail. destruct (get id (f_scmds s)) as [r|]; [|exact Hn]. destruct (sc_count r <? 3)%N; exact Hn.
  - exact Hk.
  - exact Hn. Qed.

Definition nb_ok (names : list name) (s : fib) : Prop :=
  forall n e, get n (f_tab s) = Some e -> (In n names <-> fe_refresh e = None).

Lemma fstep_nb_ok c s e names : tab_ok s -> map a_name (f_adl s) = names -> nb_ok names s ->
  nb_ok names (fst (fstep c s e)).
Proof. intros Hok Hn Hb. pose proof (other_tab c s e) as Ho.
  destruct e; try (intros m x; rewrite Ho; apply Hb); clear Ho; cbn [fstep].
  - intros m x. pose proof (@fib_update_spec c n hops flags s Hok) as (_ & _ & U3 & U4 & U5).
    destruct (eq_dec m n) as [->|Hm]; [|rewrite U3 by exact Hm; apply Hb].
    destruct (hops_to_add c hops) as [|y new] eqn:En.
    + specialize (U5 eq_refl). apply (f_equal fst) in U5. cbn [fst] in U5. rewrite U5.
      destruct (remove_spec n s) as (_ & _ & _ & _ & R2 & R3).
      destruct (not_neighbor n s).
      * destruct (R2 eq_refl) as [R _]. rewrite R. discriminate.
      * destruct (R3 eq_refl) as [R _]. rewrite R. apply Hb.
    + destruct (U4 ltac:(congruence)) as (e' & E1 & _ & _ & E2 & _). rewrite E1. intros [= <-]. rewrite E2.
      pose proof (not_neighbor_spec n s) as N. unfold neighbour in N. rewrite Hn in N.
      destruct (get n (f_tab s)) as [e|] eqn:Eg.
      * pose proof (Hb n e Eg) as B. destruct (fe_refresh e); [exact B|].
        destruct (not_neighbor n s); [|tauto]. split; [|discriminate]. tauto.
      * destruct (not_neighbor n s).
        -- split; [|discriminate]. tauto.
        -- split; [auto|]. intros _. destruct (in_dec eq_dec n names) as [Hi|Hi]; [exact Hi|]. apply N in Hi. discriminate.
  - intros m x. destruct (remove_spec n s) as (_ & _ & _ & R1 & R2 & R3).
    destruct (eq_dec m n) as [->|Hm]; [|rewrite R1 by exact Hm; apply Hb].
    destruct (not_neighbor n s).
    + destruct (R2 eq_refl) as [R _]. rewrite R. discriminate.
    + destruct (R3 eq_refl) as [R _]. rewrite R. apply Hb.
  - intros m x. destruct (refresh_spec c n s) as (_ & _ & A & B).
    destruct (eq_dec m n) as [->|Hm]; [|rewrite A by exact Hm; apply Hb].
    destruct B as [(B & _)|(e & due & flags & B1 & B2 & _ & B4 & _)]; [rewrite B; apply Hb|].
    rewrite B4. intros [= <-]. cbn [fe_refresh]. split; [|discriminate]. intros Hi.
    apply (Hb n e B1) in Hi. congruence. Qed.

Definition base_inv (names : list name) (s : fib) : Prop :=
  tab_ok s /\ map a_name (f_adl s) = names /\ nb_ok names s.
Lemma base_inv_step c s e names : keeps_names names e -> base_inv names s -> base_inv names (fst (fstep c s e)).
Proof. intros Hk (A & B & D). split; [now apply fstep_tab_ok|]. split; [now apply fstep_names|]. now apply fstep_nb_ok. Qed.
Lemma base_inv_fstate c l t0 evs : Forall (keeps_names (map a_name l)) evs -> base_inv (map a_name l) (fstate c l t0 evs).
Proof. induction evs as [|e evs IH] using rev_ind; intros H.
  - split; [intros n e; discriminate|]. split; [reflexivity|intros n e; discriminate].
  - apply Forall_app in H as [H1 H2]. rewrite fstate_snoc. apply base_inv_step; [now inversion H2|auto]. Qed.

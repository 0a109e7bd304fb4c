(** FIB properties C35 (changing faces), C37, C38, C39, C65. *)
From Coq Require Import Sorting.Permutation Sorting.Sorted.
From Verif Require Import Base M_Nexthop L_Nexthop M_Adj M_Fib S_Fib L_Fib P_Fib.
Open Scope Z_scope.

(** ** C35 with changing faces *)

Definition faces_ok (l : adl) : Prop :=
  NoDup (map a_uri l) /\ NoDup (filter (fun f => (0 <? f)%N) (map a_face l)).

Lemma upd_first_uris p f l : (forall a, a_uri (f a) = a_uri a) -> map a_uri (upd_first p f l) = map a_uri l.
Proof. intros H. induction l as [|a l IH]; simpl; [reflexivity|]. destruct (p a); simpl; [now rewrite H|now rewrite IH]. Qed.

Lemma upd_face_in p f l x : In x (map a_face (upd_first p (set_face f) l)) -> x = f \/ In x (map a_face l).
Proof. induction l as [|a l IH]; simpl; [tauto|]. destruct (p a); simpl; intros [<-|H]; auto. destruct (IH H); auto. Qed.

Lemma faces_ok_up p f l : (f = 0%N \/ ~ In f (map a_face l)) -> faces_ok l -> faces_ok (upd_first p (set_face f) l).
Proof. intros Hf [H1 H2]. split; [now rewrite upd_first_uris|]. clear H1.
  induction l as [|a l IH]; simpl in *; [constructor|].
  assert (Hl : NoDup (filter (fun f => (0 <? f)%N) (map a_face l))).
  { destruct (0 <? a_face a)%N; [now inversion H2|exact H2]. }
  destruct (p a); simpl.
  - destruct (0 <? f)%N eqn:E; [|exact Hl]. constructor; [|exact Hl].
    intros Hi. apply filter_In in Hi as [Hi _]. apply N.ltb_lt in E. destruct Hf as [->|Hf]; [lia|]. apply Hf. now right.
  - assert (IH' : NoDup (filter (fun f => (0 <? f)%N) (map a_face (upd_first p (set_face f) l)))) by (apply IH; [tauto|exact Hl]).
    destruct (0 <? a_face a)%N eqn:E; [|exact IH']. constructor; [|exact IH'].
    intros Hi. apply filter_In in Hi as [Hi _]. inversion H2 as [|? ? Hx _]; subst.
    apply upd_face_in in Hi as [Hi|Hi].
    + apply N.ltb_lt in E. destruct Hf as [Hf|Hf]; [lia|]. apply Hf. now left.
    + apply Hx. now apply filter_In. Qed.

Lemma face_id_down f l u g : faces_ok l -> (0 < f)%N -> get_face_id u l = g -> (0 < g)%N -> g <> f ->
  get_face_id u (upd_first (fun a => eqb (a_face a) f) (set_face 0) l) = g.
Proof. intros _ Hf. unfold get_face_id. induction l as [|a l IH]; simpl; [auto|]. intros Hg Hp Hn.
  eqb_case (a_face a) f; simpl.
  - destruct (eqb (a_uri a) u); [congruence|exact Hg].
  - destruct (eqb (a_uri a) u); [exact Hg|]. now apply IH. Qed.

Lemma face_id_up u v f l g : get_face_id u l = g -> (0 < g)%N -> get_face_id v l = 0%N ->
  get_face_id u (upd_first (fun a => eqb (a_uri a) v) (set_face f) l) = g.
Proof. unfold get_face_id. induction l as [|a l IH]; simpl; [auto|]. intros Hg Hp H0.
  eqb_case (a_uri a) v; simpl.
  - eqb_case (a_uri a) u; [lia|exact Hg].
  - destruct (eqb (a_uri a) u); [exact Hg|]. now apply IH. Qed.

(** Routes at the forwarder are backed by the FIB. *)
Definition backed (s : fib) (r : fwd) : Prop :=
  forall n f, In (n, f) (keys r) ->
    ~ neighbour (f_adl s) n /\ (0 < f)%N /\ exists u, In u (fib_faces s n) /\ get_face_id u (f_adl s) = f.

Lemma update_backed c s r n hops flags : faces_differ (f_adl s) -> base_inv (map a_name (f_adl s)) s -> backed s r ->
  backed (fst (fib_update c n hops flags s)) (fold_left fwd_do (snd (fib_update c n hops flags s)) r).
Proof. intros Hd (Hok & _ & Hnb) A.
  pose proof (@fib_update_spec c n hops flags s Hok) as (U1 & U2 & U3 & U4 & U5).
  destruct (hops_to_add c hops) as [|x new] eqn:En.
  - specialize (U5 eq_refl). rewrite (surjective_pairing (fib_update c n hops flags s)) in U5 at 1.
    assert (E1 : fst (fib_update c n hops flags s) = fst (fib_remove n s)) by now rewrite <- U5.
    assert (E2 : snd (fib_update c n hops flags s) = snd (fib_remove n s)) by now rewrite <- U5.
    rewrite E1, E2. clear U1 U2 U3 U4 U5 E1 E2 En.
    destruct (remove_spec n s) as (R0 & _ & _ & R1 & R2 & R3).
    destruct (not_neighbor n s) eqn:Enn.
    + destruct (R2 eq_refl) as [R4 R5]. rewrite R5. intros m f. rewrite unregs_routes, R0. intros [B C].
      destruct (A m f B) as (B1 & B2 & u & B3 & B4). split; [exact B1|]. split; [exact B2|]. exists u. split; [|exact B4].
      unfold fib_faces in *. destruct (eq_dec m n) as [->|Hm]; [|now rewrite R1].
      exfalso. apply C. split; [reflexivity|]. exists u. unfold entry_hops. destruct (get n (f_tab s)); [auto|contradiction].
    + destruct (R3 eq_refl) as [R4 R5]. rewrite R5. simpl. rewrite R4. exact A.
  - rewrite <- En in *. clear U5. destruct (U4 ltac:(congruence)) as (e' & E1 & E2 & E3 & _ & E4). clear U4.
    assert (Hne : hops <> []) by (intros H; apply (hops_to_add_nil c) in H; congruence).
    destruct (@update_hops c n hops flags s Hok Hne) as (e2 & F1 & F2 & F3 & _).
    rewrite F1 in E1. injection E1 as ->.
    rewrite <- routes_from_anon, E4. intros m f. rewrite U1. unfold fib_faces.
    destruct (not_neighbor n s) eqn:Enn.
    + rewrite fold_left_app.
      assert (G : exists gone, (match get n (f_tab s) with
             | Some _ => unregs n (f_adl s) (map nh_uri (uri_diff (addus (hops_to_add c hops) (entry_hops s n)) (hops_to_add c hops)))
             | None => [] end) = unregs n (f_adl s) gone /\
             forall u, In u gone <-> In u (fib_faces s n) /\ ~ In u (map nh_uri (hops_to_add c hops))).
      { destruct (get n (f_tab s)) as [e|] eqn:Eg.
        - eexists. split; [reflexivity|]. destruct (Hok n e Eg) as [V _].
          unfold entry_hops, fib_faces. rewrite Eg. apply (@merge_spec (fe_hops e) _ V (hops_to_add_valid c hops)).
        - exists []. split; [reflexivity|]. unfold fib_faces. rewrite Eg. simpl. tauto. }
      destruct G as (gone & -> & Hg). rewrite unregs_routes, regs_routes. intros [[B|(-> & h & B & C & D)] N].
      * destruct (A m f B) as (B1 & B2 & u & B3 & B4). split; [exact B1|]. split; [exact B2|]. exists u. split; [|exact B4].
        destruct (eq_dec m n) as [->|Hm]; [|rewrite U3 by exact Hm; exact B3].
        rewrite F1. apply F3.
        destruct (in_dec string_dec u (map nh_uri (hops_to_add c hops))) as [Hi|Hi]; [exact Hi|].
        exfalso. apply N. split; [reflexivity|]. exists u. split; [apply Hg; split; assumption|auto].
      * apply not_neighbor_spec in Enn. split; [exact Enn|]. split; [exact D|]. exists (nh_uri h). rewrite F1.
        split; [|exact C]. apply F3. now apply in_map.
    + simpl. intros B. destruct (A m f B) as (B1 & B2 & u & B3 & B4). split; [exact B1|]. split; [exact B2|].
      exists u. split; [|exact B4]. destruct (eq_dec m n) as [->|Hm]; [|rewrite U3 by exact Hm; exact B3].
      exfalso. apply B1. unfold not_neighbor in Enn. apply negb_false_iff in Enn. now apply is_neighbor_spec. Qed.

Lemma wstep_backed c l s r e : orderly1 s e -> faces_ok (f_adl s) -> base_inv (map a_name l) s -> backed s r ->
  let w := wstep c (s, r) e in faces_ok (f_adl (fst w)) /\ base_inv (map a_name l) (fst w) /\ backed (fst w) (snd w).
Proof. intros Ho Hf Hb A. destruct e as [e|f|u f]; cbn [wstep].
  - assert (Hk : keeps_names (map a_name l) e) by (destruct e; simpl in *; tauto).
    assert (Hd : faces_differ (f_adl s)) by (apply faces_differ_intro, Hf).
    pose proof (@base_inv_step c s e _ Hk Hb) as Hb'.
    assert (Hs : f_adl (fst (fstep c s e)) = f_adl s /\ backed (fst (fstep c s e)) (fold_left fwd_do (snd (fstep c s e)) r)).
    { destruct e; try contradiction; cbn [fstep] in *.
      - split; [apply (@fib_update_spec c n hops flags s (proj1 Hb))|]. apply update_backed; [exact Hd| |exact A].
        destruct Hb as (B1 & B2 & B3). rewrite B2. split; [exact B1|]. split; assumption.
      - destruct (remove_spec n s) as (R0 & _ & _ & R1 & R2 & R3). split; [exact R0|].
        destruct (not_neighbor n s) eqn:Enn.
        + destruct (R2 eq_refl) as [R4 R5]. rewrite R5. intros m f. rewrite unregs_routes, R0. intros [B C].
          destruct (A m f B) as (B1 & B2 & u & B3 & B4). split; [exact B1|]. split; [exact B2|]. exists u. split; [|exact B4].
          unfold fib_faces in *. destruct (eq_dec m n) as [->|Hm]; [|now rewrite R1].
          exfalso. apply C. split; [reflexivity|]. exists u. unfold entry_hops. destruct (get n (f_tab s)); [auto|contradiction].
        + destruct (R3 eq_refl) as [R4 R5]. rewrite R5. simpl. rewrite R4. exact A.
      - destruct (refresh_spec c n s) as (R0 & _ & B & [(B1 & B2 & _)|(e & due & flags & B1 & B2 & B3 & B4 & B5)]).
        + split; [exact R0|]. rewrite B1, B2. exact A.
        + split; [exact R0|]. rewrite <- routes_from_anon, B5. intros m f. rewrite regs_routes, R0.
          unfold fib_faces. intros [C|(-> & h & C & D & E)].
          * destruct (A m f C) as (C1 & C2 & u & C3 & C4). split; [exact C1|]. split; [exact C2|]. exists u. split; [|exact C4].
            unfold fib_faces in C3. destruct (eq_dec m n) as [->|Hm]; [|now rewrite B].
            rewrite B4. cbn [fe_hops]. now rewrite B1 in C3.
          * rewrite B4. cbn [fe_hops]. destruct Hb as (_ & N1 & N2). split.
            -- unfold neighbour. rewrite N1. intros Hi. apply (N2 n e B1) in Hi. congruence.
            -- split; [exact E|]. exists (nh_uri h). split; [now apply in_map|exact D].
      - split; [reflexivity|exact A]. }
    destruct (fstep c s e) as [s' o]. cbn [fst snd] in *. destruct Hs as [H1 H2]. rewrite H1. auto.
  - cbn [fstep fst snd f_adl wf_adl]. simpl in Ho. split; [apply faces_ok_up; auto|].
    split.
    + apply (@base_inv_step c s (FvAdl _)); [|exact Hb]. simpl. rewrite upd_first_names by reflexivity. apply Hb.
    + intros n g Hi. apply in_map_iff in Hi as ([[n' g'] v] & E & Hi). simpl in E. injection E as -> ->.
      apply filter_In in Hi as [Hi Hg]. simpl in Hg. apply negb_true_iff, N.eqb_neq in Hg.
      destruct (A n g) as (B1 & B2 & u & B3 & B4).
      { change (n, g) with (fst ((n, g), v)). now apply in_map. }
      unfold neighbour. cbn [f_adl wf_adl]. rewrite upd_first_names by reflexivity. split; [exact B1|]. split; [exact B2|].
      exists u. split; [exact B3|]. now apply face_id_down.
  - cbn [fstep fst snd f_adl wf_adl]. destruct Ho as (O1 & O2 & O3). split; [apply faces_ok_up; auto|]. split.
    + apply (@base_inv_step c s (FvAdl _)); [|exact Hb]. simpl. rewrite upd_first_names by reflexivity. apply Hb.
    + intros n g Hi. destruct (A n g Hi) as (B1 & B2 & v & B3 & B4).
      unfold neighbour. cbn [f_adl wf_adl]. rewrite upd_first_names by reflexivity. split; [exact B1|]. split; [exact B2|].
      exists v. split; [exact B3|]. now apply face_id_up. Qed.

(** When faces come and go, the forwarder never keeps a route that the FIB does not have: every route is
    for a face of the prefix's FIB entry. *)
Theorem C35_no_stale c l t0 evs n f :
  NoDup (map a_uri l) -> NoDup (filter (fun f => (0 <? f)%N) (map a_face l)) ->
  orderly c (fib_init l t0, []) evs ->
  let (s, r) := world c l t0 evs in
  In (n, f) (keys r) ->
  ~ neighbour (f_adl s) n /\ (0 < f)%N /\ exists u, In u (fib_faces s n) /\ get_face_id u (f_adl s) = f.
Proof. intros H1 H2. unfold world.
  assert (G : forall evs s r, faces_ok (f_adl s) -> base_inv (map a_name l) s -> backed s r -> orderly c (s, r) evs ->
    let (s', r') := fold_left (wstep c) evs (s, r) in backed s' r').
  { clear. induction evs as [|e evs IH]; intros s r F B A O; [exact A|]. destruct O as [O1 O2]. cbn [fst] in O1.
    destruct (@wstep_backed c l s r e O1 F B A) as (F' & B' & A'). cbn [fold_left].
    destruct (wstep c (s, r) e) as [s1 r1]. cbn [fst snd] in *. now apply IH. }
  intros O. specialize (G evs (fib_init l t0) []).
  change (fold_left (wstep c) evs (fib_init l t0, [])) with (world c l t0 evs) in *.
  destruct (world c l t0 evs) as [s r]. intros Hi.
  assert (Bk : backed s r); [apply G|exact (Bk n f Hi)]; [| | |exact O].
  - split; assumption.
  - apply (@base_inv_fstate c l t0 []). constructor.
  - intros m g []. Qed.

Example C35_world_ex :
  orderly fcX (fib_init adlX 0, [])
    [WFib (FvUpdate pX hopsX 1); WDown 8; WFib (FvUpdate qX hopsX 1); WUp "udp4://2" 9]%string /\
  snd (world fcX adlX 0 [WFib (FvUpdate pX hopsX 1); WDown 8; WFib (FvUpdate qX hopsX 1); WUp "udp4://2" 9]%string)
  = [((pX, 7%N), (5, 1%N)); ((qX, 7%N), (5, 1%N))].
Proof. split.
  - cbn [orderly orderly1]. split; [exact I|]. split; [reflexivity|]. split; [exact I|]. split; [|exact I].
    split; [reflexivity|]. split; [|vm_compute; reflexivity]. vm_compute. intuition discriminate.
  - vm_compute. reflexivity. Qed.

(** The other direction fails when a face appears: the FIB lists the face, the forwarder has no route on it,
    until the next update or refresh. *)
Theorem C35_new_face_refuted : exists c l t0 evs n u,
  NoDup (map a_uri l) /\ orderly c (fib_init l t0, []) evs /\
  let (s, r) := world c l t0 evs in
  ~ neighbour (f_adl s) n /\ In u (fib_faces s n) /\ (0 < get_face_id u (f_adl s))%N /\
  ~ In (n, get_face_id u (f_adl s)) (keys r).
Proof. exists fcX, adlX, 0, [WFib (FvUpdate pX hopsX 1); WDown 8; WUp "udp4://2" 9]%string, pX, "udp4://2"%string.
  split; [vm_compute; repeat constructor; simpl; intuition discriminate|]. split.
  - cbn [orderly orderly1]. split; [exact I|]. split; [reflexivity|]. split; [|exact I].
    split; [reflexivity|]. split; [|vm_compute; reflexivity]. vm_compute. intuition discriminate.
  - vm_compute. split; [intuition discriminate|]. split; [auto|]. split; [reflexivity|]. intuition discriminate. Qed.

(** Both fail when a registration is refused and retried after the prefix was removed: the last command
    registers a route for a prefix that is not in the FIB, and no later event withdraws it. *)
Theorem C35_retry_refuted : exists c l t0 evs n f,
  fib_faces (fstate c l t0 evs) n = [] /\ f_tab (fstate c l t0 evs) = [] /\
  (exists id cost ttl flags o, fouts c l t0 evs = o ++ [FReg id n f cost ttl flags]) /\
  In (n, f) (keys (routes (fouts c l t0 evs))) /\
  forall more, Forall (fun e => match e with FvRemove _ | FvRefresh _ | FvTime _ => True | _ => False end) more ->
    In (n, f) (keys (routes (fouts c l t0 (evs ++ more)))).
Proof. exists fcX, adlX, 0, [FvUpdate pX [hX "udp4://2" 3] 1; FvRemove pX; FvRegFail 0]%string, pX, 8%N.
  set (evs := [FvUpdate pX [hX "udp4://2" 3] 1; FvRemove pX; FvRegFail 0]%string).
  assert (E : f_tab (fstate fcX adlX 0 evs) = []) by (vm_compute; reflexivity).
  assert (R : In (pX, 8%N) (keys (routes (fouts fcX adlX 0 evs)))) by (vm_compute; auto).
  split; [vm_compute; reflexivity|]. split; [exact E|]. split.
  - exists 1%nat, 3, 3610000, 1%N, [FReg 0 pX 8 3 3610000 1; FUnreg pX 8]. vm_compute. reflexivity.
  - split; [exact R|]. intros more. induction more as [|e more IH] using rev_ind; intros H; [now rewrite app_nil_r|].
    apply Forall_app in H as [H1 H2]. inversion H2 as [|? ? He _]; subst.
    assert (T : f_tab (fstate fcX adlX 0 (evs ++ more)) = [] /\ fsent fcX adlX 0 (evs ++ more) e = []).
    { assert (T : f_tab (fstate fcX adlX 0 (evs ++ more)) = []).
      { clear IH H2 He. induction more as [|x more IH] using rev_ind; [now rewrite app_nil_r|].
        apply Forall_app in H1 as [H1 H2]. inversion H2 as [|? ? Hx _]; subst. rewrite app_assoc, fstate_snoc.
        specialize (IH H1). destruct x; try contradiction; cbn [fstep].
        - unfold fib_remove. rewrite IH. exact IH.
        - unfold fib_refresh. rewrite IH. exact IH.
        - exact IH. }
      split; [exact T|]. unfold fsent. destruct e; try contradiction; cbn [fstep].
      - unfold fib_remove. now rewrite T.
      - unfold fib_refresh. now rewrite T.
      - reflexivity. }
    rewrite app_assoc, fouts_snoc. destruct T as [_ T]. rewrite T, app_nil_r. auto. Qed.

Print Assumptions C35_no_stale.
Print Assumptions C35_new_face_refuted.
Print Assumptions C35_retry_refuted.

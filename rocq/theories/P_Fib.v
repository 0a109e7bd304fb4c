(** FIB properties C34, C35, C37. *)
From Coq Require Import Sorting.Permutation Sorting.Sorted.
From Verif Require Import Base M_Nexthop L_Nexthop M_Adj M_Fib S_Fib L_Fib.
Open Scope Z_scope.

(** ** Example configuration: two neighbours with faces, one without. *)
Definition aX : name := nm ["net"; "a"]%string.
Definition bX : name := nm ["net"; "b"]%string.
Definition dX : name := nm ["net"; "d"]%string.
Definition pX : name := nm ["video"]%string.
Definition qX : name := nm ["audio"]%string.
Definition adlX : adl :=
  [Adj aX "udp4://1" (of_int 10) SActive 0 7; Adj bX "udp4://2" (of_int 10) SActive 0 8;
   Adj dX "udp4://3" (of_int 10) SInactive 0 0]%string.
Definition fcX : fconf := FConf 1800 2.
Definition hX (u : uri) (k : Z) : nexthop := mk_nh u (of_int k).
Definition hopsX : nhl := [hX "udp4://2" 3; hX "udp4://1" 5; hX "udp4://3" 9]%string.

(** ** C34 *)

Lemma hops_to_add_cheapest c hops : is_nhl hops ->
  exists chosen, cheapest (fc_max c) hops chosen /\ Permutation (hops_to_add c hops) chosen.
Proof. intros H. exists (firstn (wanted (fc_max c) (length hops)) hops). split; [now apply cheapest_firstn|].
  apply hops_to_add_perm. apply H. Qed.

Lemma perm_uris a b : uvalid a -> uvalid b -> (forall u, In u (map nh_uri a) <-> In u (map nh_uri b)) ->
  Permutation (map nh_uri a) (map nh_uri b).
Proof. intros [_ Ha] [_ Hb] H. now apply NoDup_Permutation. Qed.

(** After an update of a prefix that is not the name of a neighbour, the FIB holds exactly the faces
    of the cheapest next hops offered, as many as the limit allows. *)
Theorem C34_cheapest c l t0 evs n hops flags :
  is_nhl hops -> ~ neighbour (f_adl (fstate c l t0 evs)) n ->
  exists chosen, cheapest (fc_max c) hops chosen /\
    Permutation (fib_faces (fstate c l t0 (evs ++ [FvUpdate n hops flags])) n) (map nh_uri chosen).
Proof. intros Hh Hn. destruct (@hops_to_add_cheapest c hops Hh) as (chosen & C & P). exists chosen. split; [exact C|].
  rewrite fstate_snoc. cbn [fstep]. set (s := fstate c l t0 evs) in *.
  pose proof (fstate_tab_ok c l t0 evs) as Hok. fold s in Hok.
  rewrite <- P. destruct hops as [|h hops].
  - pose proof (@fib_update_spec c n [] flags s Hok) as (_ & _ & _ & _ & A).
    assert (E : hops_to_add c [] = []) by now apply hops_to_add_nil. rewrite E.
    specialize (A E). apply (f_equal fst) in A. cbn [fst] in A. rewrite A.
    destruct (remove_spec n s) as (_ & _ & _ & _ & R & _). apply not_neighbor_spec in Hn.
    destruct (R Hn) as [R' _]. unfold fib_faces. rewrite R'. constructor.
  - destruct (@update_hops c n (h :: hops) flags s Hok ltac:(discriminate)) as (e' & E & V & U & _).
    unfold fib_faces. rewrite E. apply perm_uris; [exact V|apply hops_to_add_valid|exact U]. Qed.

(** The commands of an update: one registration for each chosen hop whose face exists, with its cost
    and the given flags and a lifetime of twice the refresh interval and ten seconds; one
    unregistration for each face that is no longer chosen; nothing else. *)
Theorem C34_commands c l t0 evs n hops flags :
  is_nhl hops -> let s := fstate c l t0 evs in let o := fsent c l t0 evs (FvUpdate n hops flags) in
  ~ neighbour (f_adl s) n ->
  exists chosen, cheapest (fc_max c) hops chosen /\
    (forall id m f cost ttl fl, In (FReg id m f cost ttl fl) o ->
       m = n /\ fl = flags /\ ttl = (2 * fc_refresh c + 10) * 1000 /\
       exists h, In h chosen /\ f = get_face_id (nh_uri h) (f_adl s) /\ cost = adj_int h) /\
    (forall h, In h chosen -> (0 < get_face_id (nh_uri h) (f_adl s))%N ->
       exists id, In (FReg id n (get_face_id (nh_uri h) (f_adl s)) (adj_int h)
                           ((2 * fc_refresh c + 10) * 1000) flags) o) /\
    (forall m f, In (FUnreg m f) o <->
       m = n /\ (0 < f)%N /\ exists u, In u (fib_faces s n) /\ ~ In u (map nh_uri chosen) /\
         f = get_face_id u (f_adl s)) /\
    (forall x, In x o -> (exists id m f cost ttl fl, x = FReg id m f cost ttl fl) \/ (exists m f, x = FUnreg m f)).
Proof. intros Hh s o Hn. destruct (@hops_to_add_cheapest c hops Hh) as (chosen & C & P). exists chosen. split; [exact C|].
  pose proof (fstate_tab_ok c l t0 evs) as Hok. fold s in Hok.
  apply not_neighbor_spec in Hn.
  assert (Ho : exists gone, map anon o = regs n (fib_ttl c) flags (f_adl s) (hops_to_add c hops) ++ unregs n (f_adl s) gone /\
     forall u, In u gone <-> In u (fib_faces s n) /\ ~ In u (map nh_uri (hops_to_add c hops))).
  { unfold o, fsent. fold s. cbn [fstep]. pose proof (@fib_update_spec c n hops flags s Hok) as (_ & _ & _ & A & B).
    destruct (hops_to_add c hops) as [|x new] eqn:En.
    - specialize (B eq_refl). apply (f_equal snd) in B. cbn [snd] in B. rewrite B.
      destruct (remove_spec n s) as (_ & _ & _ & _ & R & _). destruct (R Hn) as [_ R'].
      exists (fib_faces s n). split.
      + rewrite R', unregs_anon. simpl. unfold fib_faces, entry_hops. now destruct (get n (f_tab s)).
      + intros u. simpl. tauto.
    - rewrite <- En in *. destruct (A ltac:(congruence)) as (e' & _ & _ & _ & _ & E). rewrite Hn in E.
      destruct (get n (f_tab s)) as [e|] eqn:Eg.
      + exists (map nh_uri (uri_diff (addus (hops_to_add c hops) (entry_hops s n)) (hops_to_add c hops))).
        split; [exact E|]. destruct (Hok n e Eg) as [V _]. unfold entry_hops, fib_faces. rewrite Eg.
        apply (@merge_spec (fe_hops e) _ V (hops_to_add_valid c hops)).
      + exists []. split; [exact E|]. intros u. unfold fib_faces. rewrite Eg. simpl. tauto. }
  destruct Ho as (gone & Ho & Hg).
  assert (Hp : forall h, In h (hops_to_add c hops) <-> In h chosen).
  { intros h. split; intros H; [now apply (Permutation_in h P)|now apply (Permutation_in h (Permutation_sym P))]. }
  assert (Hpu : forall u, In u (map nh_uri (hops_to_add c hops)) <-> In u (map nh_uri chosen)).
  { intros u. split; intros H; [now apply (Permutation_in u (Permutation_map nh_uri P))
                               |now apply (Permutation_in u (Permutation_map nh_uri (Permutation_sym P)))]. }
  split; [|split; [|split]].
  - intros id m f cost ttl fl H. apply in_anon in H. rewrite Ho in H. cbn [anon] in H.
    apply in_app_or in H as [H|H].
    + apply in_regs_iff in H as (h & Hh' & _ & [= -> -> -> -> ->]). split; [reflexivity|]. split; [reflexivity|].
      split; [reflexivity|]. exists h. split; [now apply Hp|auto].
    + apply in_unregs_iff in H as (u & _ & _ & H). discriminate.
  - intros h Hc Hf. assert (H : In (FReg 0 n (get_face_id (nh_uri h) (f_adl s)) (adj_int h) (fib_ttl c) flags) (map anon o)).
    { rewrite Ho. apply in_or_app. left. apply in_regs_iff. exists h. split; [now apply Hp|auto]. }
    apply in_map_iff in H as (x & Ex & Hx). destruct x; try discriminate. cbn [anon] in Ex.
    injection Ex as -> -> -> -> ->. exists id. exact Hx.
  - intros m f. split.
    + intros H. apply in_anon in H. rewrite Ho in H. cbn [anon] in H. apply in_app_or in H as [H|H].
      * apply in_regs_iff in H as (h & _ & _ & H). discriminate.
      * apply in_unregs_iff in H as (u & Hu & Hf & [= -> ->]). split; [reflexivity|]. split; [exact Hf|].
        exists u. apply Hg in Hu. rewrite Hpu in Hu. tauto.
    + intros (-> & Hf & u & H1 & H2 & ->).
      assert (H : In (FUnreg n (get_face_id u (f_adl s))) (map anon o)).
      { rewrite Ho. apply in_or_app. right. apply in_unregs_iff. exists u. rewrite Hg, Hpu. auto. }
      apply in_map_iff in H as (x & Ex & Hx). destruct x; try discriminate. cbn [anon] in Ex. now injection Ex as -> ->.
  - intros x Hx. apply in_anon in Hx. rewrite Ho in Hx. apply in_app_or in Hx as [H|H].
    + apply in_regs_iff in H as (h & _ & _ & H). destruct x; try discriminate. left. eauto 10.
    + apply in_unregs_iff in H as (h & _ & _ & H). destruct x; try discriminate. right. eauto. Qed.

(** Non-vacuous: three hops offered, two kept, and a later update replaces one of them. *)
Example C34_ex : is_nhl hopsX /\ ~ neighbour adlX pX /\
  fib_faces (fstate fcX adlX 0 [FvUpdate pX hopsX 1]) pX = ["udp4://1"; "udp4://2"]%string /\
  fsent fcX adlX 0 [FvUpdate pX hopsX 1] (FvUpdate pX [hX "udp4://2" 4] 1)%string
  = [FReg 2 pX 8 4 3610000 1; FUnreg pX 7].
Proof. split; [|split; [|split]].
  - split; [vm_compute; repeat constructor; discriminate|].
    vm_compute. repeat constructor; simpl; intuition discriminate.
  - vm_compute. intuition discriminate.
  - vm_compute. reflexivity.
  - vm_compute. reflexivity. Qed.

(** For a prefix that is the name of a neighbour the claim fails: an update that offers no hop leaves the
    old ones in the FIB (nothing is registered for them). *)
Theorem C34_neighbour_refuted : exists c l t0 evs n hops flags,
  is_nhl hops /\ neighbour l n /\ hops = [] /\
  fib_faces (fstate c l t0 (evs ++ [FvUpdate n hops flags])) n <> [].
Proof. exists fcX, adlX, 0, [FvUpdate aX hopsX 1], aX, [], 1%N. split; [|split; [|split]].
  - split; constructor.
  - now left.
  - reflexivity.
  - vm_compute. discriminate. Qed.

(** ** C35 *)

Lemma upd_first_same u f l : get_face_id u l = f -> upd_first (fun a => eqb (a_uri a) u) (set_face f) l = l.
Proof. unfold get_face_id. induction l as [|a l IH]; simpl; [reflexivity|].
  destruct (eqb (a_uri a) u); intros H; [|now rewrite IH]. rewrite <- H. now destruct a. Qed.

Definition cmds_ok (l : adl) (s : fib) : Prop :=
  forall id r, get id (f_cmds s) = Some r -> get_face_id (rc_uri r) l = rc_face r.

Lemma register_cmds_ok n u cost ttl flags times s l : f_adl s = l -> cmds_ok l s ->
  cmds_ok l (fst (register n u cost ttl flags times s)).
Proof. intros Hl H. unfold register. rewrite Hl. destruct (0 <? get_face_id u l)%N; [|exact H].
  intros id r. cbn [fst f_cmds wf_cmds]. rewrite get_set. destruct (eqb id (f_next s)); [|apply H].
  intros [= <-]. reflexivity. Qed.

Lemma add_hops_cmds_ok c n reg flags l hops : forall set0 s set2 s2 o,
  add_fib_hops c n reg flags hops set0 s = (set2, s2, o) -> f_adl s = l -> cmds_ok l s -> cmds_ok l s2.
Proof. induction hops as [|h hops IH]; intros set0 s set2 s2 o; cbn [add_fib_hops].
  - intros [= <- <- <-]. auto.
  - intros E Hl Hc. destruct reg.
    + pose proof (register_spec n (nh_uri h) (adj_int h) (fib_ttl c) flags 0 s) as [(_ & R & _) _].
      pose proof (@register_cmds_ok n (nh_uri h) (adj_int h) (fib_ttl c) flags 0 s l Hl Hc) as R2.
      destruct (register n (nh_uri h) (adj_int h) (fib_ttl c) flags 0 s) as [s1 o1]. cbn [fst] in *.
      destruct (add_fib_hops c n true flags hops (nhl_addu h set0) s1) as [[set3 s3] o3] eqn:E3.
      injection E as <- <- <-. eapply IH; [exact E3|congruence|exact R2].
    + destruct (add_fib_hops c n false flags hops (nhl_addu h set0) s) as [[set3 s3] o3] eqn:E3.
      injection E as <- <- <-. eapply IH; eassumption. Qed.

Lemma refresh_hops_cmds_ok c n flags l hops : forall s,
  f_adl s = l -> cmds_ok l s -> cmds_ok l (fst (refresh_hops c n flags hops s)).
Proof. induction hops as [|h hops IH]; intros s Hl Hc; cbn [refresh_hops]; [exact Hc|].
  pose proof (register_spec n (nh_uri h) (adj_int h) (fib_ttl c) flags 0 s) as [(_ & R & _) _].
  pose proof (@register_cmds_ok n (nh_uri h) (adj_int h) (fib_ttl c) flags 0 s l Hl Hc) as R2.
  destruct (register n (nh_uri h) (adj_int h) (fib_ttl c) flags 0 s) as [s1 o1]. cbn [fst] in *.
  specialize (IH s1 ltac:(congruence) R2). destruct (refresh_hops c n flags hops s1). exact IH. Qed.

Lemma calm_adl c l s e : calm e -> f_adl s = l -> cmds_ok l s ->
  f_adl (fst (fstep c s e)) = l /\ cmds_ok l (fst (fstep c s e)).
Proof. intros Hc Hl Hk. destruct e; try contradiction; cbn [fstep].
  - unfold fib_update. destruct (get n (f_tab s)) as [e|] eqn:E, (hops_to_add c hops) as [|x new] eqn:En;
      try (unfold fib_remove; rewrite E; try destruct (not_neighbor n s); split; assumption).
    + destruct (add_fib_hops c n (not_neighbor n s) flags (x :: new) (fe_hops e) s) as [[st s1] o1] eqn:Ea.
      pose proof (@add_hops_cmds_ok _ _ _ _ l _ _ _ _ _ _ Ea Hl Hk) as K.
      apply add_fib_hops_spec in Ea as (_ & (_ & A & _) & _). cbn [fst].
      match goal with |- context [ensure_refresh c n flags ?q] =>
        destruct (ensure_refresh_spec c n flags q) as (B1 & _ & B2 & _) end.
      split; [rewrite B1; simpl; congruence|]. intros id r. rewrite B2. apply K.
    + destruct (add_fib_hops c n (not_neighbor n s) flags (x :: new) [] s) as [[st s1] o1] eqn:Ea.
      pose proof (@add_hops_cmds_ok _ _ _ _ l _ _ _ _ _ _ Ea Hl Hk) as K.
      apply add_fib_hops_spec in Ea as (_ & (_ & A & _) & _). cbn [fst].
      match goal with |- context [ensure_refresh c n flags ?q] =>
        destruct (ensure_refresh_spec c n flags q) as (B1 & _ & B2 & _) end.
      split; [rewrite B1; simpl; congruence|]. intros id r. rewrite B2. apply K.
  - destruct (remove_spec n s) as (A & _ & B & _). split; [congruence|]. intros id r. rewrite B. apply Hk.
  - split; [exact Hl|exact Hk].
  - unfold fib_refresh. destruct (get n (f_tab s)) as [e|]; [|split; assumption].
    destruct (fe_refresh e) as [[due flags]|]; [|split; assumption].
    destruct (due <=? f_now s); [|split; assumption].
    pose proof (refresh_hops_spec c n flags (fe_hops e) s) as [(_ & A & _) _].
    pose proof (@refresh_hops_cmds_ok c n flags l (fe_hops e) s Hl Hk) as K.
    destruct (refresh_hops c n flags (fe_hops e) s) as [s1 o]. cbn [fst] in *. split; [simpl; congruence|exact K].
  - unfold on_reg_ok. destruct (get id (f_cmds s)) as [r|] eqn:E; [|split; assumption]. cbn [fst f_adl wf_cmds wf_adl].
    split.
    + rewrite upd_first_same; [exact Hl|]. rewrite Hl. now apply (Hk id).
    + intros id' r'. cbn [f_cmds wf_cmds]. rewrite get_del. destruct (eqb id' id); [discriminate|]. apply Hk.
  - split; [exact Hl|exact Hk].
  - split; [exact Hl|exact Hk]. Qed.

Definition agree (l : adl) (s : fib) (r : fwd) : Prop :=
  forall n f, In (n, f) (keys r) <->
    ~ neighbour l n /\ (0 < f)%N /\ exists u, In u (fib_faces s n) /\ get_face_id u l = f.

Lemma agree_tab l s s' r : f_tab s' = f_tab s -> agree l s r -> agree l s' r.
Proof. intros H A n f. rewrite (A n f). unfold fib_faces. now rewrite H. Qed.

Lemma calm_agree c l s e r : calm e -> faces_differ l -> base_inv (map a_name l) s -> f_adl s = l ->
  agree l s r -> agree l (fst (fstep c s e)) (fold_left fwd_do (snd (fstep c s e)) r).
Proof. intros Hc Hd (Hok & _ & Hnb) Hl A. destruct e; try contradiction; cbn [fstep].
  - (* update *)
    pose proof (@fib_update_spec c n hops flags s Hok) as (U1 & U2 & U3 & U4 & U5).
    destruct (hops_to_add c hops) as [|x new] eqn:En.
    + specialize (U5 eq_refl). rewrite (surjective_pairing (fib_update c n hops flags s)) in U5 at 1.
      assert (E1 : fst (fib_update c n hops flags s) = fst (fib_remove n s)) by now rewrite <- U5.
      assert (E2 : snd (fib_update c n hops flags s) = snd (fib_remove n s)) by now rewrite <- U5.
      rewrite E1, E2. clear U1 U2 U3 U4 U5 E1 E2 En.
      destruct (remove_spec n s) as (_ & _ & _ & R1 & R2 & R3).
      destruct (not_neighbor n s) eqn:Enn.
      * destruct (R2 eq_refl) as [R4 R5]. rewrite R5. intros m f. rewrite unregs_routes, (A m f), Hl.
        unfold fib_faces. destruct (eq_dec m n) as [->|Hm].
        -- rewrite R4. unfold entry_hops. split.
           ++ intros [(B1 & B2 & u & B3 & B4) B5]. exfalso. apply B5. split; [reflexivity|]. exists u.
              destruct (get n (f_tab s)); [auto|contradiction].
           ++ intros (_ & _ & u & [] & _).
        -- rewrite R1 by exact Hm. split; [tauto|]. intros B. split; [exact B|]. intros [B' _]. contradiction.
      * destruct (R3 eq_refl) as [R4 R5]. rewrite R5. simpl. rewrite R4. exact A.
    + rewrite <- En in *. clear U5. destruct (U4 ltac:(congruence)) as (e' & E1 & E2 & E3 & _ & E4). clear U4.
      rewrite <- routes_from_anon, E4.
      assert (Hne : hops <> []) by (intros H; apply (hops_to_add_nil c) in H; congruence).
      destruct (@update_hops c n hops flags s Hok Hne) as (e2 & F1 & F2 & F3 & _).
      rewrite F1 in E1. injection E1 as ->.
      destruct (not_neighbor n s) eqn:Enn.
      * rewrite fold_left_app.
        assert (G : exists gone, (match get n (f_tab s) with
             | Some _ => unregs n (f_adl s) (map nh_uri (uri_diff (addus (hops_to_add c hops) (entry_hops s n)) (hops_to_add c hops)))
             | None => [] end) = unregs n l gone /\
             forall u, In u gone <-> In u (fib_faces s n) /\ ~ In u (map nh_uri (hops_to_add c hops))).
        { destruct (get n (f_tab s)) as [e|] eqn:Eg.
          - eexists. split; [rewrite Hl; reflexivity|]. destruct (Hok n e Eg) as [V _].
            unfold entry_hops, fib_faces. rewrite Eg. apply (@merge_spec (fe_hops e) _ V (hops_to_add_valid c hops)).
          - exists []. split; [reflexivity|]. unfold fib_faces. rewrite Eg. simpl. tauto. }
        destruct G as (gone & -> & Hg). intros m f. rewrite unregs_routes, regs_routes, (A m f), Hl.
        unfold fib_faces. destruct (eq_dec m n) as [->|Hm].
        -- rewrite F1. apply not_neighbor_spec in Enn. rewrite Hl in Enn. split.
           ++ intros [B1 B2]. split; [exact Enn|]. destruct B1 as [(_ & B3 & u & B4 & B5)|(_ & h & B4 & B5 & B6)].
              ** split; [exact B3|]. exists u. split; [|exact B5]. apply F3.
                 destruct (in_dec string_dec u (map nh_uri (hops_to_add c hops))) as [Hi|Hi]; [exact Hi|].
                 exfalso. apply B2. split; [reflexivity|]. exists u. split; [apply Hg; split; assumption|auto].
              ** split; [exact B6|]. exists (nh_uri h). split; [|exact B5]. apply F3. now apply in_map.
           ++ intros (_ & B1 & u & B2 & B3). apply F3 in B2. split.
              ** right. split; [reflexivity|]. apply in_map_iff in B2 as (h & <- & Hh). exists h. auto.
              ** intros (_ & v & Hv & Ev & _). apply Hg in Hv as [_ Hv]. apply Hv.
                 replace v with u; [exact B2|]. apply Hd; [congruence|congruence].
        -- rewrite U3 by exact Hm. split.
           ++ intros [[B1|[B1 _]] _]; [exact B1|contradiction].
           ++ intros B. split; [now left|]. intros [B' _]. contradiction.
      * simpl. intros m f. rewrite (A m f). unfold fib_faces. destruct (eq_dec m n) as [->|Hm].
        -- assert (Hnn : neighbour l n).
           { rewrite <- Hl. unfold not_neighbor in Enn. apply negb_false_iff in Enn. now apply is_neighbor_spec. }
           tauto.
        -- rewrite U3 by exact Hm. tauto.
  - (* remove *)
    destruct (remove_spec n s) as (_ & _ & _ & R1 & R2 & R3).
    destruct (not_neighbor n s) eqn:Enn.
    + destruct (R2 eq_refl) as [R4 R5]. rewrite R5. intros m f. rewrite unregs_routes, (A m f), Hl.
      unfold fib_faces. destruct (eq_dec m n) as [->|Hm].
      * rewrite R4. unfold entry_hops. split.
        -- intros [(B1 & B2 & u & B3 & B4) B5]. exfalso. apply B5. split; [reflexivity|]. exists u.
           destruct (get n (f_tab s)); [auto|contradiction].
        -- intros (_ & _ & u & [] & _).
      * rewrite R1 by exact Hm. split; [tauto|]. intros B. split; [exact B|]. intros [B' _]. contradiction.
    + destruct (R3 eq_refl) as [R4 R5]. rewrite R5. simpl. rewrite R4. exact A.
  - exact A.
  - (* refresh *)
    destruct (refresh_spec c n s) as (_ & _ & B & [(B1 & B2 & _)|(e & due & flags & B1 & B2 & B3 & B4 & B5)]).
    + rewrite B1, B2. exact A.
    + rewrite <- routes_from_anon, B5. intros m f. rewrite regs_routes, (A m f), Hl.
      unfold fib_faces. destruct (eq_dec m n) as [->|Hm].
      * rewrite B1, B4. simpl. split; [|tauto].
        intros [B6|(_ & h & B6 & B7 & B8)]; [exact B6|].
        destruct (in_dec eq_dec n (map a_name l)) as [Hn|Hn].
        2:{ split; [exact Hn|]. split; [exact B8|]. exists (nh_uri h). split; [now apply in_map|exact B7]. }
        exfalso. apply (Hnb n e B1) in Hn. congruence.
      * rewrite B by exact Hm. split; [|tauto]. intros [B6|[B6 _]]; [exact B6|contradiction].
  - unfold on_reg_ok. destruct (get id (f_cmds s)); [|exact A]. simpl. exact A.
  - exact A.
  - exact A.
Qed.

Lemma calm_keeps l e : calm e -> keeps_names (map a_name l) e.
Proof. destruct e; simpl; tauto. Qed.

Lemma calm_run c l t0 evs : Forall calm evs -> faces_differ l ->
  base_inv (map a_name l) (fstate c l t0 evs) /\ f_adl (fstate c l t0 evs) = l /\ cmds_ok l (fstate c l t0 evs) /\ agree l (fstate c l t0 evs) (routes (fouts c l t0 evs)).
Proof. intros H Hd. induction evs as [|e evs IH] using rev_ind.
  - rewrite fstate_nil. split; [apply (@base_inv_fstate c l t0 []); constructor|]. split; [reflexivity|].
    split; [intros id r; discriminate|]. intros n f. simpl. split; [tauto|]. intros (_ & _ & u & [] & _).
  - apply Forall_app in H as [H1 H2]. inversion H2 as [|? ? He _]; subst.
    destruct (IH H1) as (A & B & D & E). rewrite fstate_snoc.
    destruct (@calm_adl c l _ e He B D) as [F G].
    split; [apply base_inv_step; [now apply calm_keeps|exact A]|]. split; [exact F|]. split; [exact G|].
    rewrite fouts_snoc. unfold routes, fsent. rewrite fold_left_app. now apply calm_agree. Qed.

(** While the forwarder accepts the commands and the faces stay, the forwarder has, for every prefix, exactly
    the faces of the FIB entry that exist; nothing for the names of neighbours. *)
Theorem C35_agree c l t0 evs n f : Forall calm evs -> faces_differ l ->
  (In (n, f) (keys (routes (fouts c l t0 evs))) <->
   ~ neighbour l n /\ (0 < f)%N /\ exists u, In u (fib_faces (fstate c l t0 evs) n) /\ get_face_id u l = f).
Proof. intros H Hd. destruct (@calm_run c l t0 evs H Hd) as (_ & _ & _ & A). apply A. Qed.

Lemma faces_differ_intro l : NoDup (filter (fun f => (0 <? f)%N) (map a_face l)) -> faces_differ l.
Proof. intros H u v Hu He.
  assert (F : forall w, (0 < get_face_id w l)%N -> exists a, In a l /\ a_uri a = w /\ a_face a = get_face_id w l).
  { clear. intros w. unfold get_face_id. induction l as [|a l IH]; simpl; [lia|].
    eqb_case (a_uri a) w; [intros _; exists a; auto|]. intros Hw. destruct (IH Hw) as (b & B & C). exists b. auto. }
  destruct (F u Hu) as (a & A1 & A2 & A3). destruct (F v ltac:(lia)) as (b & B1 & B2 & B3).
  assert (Hp : (0 < a_face a)%N) by congruence.
  assert (Hab : a_face a = a_face b) by congruence. rewrite <- A2, <- B2. clear A2 B2 A3 B3 F He Hu. rename Hab into A3.
  induction l as [|x l IH]; [contradiction|]. simpl in H, A1, B1.
    destruct A1 as [->|A1], B1 as [->|B1]; [reflexivity| | |].
    + exfalso. destruct (0 <? a_face a)%N eqn:E; [|apply N.ltb_ge in E; lia]. inversion H as [|? ? Hx _]; subst.
      apply Hx. apply filter_In. split; [|exact E]. rewrite A3. now apply in_map.
    + exfalso. rewrite <- A3 in H. destruct (0 <? a_face a)%N eqn:E; [|apply N.ltb_ge in E; lia]. inversion H as [|? ? Hx _]; subst.
      apply Hx. apply filter_In. split; [|exact E]. now apply in_map.
    + destruct (0 <? a_face x)%N; [|auto]. inversion H; subst. auto. Qed.

Definition histX : list fev :=
  [FvUpdate pX hopsX 1; FvUpdate qX hopsX 1; FvRegOk 0; FvUpdate pX [hX "udp4://1" 4] 1; FvRemove qX]%string.

Example C35_ex : faces_differ adlX /\ Forall calm histX /\
  routes (fouts fcX adlX 0 histX) = [((pX, 7%N), (4, 1%N))].
Proof. split; [|split].
  - apply faces_differ_intro. vm_compute. repeat constructor; simpl; intuition discriminate.
  - unfold histX. repeat constructor.
  - vm_compute. reflexivity. Qed.

Print Assumptions C34_cheapest.
Print Assumptions C34_commands.
Print Assumptions C34_neighbour_refuted.
Print Assumptions C35_agree.

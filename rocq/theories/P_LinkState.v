(** Properties C21-C28: link-state route calculation. *)
From Coq Require Import Permutation Sorting.Sorted.
From Verif Require Import Base M_Nexthop M_LinkState S_Graph S_LinkState
  L_Dijkstra L_Matrix L_Nexthop L_LinkState L_LsTable L_Forward.
Open Scope Z_scope.

(** ** A concrete network used to show that hypotheses can be met *)
Definition rA := nm ["net"; "a"]%string.
Definition rB := nm ["net"; "b"]%string.
Definition rC := nm ["net"; "c"]%string.
Definition rD := nm ["net"; "d"]%string.
Definition ex_lsas : list adj_lsa :=
  [ AdjLsa rA [(rB, 10); (rC, 25)];
    AdjLsa rB [(rA, 12); (rC, 10); (rD, 5)];
    AdjLsa rC [(rA, 25); (rB, 10); (rD, 40)];
    AdjLsa rD [(rC, 40)] ].
Definition ex_adjs : list (name * uri) := [(rB, "udp4://10.0.0.2:6363"%string); (rC, "udp4://10.0.0.3:6363"%string)].

Ltac nodup := repeat (constructor; [simpl; intuition discriminate|]); try constructor.

Example ex_wf : wf_lsdb ex_lsas.
Proof. split.
  - nodup.
  - intros l Hl. simpl in Hl. repeat (destruct Hl as [<-|Hl]; [nodup|]). destruct Hl. Qed.

(** ** C21 *)
(** Every router mentioned in the LSDB has exactly one number, the numbers are 0..n-1, and the two
    look-ups are inverse to each other. *)
Theorem C21_numbering_bijection : forall lsas,
  let nmap := nm_from_adj lsas in
  (forall x, mentioned lsas x <-> exists i, nm_num nmap x = Some i) /\
  (forall i, (i < length nmap)%nat <-> exists x, nm_name nmap i = Some x) /\
  (forall x i, nm_num nmap x = Some i <-> nm_name nmap i = Some x).
Proof. intros lsas nmap. split; [|split].
  - intros x. rewrite <- nm_from_adj_In. split.
    + intros Hin. destruct (nm_num nmap x) as [i|] eqn:E; [eauto|]. apply nm_num_None in E. contradiction.
    + intros (i & Hi). apply nm_num_Some in Hi. eapply nth_error_In. exact Hi.
  - apply nm_name_lt.
  - intros x i. split; [apply nm_num_Some|]. apply nm_name_num. apply nm_from_adj_NoDup. Qed.

(** The numbering used for hyperbolic routing, from the origins of the Coordinate LSAs. *)
Theorem C21_numbering_bijection_coordinates : forall origins,
  let nmap := nm_from_coord origins in
  (forall x, In x origins <-> exists i, nm_num nmap x = Some i) /\
  (forall i, (i < length nmap)%nat <-> exists x, nm_name nmap i = Some x) /\
  (forall x i, nm_num nmap x = Some i <-> nm_name nmap i = Some x).
Proof. intros origins nmap.
  assert (Hin : forall x, In x nmap <-> In x origins).
  { intros x. unfold nmap, nm_from_coord. rewrite nm_adds_In. simpl. tauto. }
  split; [|split].
  - intros x. rewrite <- Hin. split.
    + intros Hx. destruct (nm_num nmap x) as [i|] eqn:E; [eauto|]. apply nm_num_None in E. contradiction.
    + intros (i & Hi). apply nm_num_Some in Hi. eapply nth_error_In. exact Hi.
  - apply nm_name_lt.
  - intros x i. split; [apply nm_num_Some|]. apply nm_name_num. apply nm_adds_NoDup. constructor. Qed.

Example C21_example : map (nm_num (nm_from_adj ex_lsas)) [rA; rB; rC; rD; nm ["net"; "e"]%string]
  = [Some 0; Some 1; Some 2; Some 3; None]%nat.
Proof. vm_compute. reflexivity. Qed.
Print Assumptions C21_numbering_bijection.
Print Assumptions C21_numbering_bijection_coordinates.

(** ** C22 *)
Theorem C22_matrix_symmetric_conservative : forall lsas u v i j, wf_lsdb lsas ->
  let nmap := nm_from_adj lsas in
  let m := make_matrix lsas nmap in
  nm_num nmap u = Some i -> nm_num nmap v = Some j ->
  mget m i j = mget m j i /\
  (forall c, usable lsas u v c <-> mget m i j = c /\ 0 <= c).
Proof. intros lsas u v i j Hw nmap m Hi Hj.
  apply nm_num_Some in Hi. apply nm_num_Some in Hj.
  destruct (make_matrix_shape lsas) as [Hl _]. fold nmap in Hl. fold m in Hl.
  assert (Hil : (i < length m)%nat) by (rewrite Hl; apply nm_name_lt; eauto).
  assert (Hjl : (j < length m)%nat) by (rewrite Hl; apply nm_name_lt; eauto).
  split.
  - assert (Hf : forall a b, (a < length nmap)%nat -> (b < length nmap)%nat ->
       mget m a b = fixv (mget (mat_fill nmap lsas (mat_init (length nmap))) a b)
                         (mget (mat_fill nmap lsas (mat_init (length nmap))) b a)).
    { intros a b. apply mat_fix_spec. apply mat_fill_shape. apply mat_init_shape. }
    rewrite !Hf by lia. apply fixv_comm.
  - intros c. rewrite <- (mlink_usable Hw i j c Hi Hj). fold nmap. fold m. unfold mlink. intuition. Qed.

Example C22_example :
  let nmap := nm_from_adj ex_lsas in let m := make_matrix ex_lsas nmap in
  mget m 0 1 = 12 /\ mget m 1 0 = 12 /\ mget m 1 3 = -12345 /\ mget m 2 3 = 40.
Proof. vm_compute. auto. Qed.
Print Assumptions C22_matrix_symmetric_conservative.

(** ** C23 *)
(** On any matrix, not only those built from an LSDB. *)
Theorem C23_distances_are_shortest : forall (m : matrix) (s t : nat),
  (s < length m)%nat -> (t < length m)%nat ->
  let d := dget (snd (dijkstra m s)) t in
  (forall c, shortest (mlink m) s t c -> c < INF_DISTANCE -> d = c) /\
  ((forall c, walk (mlink m) s t c -> INF_DISTANCE <= c) -> d = INF_DISTANCE) /\
  (d < INF_DISTANCE -> shortest (mlink m) s t d).
Proof. intros m s t Hs Ht d. destruct (@dijkstra_shortest m s t Hs Ht) as (D1 & D2 & D3). fold d in D1, D2, D3.
  split; [|split].
  - intros c Hc Hlt. destruct (Z.eq_dec d INF_DISTANCE) as [He|Hne].
    + pose proof (D2 He c (proj1 Hc)). lia.
    + exact (shortest_unique (D1 ltac:(lia)) Hc).
  - intros Hno. destruct (Z.eq_dec d INF_DISTANCE) as [He|Hne]; [exact He|].
    destruct (D1 ltac:(lia)) as [Hw _]. apply Hno in Hw. lia.
  - exact D1. Qed.

(** The same for the routing table: in single-path mode the recorded cost is the cheapest total
    cost in the LSDB's graph; destinations without a path below the infinity constant get no hop. *)
Theorem C23_route_costs : forall lsas self adjs, wf_lsdb lsas ->
  exists t, calc_link_state self 1 adjs lsas = Ok t /\
  forall dest, dest <> self ->
    (forall d, shortest (usable lsas) self dest d -> d < INF_DISTANCE ->
       map nh_cost (rt_hops t dest) = [of_int d]) /\
    ((forall d, walk (usable lsas) self dest d -> INF_DISTANCE <= d) -> rt_hops t dest = []) /\
    (forall h, In h (rt_hops t dest) -> exists d, nh_cost h = of_int d /\ shortest (usable lsas) self dest d).
Proof. intros lsas self adjs Hw. destruct (calc_single Hw self adjs) as (t & Ht & _ & H).
  exists t. split; [exact Ht|]. intros dest Hne.
  destruct (H dest Hne) as [(d & nb & c & Hsh & Hlt & _ & _ & _ & E)|(Hno & E)]; rewrite E; split; try split.
  - intros d' Hd' _. simpl. now rewrite (shortest_unique Hd' Hsh).
  - intros Hno. destruct Hsh as [Hwk _]. apply Hno in Hwk. lia.
  - intros h [<-|[]]. exists d. auto.
  - intros d Hsh Hlt. destruct Hsh as [Hwk _]. apply Hno in Hwk. lia.
  - reflexivity.
  - intros h []. Qed.

Example C23_example :
  match calc_link_state rA 1 ex_adjs ex_lsas with
  | Ok t => map (fun x => map (fun h => (nh_uri h, adj_int h)) (rt_hops t x)) [rA; rB; rC; rD]
  | _ => [] end
  = [[]; [("udp4://10.0.0.2:6363"%string, 12)]; [("udp4://10.0.0.2:6363"%string, 22)];
     [("udp4://10.0.0.2:6363"%string, 62)]].
Proof. vm_compute. reflexivity. Qed.
Print Assumptions C23_distances_are_shortest.
Print Assumptions C23_route_costs.

(** ** C24 *)
Theorem C24_next_hop_on_shortest_path : forall lsas self adjs, wf_lsdb lsas ->
  exists t, calc_link_state self 1 adjs lsas = Ok t /\
  forall dest d, dest <> self -> shortest (usable lsas) self dest d -> d < INF_DISTANCE ->
  exists nb c, nb <> self /\ usable lsas self nb c /\ walk (usable lsas) nb dest (d - c) /\
    rt_hops t dest = [mk_nh (face_of adjs nb) (of_int d)].
Proof. intros lsas self adjs Hw. destruct (calc_single Hw self adjs) as (t & Ht & _ & H).
  exists t. split; [exact Ht|]. intros dest d Hne Hsh Hlt.
  destruct (H dest Hne) as [(d' & nb & c & Hsh' & _ & Hnb & Hus & Hwk & E)|(Hno & E)].
  - rewrite (shortest_unique Hsh Hsh') in *. exists nb, c. auto.
  - destruct Hsh as [Hwk _]. apply Hno in Hwk. lia. Qed.

(** The walk over the parent table terminates for every matrix, source and destination. *)
Theorem C24_parent_walk_terminates : forall (m : matrix) (s t : nat),
  (s < length m)%nat -> (t < length m)%nat -> t <> s ->
  let pd := dijkstra m s in
  (exists h, get_next_hop (fst pd) t s = Some (Some h) /\ h <> s /\
     exists c w, mlink m s h c /\ walk (mlink m) h t w /\ shortest (mlink m) s t (c + w)) \/
  (get_next_hop (fst pd) t s = Some None /\ forall c, walk (mlink m) s t c -> INF_DISTANCE <= c).
Proof. intros m s t Hs Ht Hne pd. destruct (@dijkstra_shortest m s t Hs Ht) as (D1 & D2 & D3).
  destruct (@get_next_hop_spec m s t Hs Ht Hne) as [(Hd & h & Hg & Hhs & Hml & Hw)|(Hd & Hg)].
  - left. exists h. split; [exact Hg|]. split; [exact Hhs|].
    exists (mget m s h), (dget (snd pd) t - mget m s h). split; [exact Hml|]. split; [exact Hw|].
    replace (mget m s h + (dget (snd pd) t - mget m s h)) with (dget (snd pd) t) by lia. now apply D1.
  - right. split; [exact Hg|]. now apply D2. Qed.

Example C24_example : exists d, shortest (usable ex_lsas) rA rC d /\ d < INF_DISTANCE.
Proof. destruct (@shortest_exists ex_lsas rA rC 25 ex_wf) as (d & Hd & Hle).
  - replace 25 with (25 + 0) by reflexivity. apply walk_cons with (v := rC); [|constructor].
    exists 25, 25. repeat split; try lia.
    + exists (AdjLsa rA [(rB, 10); (rC, 25)]). simpl. auto.
    + exists (AdjLsa rC [(rA, 25); (rB, 10); (rD, 40)]). simpl. auto.
  - reflexivity.
  - exists d. split; [exact Hd|]. unfold INF_DISTANCE. lia. Qed.
Print Assumptions C24_next_hop_on_shortest_path.
Print Assumptions C24_parent_walk_terminates.

(** ** C25 *)
(** A hop for face [f] is recorded exactly if some neighbour behind [f] reaches the destination
    without coming back, and its cost is the smallest such cost. *)
Theorem C25_multipath_costs : forall lsas self adjs maxf, wf_lsdb lsas -> maxf <> 1%N ->
  exists t, calc_link_state self maxf adjs lsas = Ok t /\
  rt_hops t self = [] /\
  forall dest, dest <> self ->
    NoDup (map nh_uri (rt_hops t dest)) /\
    (forall f k, (exists h, In h (rt_hops t dest) /\ nh_uri h = f /\ nh_cost h = k) <->
       exists cost, k = of_int cost /\ cost < INF_DISTANCE /\
         via lsas (face_of adjs) self dest f cost /\
         forall cost', via lsas (face_of adjs) self dest f cost' -> cost <= cost').
Proof. intros lsas self adjs maxf Hw Hmax. destruct (calc_multi Hw self adjs Hmax) as (t & Ht & Hself & H).
  exists t. split; [exact Ht|]. split; [exact Hself|]. intros dest Hne.
  destruct (H dest Hne) as (V & A & B). split; [apply V|]. intros f k. split.
  - intros (h & Hin & <- & <-). destruct (A h Hin) as (_ & cost & Hc & Hv & Hlt). exists cost.
    split; [exact Hc|]. split; [exact Hlt|]. split; [exact Hv|]. intros cost' Hv'.
    destruct (Z.lt_ge_cases cost' INF_DISTANCE) as [Hl|Hl]; [|lia].
    destruct (B _ _ Hv' Hl) as (h' & Hin' & Hu' & Hle).
    assert (h' = h) by (exact (valid_unique _ _ V Hin' Hin Hu')). subst h'.
    rewrite Hc in Hle. exact (proj1 (of_int_le _ _) Hle).
  - intros (cost & -> & Hlt & Hv & Hmin). destruct (B _ _ Hv Hlt) as (h & Hin & Hu & Hle).
    exists h. split; [exact Hin|]. split; [exact Hu|].
    destruct (A h Hin) as (_ & cost' & Hc & Hv' & _). rewrite Hu in Hv'. apply Hmin in Hv'.
    rewrite Hc in Hle |- *. pose proof (proj1 (of_int_le _ _) Hle). f_equal. lia. Qed.

Example C25_example :
  match calc_link_state rA 0 ex_adjs ex_lsas with
  | Ok t => map (fun x => map (fun h => (nh_uri h, adj_int h)) (rt_hops t x)) [rA; rB; rC; rD]
  | _ => [] end
  = [[]; [("udp4://10.0.0.2:6363"%string, 12); ("udp4://10.0.0.3:6363"%string, 35)];
     [("udp4://10.0.0.2:6363"%string, 22); ("udp4://10.0.0.3:6363"%string, 25)];
     [("udp4://10.0.0.2:6363"%string, 62); ("udp4://10.0.0.3:6363"%string, 65)]].
Proof. vm_compute. reflexivity. Qed.
Print Assumptions C25_multipath_costs.

(** ** C26 *)
(** [lsdb r] is router [r]'s copy of the LSDB, in any order (the order decides how ties are
    broken); [adjs r] is its adjacency list, giving different neighbours different faces. *)
Theorem C26_no_forwarding_loops :
  forall (lsas : list adj_lsa) (lsdb : name -> list adj_lsa) (adjs : name -> list (name * uri))
         (tbl : name -> rtable),
  wf_lsdb lsas ->
  (forall u v c, usable lsas u v c -> u <> v -> 0 < c) ->
  (forall r, Permutation lsas (lsdb r)) ->
  let linked r nb := exists c, usable lsas r nb c in
  let face r nb := face_of (adjs r) nb in
  (forall r u v, linked r u -> linked r v -> face r u = face r v -> u = v) ->
  (forall r, calc_link_state r 1 (adjs r) (lsdb r) = Ok (tbl r)) ->
  forall r dest c, walk (usable lsas) r dest c -> c < INF_DISTANCE ->
    delivered tbl face linked dest r /\
    forall l, fwd_path tbl face linked dest r l -> NoDup (r :: l).
Proof. intros lsas lsdb adjs tbl Hw Hpos Hsame linked face Hf Ht r dest c Hwk Hlt.
  exact (@loop_free lsas Hw Hpos lsdb Hsame adjs Hf tbl Ht r dest c Hwk Hlt). Qed.

(** The hypotheses are met by the example network: the table function exists, ... *)
Lemma table_exists lsas (lsdb : name -> list adj_lsa) (adjs : name -> list (name * uri)) :
  wf_lsdb lsas -> (forall r, Permutation lsas (lsdb r)) ->
  exists tbl : name -> rtable, forall r, calc_link_state r 1 (adjs r) (lsdb r) = Ok (tbl r).
Proof. intros Hw Hp.
  exists (fun r => match calc_link_state r 1 (adjs r) (lsdb r) with Ok t => t | _ => [] end).
  intros r. destruct (calc_single (wf_perm (Hp r) Hw) r (adjs r)) as (t & -> & _). reflexivity. Qed.

(** ... and every hypothesis holds at once (one face per neighbour name). *)
Definition face_per_name (l : list name) : list (name * uri) :=
  map (fun x => (x, match x with _ :: c :: _ => cval c | _ => EmptyString end)) l.

Example C26_example : exists tbl,
  wf_lsdb ex_lsas /\
  (forall u v c, usable ex_lsas u v c -> u <> v -> 0 < c) /\
  (forall r u v, (exists c, usable ex_lsas r u c) -> (exists c, usable ex_lsas r v c) ->
     face_of (face_per_name [rA; rB; rC; rD]) u = face_of (face_per_name [rA; rB; rC; rD]) v -> u = v) /\
  (forall r, calc_link_state r 1 (face_per_name [rA; rB; rC; rD]) (rev ex_lsas) = Ok (tbl r)) /\
  exists c, walk (usable ex_lsas) rA rC c /\ c < INF_DISTANCE.
Proof.
  destruct (@table_exists ex_lsas (fun _ => rev ex_lsas) (fun _ => face_per_name [rA; rB; rC; rD]) ex_wf) as (tbl & Ht).
  { intros _. apply Permutation_rev. }
  assert (Hm : forall r u c, usable ex_lsas r u c -> In u [rA; rB; rC; rD] /\ 0 < c).
  { intros r u c (a & b & (l & Hl & _ & Hin) & (l' & Hl' & Ho & Hin') & Ha & Hb & ->).
    split.
    - simpl in Hl'. destruct Hl' as [<-|[<-|[<-|[<-|[]]]]]; simpl in Ho; subst; simpl; auto.
    - assert (0 < a); [|lia]. simpl in Hl.
      destruct Hl as [<-|[<-|[<-|[<-|[]]]]]; simpl in Hin;
        repeat (destruct Hin as [Hin|Hin]; [injection Hin; intros; subst; lia|]); destruct Hin. }
  exists tbl. split; [exact ex_wf|]. split; [intros u v c Hu _; now apply Hm in Hu|]. split; [|split].
  - intros r u v (c & Hu) (c' & Hv) Hf. apply Hm in Hu as [Hu _]. apply Hm in Hv as [Hv _].
    simpl in Hu, Hv.
    destruct Hu as [<-|[<-|[<-|[<-|[]]]]]; destruct Hv as [<-|[<-|[<-|[<-|[]]]]]; vm_compute in Hf; congruence.
  - exact Ht.
  - destruct C24_example as (d & [Hd _] & Hlt). exists d. auto. Qed.

(** With links of cost zero (accepted by the configuration, conf-file-processor.cpp:498) loops are
    possible: two routers holding the same LSDB in different order point at each other. *)
Definition zr (i : N) : name := nm ["net"; String (ascii_of_N (48 + i)) ""]%string.
Definition zlsa (i : N) (ls : list (N * N)) : adj_lsa := AdjLsa (zr i) (map (fun p => (zr (fst p), Z.of_N (snd p))) ls).
Definition z0 := zlsa 0 [(3,4);(4,4);(5,1);(6,1);(7,3)]%N.
Definition z1 := zlsa 1 [(2,0);(3,0);(5,1);(7,1)]%N.
Definition z2 := zlsa 2 [(1,0);(3,0);(5,4)]%N.
Definition z3 := zlsa 3 [(0,4);(1,0);(2,0);(4,0);(5,4);(6,1)]%N.
Definition z4 := zlsa 4 [(0,4);(3,0);(6,2);(7,0)]%N.
Definition z5 := zlsa 5 [(0,1);(1,1);(2,4);(3,4);(6,2);(7,4)]%N.
Definition z6 := zlsa 6 [(0,1);(3,1);(4,2);(5,2)]%N.
Definition z7 := zlsa 7 [(0,3);(1,1);(4,0);(5,4)]%N.
Definition z_lsas := [z0; z1; z2; z3; z4; z5; z6; z7].
Definition z_lsdb (r : name) : list adj_lsa :=
  if eqb r (zr 1) then [z3; z7; z4; z5; z2; z6; z0; z1]
  else if eqb r (zr 3) then [z5; z0; z6; z7; z4; z2; z3; z1] else z_lsas.
Definition z_adjs := face_per_name (map zr [0; 1; 2; 3; 4; 5; 6; 7]%N).

Theorem C26_zero_cost_loop_refuted :
  exists (lsas : list adj_lsa) (lsdb : name -> list adj_lsa) (adjs : name -> list (name * uri))
         (tbl : name -> rtable),
  wf_lsdb lsas /\ (forall r, Permutation lsas (lsdb r)) /\
  let linked r nb := exists c, usable lsas r nb c in
  let face r nb := face_of (adjs r) nb in
  (forall r u v, linked r u -> linked r v -> face r u = face r v -> u = v) /\
  (forall r, calc_link_state r 1 (adjs r) (lsdb r) = Ok (tbl r)) /\
  exists r dest nb, (exists c, walk (usable lsas) r dest c /\ c < INF_DISTANCE) /\
    fwd_path tbl face linked dest r [nb; r].
Proof.
  assert (Hw : wf_lsdb z_lsas).
  { split.
    - nodup.
    - intros l Hl. simpl in Hl. repeat (destruct Hl as [<-|Hl]; [nodup|]). destruct Hl. }
  assert (Hp : forall r, Permutation z_lsas (z_lsdb r)).
  { intros r. unfold z_lsdb. destruct (eqb r (zr 1)).
    - apply NoDup_Permutation; [nodup|nodup|]. intros x. simpl. tauto.
    - destruct (eqb r (zr 3)); [|apply Permutation_refl].
      apply NoDup_Permutation; [nodup|nodup|]. intros x. simpl. tauto. }
  destruct (@table_exists z_lsas z_lsdb (fun _ => z_adjs) Hw Hp) as (tbl & Ht).
  assert (Hm : forall r u c, usable z_lsas r u c -> In u (map zr [0; 1; 2; 3; 4; 5; 6; 7]%N)).
  { intros r u c (a & b & _ & (l' & Hl' & Ho & Hin') & _).
    simpl in Hl'. repeat (destruct Hl' as [<-|Hl']; [simpl in Ho; subst; simpl; tauto|]). destruct Hl'. }
  exists z_lsas, z_lsdb, (fun _ => z_adjs), tbl.
  split; [exact Hw|]. split; [exact Hp|]. cbv zeta. split; [|split; [exact Ht|]].
  - intros r u v (c & Hu) (c' & Hv) Hf. apply Hm in Hu. apply Hm in Hv.
    clear - Hu Hv Hf.
    assert (Hb : forallb (fun u => forallb (fun v => implb (eqb (face_of z_adjs u) (face_of z_adjs v)) (eqb u v))
                   (map zr [0; 1; 2; 3; 4; 5; 6; 7]%N)) (map zr [0; 1; 2; 3; 4; 5; 6; 7]%N) = true)
      by (vm_compute; reflexivity).
    rewrite forallb_forall in Hb. specialize (Hb u Hu). rewrite forallb_forall in Hb. specialize (Hb v Hv).
    rewrite Hf, eqb_refl in Hb. simpl in Hb. now apply eqb_eq in Hb.
  - exists (zr 1), (zr 0), (zr 3).
    assert (H13 : usable z_lsas (zr 1) (zr 3) 0).
    { exists 0, 0. repeat split; try lia; [exists z1|exists z3]; simpl; tauto. }
    assert (H15 : usable z_lsas (zr 1) (zr 5) 1).
    { exists 1, 1. repeat split; try lia; [exists z1|exists z5]; simpl; tauto. }
    assert (H50 : usable z_lsas (zr 5) (zr 0) 1).
    { exists 1, 1. repeat split; try lia; [exists z5|exists z0]; simpl; tauto. }
    assert (T1 : map nh_uri (rt_hops (tbl (zr 1)) (zr 0)) = ["3"%string]).
    { pose proof (Ht (zr 1)) as E.
      assert (E2 : match calc_link_state (zr 1) 1 z_adjs (z_lsdb (zr 1)) with
                   | Ok t => map nh_uri (rt_hops t (zr 0)) | _ => [] end = ["3"%string]) by (vm_compute; reflexivity).
      rewrite E in E2. exact E2. }
    assert (T3 : map nh_uri (rt_hops (tbl (zr 3)) (zr 0)) = ["1"%string]).
    { pose proof (Ht (zr 3)) as E.
      assert (E2 : match calc_link_state (zr 3) 1 z_adjs (z_lsdb (zr 3)) with
                   | Ok t => map nh_uri (rt_hops t (zr 0)) | _ => [] end = ["1"%string]) by (vm_compute; reflexivity).
      rewrite E in E2. exact E2. }
    split.
    + exists (1 + (1 + 0)). split; [|reflexivity].
      apply walk_cons with (v := zr 5); [exact H15|]. apply walk_cons with (v := zr 0); [exact H50|constructor].
    + assert (F : forall r nb u, (exists c, usable z_lsas r nb c) -> map nh_uri (rt_hops (tbl r) (zr 0)) = [u] ->
                u = face_of z_adjs nb ->
                forwards tbl (fun _ nb => face_of z_adjs nb) (fun r nb => exists c, usable z_lsas r nb c) r (zr 0) nb).
      { intros r nb u Hl Hmap Hu. split; [exact Hl|].
        destruct (rt_hops (tbl r) (zr 0)) as [|h [|h' tl]]; try discriminate.
        exists h. split; [now left|]. simpl in Hmap. congruence. }
      constructor; [discriminate| |constructor; [discriminate| |constructor]].
      * apply (F _ _ "3"%string); [exists 0; exact H13|exact T1|vm_compute; reflexivity].
      * apply (F _ _ "1"%string); [exists 0; now apply usable_sym|exact T3|vm_compute; reflexivity].
Qed.
Print Assumptions C26_no_forwarding_loops.
Print Assumptions C26_zero_cost_loop_refuted.

(** ** C27 *)
(** [adjs] lists every router to which the LSDB shows a usable link from this router; that is so
    whenever this router's own Adjacency LSA was built from its adjacency list. *)
Theorem C27_only_configured_faces : forall lsas self adjs maxf, wf_lsdb lsas ->
  (forall nb c, advertises lsas self nb c -> In nb (keys adjs)) ->
  exists t, calc_link_state self maxf adjs lsas = Ok t /\
  forall dest h, In h (rt_hops t dest) -> exists nb, In (nb, nh_uri h) adjs /\ nb <> self.
Proof. intros lsas self adjs maxf Hw Hadj.
  assert (Hface : forall nb c, usable lsas self nb c -> In (nb, face_of adjs nb) adjs).
  { intros nb c (a & b & Ha & _). apply Hadj in Ha. unfold face_of.
    destruct (get nb adjs) as [u|] eqn:E; [now apply get_In|]. apply get_None_keys in E. contradiction. }
  destruct (N.eq_dec maxf 1) as [->|Hne].
  - destruct (calc_single Hw self adjs) as (t & Ht & Hself & H). exists t. split; [exact Ht|].
    intros dest h Hin. destruct (eq_dec dest self) as [->|Hd]; [rewrite Hself in Hin; destruct Hin|].
    destruct (H dest Hd) as [(d & nb & c & _ & _ & Hnb & Hus & _ & E)|(_ & E)]; rewrite E in Hin; [|destruct Hin].
    destruct Hin as [<-|[]]. exists nb. split; [|exact Hnb]. simpl. eapply Hface. exact Hus.
  - destruct (calc_multi Hw self adjs Hne) as (t & Ht & Hself & H). exists t. split; [exact Ht|].
    intros dest h Hin. destruct (eq_dec dest self) as [->|Hd]; [rewrite Hself in Hin; destruct Hin|].
    destruct (H dest Hd) as (_ & A & _). destruct (A h Hin) as (_ & cost & _ & (nb & c & w & Hnb & Hus & _ & _ & E) & _).
    exists nb. rewrite E. split; [|exact Hnb]. eapply Hface. exact Hus. Qed.

Example C27_example : forall nb c, advertises ex_lsas rA nb c -> In nb (keys ex_adjs).
Proof. intros nb c (l & Hl & Ho & Hin). simpl in Hl.
  destruct Hl as [<-|[<-|[<-|[<-|[]]]]]; try discriminate.
  simpl in Hin. destruct Hin as [[= <- <-]|[[= <- <-]|[]]]; simpl; auto. Qed.
Print Assumptions C27_only_configured_faces.

(** ** C28 *)
(** [hs] is the sequence of additions.  The result has one hop per added URI, each with the
    smallest cost added for that URI, in order of installed cost. *)
Theorem C28_next_hop_list : forall hs : list nexthop,
  let l := fold_left (fun l h => nhl_addc h l) hs [] in
  NoDup (map nh_uri l) /\
  (forall u k, (exists h, In h l /\ nh_uri h = u /\ nh_cost h = k) <->
               (exists h, In h hs /\ nh_uri h = u /\ nh_cost h = k) /\
               (forall h, In h hs -> nh_uri h = u -> k <= nh_cost h)) /\
  (forall h, In h l -> In h hs) /\
  Sorted Z.le (map adj_int l).
Proof. intros hs l. destruct (@nhl_adds_spec nh_ltb nh_ltb_trans nh_ltb_total hs [] (nhl_valid_nil nh_ltb)) as (V & A & B).
  change (fold_left (fun l h => nhl_add nh_ltb h l) hs []) with l in V, A, B.
  assert (A' : forall h, In h l -> In h hs) by (intros h Hh; apply A in Hh as [|[]]; assumption).
  split; [apply V|]. split; [|split; [exact A'|apply sorted_addc_nondec; apply V]].
  intros u k. split.
  - intros (h & Hin & Hu & Hk). split; [exists h; auto|].
    intros h' Hin' Hu'. destruct (B h' (or_introl Hin')) as (h2 & H2 & Hu2 & Hle).
    assert (h2 = h) by (apply (valid_unique _ _ V H2 Hin); congruence). subst h2. lia.
  - intros ((h & Hin & Hu & Hk) & Hmin). destruct (B h (or_introl Hin)) as (h2 & H2 & Hu2 & Hle).
    exists h2. split; [exact H2|]. split; [congruence|].
    specialize (Hmin h2 (A' h2 H2) ltac:(congruence)). lia. Qed.

Example C28_example :
  let f1 := "udp4://10.0.0.1"%string in let f2 := "udp4://10.0.0.2"%string in
  fold_left (fun l h => nhl_addc h l) [mk_nh f1 (of_int 9); mk_nh f2 (of_int 5); mk_nh f1 (of_int 3); mk_nh f2 (of_int 7)] []
  = [mk_nh f1 (of_int 3); mk_nh f2 (of_int 5)].
Proof. vm_compute. reflexivity. Qed.
Print Assumptions C28_next_hop_list.

(** C54, C55: what fails, and examples. *)
From Verif Require Import Base M_Nexthop M_Tlv M_Adj M_Lsa M_Lsdb M_Codec M_Sync S_Lsdb S_Codec M_Net S_Net X_Lsdb X_Net
  L_Lsdb L_Codec P_Codec P_Lsdb P_Sync L_Net P_Net.
Open Scope Z_scope.

(** ** Checking that a concrete schedule is possible *)

Notation possibleN w := (possible ts8 tp8 (@Some uri) w).
Lemma possible_free w s i n e v : possibleN w s -> nth_error w i = Some n ->
  match v with ESync _ _ _ | EFetchDone _ _ | EInterest _ _ _ _ => False | _ => True end -> possibleN w (s ++ [(i, (e, v))]).
Proof. intros P E H. constructor; [exact P|]. exists n. split; [exact E|]. cbn [snd]. now destruct v. Qed.
Lemma possible_build w s i n tid e : possibleN w s -> nth_error w i = Some n -> possibleN w (s ++ buildN i tid e).
Proof.
  intros P E. replace (s ++ buildN i tid e) with (((s ++ [(i, (e, EScheduleBuild))]) ++ [(i, (e, ETick (10 * SEC)))]) ++ [(i, (e, EFire tid))]) by (rewrite <- !app_assoc; reflexivity).
  repeat (apply (possible_free w _ i n); [|exact E|exact Logic.I]). exact P.
Qed.
Lemma possible_get w s i n j m t q fid l d : possibleN w s -> nth_error w i = Some n -> nth_error w j = Some m -> j <> i ->
  In q (S_Lsdb.announced t (nouts m j s)) -> sane (user m t ++ [number_comp q]) -> asked_type (user m t ++ [number_comp q]) = Some t ->
  let s2 := s ++ firstn 2 (getN i j m t q fid l) in
  get fid (s_fetch (nstate n i s2)) = Some (Fetch (user m t ++ [number_comp q]) 0 d) ->
  In (OData ((user m t ++ [number_comp q]) ++ [version_comp 7; segment_comp 0]) l 0) (nouts m j s2) ->
  possibleN w (s ++ getN i j m t q fid l).
Proof.
  intros P En Em Nj Ha Sn At s2 Gf Hd. unfold s2 in *. cbn [firstn getN] in *.
  match type of Gf with context [s ++ [?a; ?b]] => set (x1 := a) in *; set (x2 := b) in * end.
  unfold getN. match goal with |- possibleN w (s ++ [_; _; ?a]) => set (x3 := a) in * end.
  change (s ++ _) with (s ++ [x1; x2; x3]). replace (s ++ [x1; x2; x3]) with (((s ++ [x1]) ++ [x2]) ++ [x3]) by (rewrite <- !app_assoc; reflexivity).
  replace (s ++ [x1; x2]) with ((s ++ [x1]) ++ [x2]) in Gf, Hd by (rewrite <- !app_assoc; reflexivity).
  constructor; [constructor; [constructor; [exact P|]|]|].
  - exists n. split; [exact En|]. cbn [snd fst x1]. exists j, m, t. repeat (split; [assumption||reflexivity|]). now apply announced_In.
  - exists m. split; [exact Em|exact Sn].
  - exists n. split; [exact En|]. cbn [snd fst x3]. right. exists j, m, (Fetch (user m t ++ [number_comp q]) 0 d), (version_comp 7), (segment_comp 0), l, 0%N.
    split; [exact Em|]. split; [exact Gf|]. split; [exact Hd|]. cbn [f_iname]. now rewrite At.
Qed.

Definition datas (o : list out) : list lsa := flat_map (fun x => match x with OData _ l _ => [l] | _ => [] end) o.
Definition sendableb (l : lsa) : Prop := encodable ts8 tp8 Some l /\ fits (enc_lsa ts8 l).
Lemma sendable_datas w s : (forall j m, nth_error w j = Some m -> Forall sendableb (datas (nouts m j s))) -> sendable ts8 tp8 Some w s.
Proof.
  intros H j m n l k Em Hd. specialize (H j m Em). rewrite Forall_forall in H. apply H. apply in_flat_map. eexists. split; [exact Hd|now left].
Qed.
Lemma adjN_ok q adj : (q < 100)%N -> NoDup adj -> (forall n, In n adj -> legal_name n) -> fits (enc_lsa ts8 (adjN q adj)) -> sendableb (adjN q adj).
Proof.
  intros Q N L F. split; [|exact F]. split; [apply legal_nm|]. split; [cbn; lia|]. split; [vm_compute; reflexivity|]. cbn [l_body adjN].
  rewrite map_map. cbn [a_name adjX]. rewrite map_id. split; [exact N|]. intros x Hx. apply in_map_iff in Hx as (n & <- & Hn). split; [now apply L|]. split; [reflexivity|].
  apply is_double_spec, double_int. reflexivity.
Qed.
Lemma namN_ok q z : (q < 100)%N -> Z.abs z < 2 ^ 53 -> fits (enc_lsa ts8 (namN q [(pX, of_int z)])) -> sendableb (namN q [(pX, of_int z)]).
Proof.
  intros Q N F. split; [|exact F]. split; [apply legal_nm|]. split; [cbn; lia|]. split; [vm_compute; reflexivity|]. cbn [l_body namN].
  split; [repeat constructor; intros []|]. intros x [<-|[]]. split; [apply legal_nm|]. apply is_double_spec, double_int. exact N.
Qed.

Ltac find_in := vm_compute; repeat (first [left; reflexivity | right]).
Ltac get_ok := [> |reflexivity|reflexivity|discriminate|find_in|vm_compute; reflexivity|vm_compute; reflexivity|vm_compute; reflexivity|find_in].

Lemma one_netN w : (forall n, In n w -> exists h r f e, n = nodeN h r f e) -> one_net w.
Proof.
  intros H. exists netX. split; [intros [X|[]]; discriminate|]. split; [intros [X|[]]; discriminate|].
  intros n Hn. destruct (H n Hn) as (h & r & f & e & ->). split; [reflexivity|]. split; [reflexivity|]. split; [reflexivity|]. vm_compute. reflexivity.
Qed.
Lemma one_wN : one_net wN.
Proof. apply one_netN. intros n [<-|[<-|[<-|[]]]]; do 4 eexists; reflexivity. Qed.
Lemma one_wL : one_net wL.
Proof. apply one_netN. intros n [<-|[<-|[<-|[<-|[]]]]]; do 4 eexists; reflexivity. Qed.

(** *** A run without surprises *)
Lemma possible_sN : possibleN wN sN.
Proof.
  unfold sN. rewrite app_assoc. apply (@possible_get wN _ 2 n3 1 n2 TAdj 1 0 (adjN 1 [r1N; r3N]) (7200 * SEC)); get_ok.
  apply (@possible_get wN _ 0 n1 1 n2 TAdj 1 0 (adjN 1 [r1N; r3N]) (7200 * SEC)); get_ok.
  apply (possible_build wN [] 1 n2); [constructor|reflexivity].
Qed.
Lemma adj13_ok : sendableb (adjN 1 [r1N; r3N]).
Proof.
  apply adjN_ok; [reflexivity| | |vm_compute; reflexivity].
  - constructor; [intros [X|[]]; discriminate|]. constructor; [intros []|constructor].
  - intros n [<-|[<-|[]]]; apply legal_nm.
Qed.
Lemma adj3_ok : sendableb (adjN 1 [r3N]).
Proof.
  apply adjN_ok; [reflexivity| | |vm_compute; reflexivity].
  - constructor; [intros []|constructor].
  - intros n [<-|[]]; apply legal_nm.
Qed.
Lemma sendable_sN : sendable ts8 tp8 Some wN sN.
Proof.
  apply sendable_datas. intros j m E.
  assert (D0 : datas (nouts n1 0 sN) = []) by (vm_compute; reflexivity).
  assert (D1 : datas (nouts n2 1 sN) = [adjN 1 [r1N; r3N]; adjN 1 [r1N; r3N]]) by (vm_compute; reflexivity).
  assert (D2 : datas (nouts n3 2 sN) = []) by (vm_compute; reflexivity).
  destruct j as [|[|[|j]]]; cbn [nth_error wN] in E; [injection E as <-; rewrite D0; constructor|injection E as <-; rewrite D1; constructor; [apply adj13_ok|constructor; [apply adj13_ok|constructor]]|injection E as <-; rewrite D2; constructor|].
  destruct j; discriminate E.
Qed.
Lemma only_n2 : only wN 1 n2.
Proof.
  split; [reflexivity|]. intros [|[|[|i]]] n; cbn [nth_error wN]; intros E; [|reflexivity| |destruct i; discriminate E]; injection E as <-; discriminate.
Qed.

(** r1 and r3 store the links of r2. *)
Definition storedN : lsa := advertised (adjN 1 [r1N; r3N]).
Lemma stored_r1 : In storedN (contents (nstate n1 0 sN)).
Proof. find_in. Qed.
Lemma stored_r3 : In storedN (contents (nstate n3 2 sN)).
Proof. find_in. Qed.
Lemma stored_r2 : In (adjN 1 [r1N; r3N]) (contents (nstate n2 1 sN)).
Proof. find_in. Qed.

Example C54_example : one_net wN /\ possibleN wN sN /\ sendable ts8 tp8 Some wN sN /\ nth_error wN 0 = Some n1 /\
  holds (nstate n1 0 sN) storedN /\ l_origin storedN <> c_self (n_conf n1) /\ only wN 1 n2 /\ l_origin storedN = c_self (n_conf n2) /\
  publishes (c_hyp (n_conf n2)) (l_type storedN) = true.
Proof.
  split; [exact one_wN|]. split; [exact possible_sN|]. split; [exact sendable_sN|]. split; [reflexivity|]. split; [exact stored_r1|].
  split; [discriminate|]. split; [exact only_n2|]. split; reflexivity.
Qed.
(** The schedule meets the hypotheses of [C54_links]: every link cost is whole. *)
Lemma whole_env adj p x : In x (links_of (e_adl (envN adj p))) -> exists z, snd x = of_int z.
Proof. unfold links_of. cbn [e_adl envN]. rewrite map_map. intros H. apply in_map_iff in H as (n & <- & _). exists 10. reflexivity. Qed.
Lemma whole_sN : whole_costs wN sN.
Proof.
  intros i n e x En He Hx. assert (E : exists adj p, e = envN adj p).
  { destruct He as [->|(v & He)].
    - destruct i as [|[|[|i]]]; cbn [nth_error wN] in En; try (injection En as <-; do 2 eexists; reflexivity). destruct i; discriminate En.
    - unfold sN, buildN, getN in He. cbn [app In] in He. repeat (destruct He as [He|He]; [injection He as _ <- _; do 2 eexists; reflexivity|]). destruct He. }
  destruct E as (adj & p & ->). now apply (whole_env adj p).
Qed.

Example C55_example : holds (nstate n1 0 sN) storedN /\ holds (nstate n3 2 sN) storedN /\ holds (nstate n2 1 sN) (adjN 1 [r1N; r3N]) /\
  l_key storedN = l_key (adjN 1 [r1N; r3N]) /\ l_seq storedN = l_seq (adjN 1 [r1N; r3N]) /\ copy (adjN 1 [r1N; r3N]) storedN.
Proof.
  split; [exact stored_r1|]. split; [exact stored_r3|]. split; [exact stored_r2|]. split; [reflexivity|]. split; [reflexivity|].
  exact (C55_latest one_wN 0 possible_sN sendable_sN eq_refl only_n2 stored_r2 eq_refl stored_r1 eq_refl eq_refl).
Qed.

(** ** Prefix costs *)

Lemma possible_sC : possibleN wN sC.
Proof.
  unfold sC. rewrite !app_assoc. apply (@possible_get wN _ 2 n3 1 n2 TName 3 0 (namN 3 [(pX, of_int 9)]) (7200 * SEC)); get_ok.
  apply (@possible_get wN _ 0 n1 1 n2 TName 3 1 (namN 3 [(pX, of_int 9)]) (7200 * SEC)); get_ok.
  match goal with |- possibleN wN (?s ++ [?a; ?b]) => replace (s ++ [a; b]) with ((s ++ [a]) ++ [b]) by (rewrite <- app_assoc; reflexivity) end.
  do 2 (apply (possible_free wN _ 1 n2); [|reflexivity|exact Logic.I]).
  apply (@possible_get wN [] 0 n1 1 n2 TName 1 0 (namN 1 [(pX, of_int 7)]) (7200 * SEC)); get_ok. constructor.
Qed.
Lemma sendable_sC : sendable ts8 tp8 Some wN sC.
Proof.
  apply sendable_datas. intros j m E.
  assert (D0 : datas (nouts n1 0 sC) = []) by (vm_compute; reflexivity).
  assert (D1 : datas (nouts n2 1 sC) = [namN 1 [(pX, of_int 7)]; namN 3 [(pX, of_int 9)]; namN 3 [(pX, of_int 9)]]) by (vm_compute; reflexivity).
  assert (D2 : datas (nouts n3 2 sC) = []) by (vm_compute; reflexivity).
  destruct j as [|[|[|j]]]; cbn [nth_error wN] in E; [injection E as <-; rewrite D0; constructor|injection E as <-; rewrite D1|injection E as <-; rewrite D2; constructor|].
  - assert (N1 : sendableb (namN 1 [(pX, of_int 7)])) by (apply namN_ok; [reflexivity|reflexivity|vm_compute; reflexivity]).
    assert (N3 : sendableb (namN 3 [(pX, of_int 9)])) by (apply namN_ok; [reflexivity|reflexivity|vm_compute; reflexivity]).
    constructor; [exact N1|constructor; [exact N3|constructor; [exact N3|constructor]]].
  - destruct j; discriminate E.
Qed.
Lemma sC_r1 : In (namN 3 [(pX, of_int 7)]) (contents (nstate n1 0 sC)).
Proof. find_in. Qed.
Lemma sC_r3 : In (namN 3 [(pX, of_int 9)]) (contents (nstate n3 2 sC)).
Proof. find_in. Qed.

(** Even in a quiet network of routers that never restart, two routers can store the same number of the same
    LSA and differ about the cost of a prefix (C04: the merge keeps the old cost). *)
Theorem C55_cost_refuted : exists w s i1 n1 l1 i2 n2 l2 j m, one_net w /\ possibleN w s /\ sendable ts8 tp8 Some w s /\
  nth_error w i1 = Some n1 /\ nth_error w i2 = Some n2 /\ holds (nstate n1 i1 s) l1 /\ holds (nstate n2 i2 s) l2 /\
  only w j m /\ l_origin l1 = c_self (n_conf m) /\ l_key l1 = l_key l2 /\ l_seq l1 = l_seq l2 /\ l_body l1 <> l_body l2.
Proof.
  exists wN, sC, 0%nat, n1, (namN 3 [(pX, of_int 7)]), 2%nat, n3, (namN 3 [(pX, of_int 9)]), 1%nat, n2.
  split; [exact one_wN|]. split; [exact possible_sC|]. split; [exact sendable_sC|]. split; [reflexivity|]. split; [reflexivity|].
  split; [exact sC_r1|]. split; [exact sC_r3|]. split; [exact only_n2|]. split; [reflexivity|]. split; [reflexivity|]. split; [reflexivity|].
  intros H. cbn [l_body namN] in H. injection H as H. revert H. vm_compute. discriminate.
Qed.

(** ** A restart *)

Lemma possible_s1L : possibleN wL s1L.
Proof.
  unfold s1L. apply (@possible_get wL _ 0 n1 1 n2 TAdj 1 0 (adjN 1 [r1N; r3N]) (7200 * SEC)); get_ok.
  apply (possible_build wL [] 1 n2); [constructor|reflexivity].
Qed.
Lemma possible_sL : possibleN wL sL.
Proof.
  unfold sL. rewrite app_assoc. apply (@possible_get wL _ 2 n3 3 n2' TAdj 1 0 (adjN 1 [r3N]) (7200 * SEC)); get_ok.
  apply (possible_build wL _ 3 n2'); [exact possible_s1L|reflexivity].
Qed.
Lemma sendable_sL : sendable ts8 tp8 Some wL sL.
Proof.
  apply sendable_datas. intros j m E.
  assert (D0 : datas (nouts n1 0 sL) = []) by (vm_compute; reflexivity).
  assert (D1 : datas (nouts n2 1 sL) = [adjN 1 [r1N; r3N]]) by (vm_compute; reflexivity).
  assert (D2 : datas (nouts n3 2 sL) = []) by (vm_compute; reflexivity).
  assert (D3 : datas (nouts n2' 3 sL) = [adjN 1 [r3N]]) by (vm_compute; reflexivity).
  destruct j as [|[|[|[|j]]]]; cbn [nth_error wL] in E; [injection E as <-; rewrite D0; constructor|injection E as <-; rewrite D1|injection E as <-; rewrite D2; constructor|injection E as <-; rewrite D3|].
  - constructor; [exact adj13_ok|constructor].
  - constructor; [exact adj3_ok|constructor].
  - destruct j; discriminate E.
Qed.
Lemma sendable_s1L : sendable ts8 tp8 Some wL s1L.
Proof. exact (sendable_app _ _ sendable_sL). Qed.
Lemma s1L_r1 : In storedN (contents (nstate n1 0 s1L)).
Proof. find_in. Qed.
Lemma sL_r1 : In storedN (contents (nstate n1 0 sL)).
Proof. find_in. Qed.
Lemma sL_r3 : In (advertised (adjN 1 [r3N])) (contents (nstate n3 2 sL)).
Proof. find_in. Qed.
Lemma s1L_seq : seq_get TAdj (s_seqs (nstate n2' 3 s1L)) = 0%N.
Proof. vm_compute. reflexivity. Qed.

(** After a restart with hyperbolic state dry-run (C09) a stored number can be above the origin's current one: [j'] is the next life of
    process [j], started from the state file that [j] left. *)
Theorem C54_restart_refuted : exists w s i n l j m j' m', one_net w /\ possibleN w s /\ sendable ts8 tp8 Some w s /\
  nth_error w i = Some n /\ nth_error w j = Some m /\ nth_error w j' = Some m' /\ n_conf m' = n_conf m /\
  n_file m' = d_file (disk_after (n_file m) (nouts m j s)) /\ holds (nstate n i s) l /\ l_origin l = c_self (n_conf m') /\
  (seq_get (l_type l) (s_seqs (nstate m' j' s)) < l_seq l)%N.
Proof.
  exists wL, s1L, 0%nat, n1, storedN, 1%nat, n2, 3%nat, n2'. split; [exact one_wL|]. split; [exact possible_s1L|]. split; [exact sendable_s1L|].
  do 5 (split; [reflexivity|]). split; [exact s1L_r1|]. split; [reflexivity|]. change (l_type storedN) with TAdj. rewrite s1L_seq. reflexivity.
Qed.
(** And then two routers can store the same number with different links, one from each life, and neither asks again. *)
Theorem C55_restart_refuted : exists w s i1 n1 l1 i2 n2 l2 j m, one_net w /\ possibleN w s /\ sendable ts8 tp8 Some w s /\
  nth_error w i1 = Some n1 /\ nth_error w i2 = Some n2 /\ holds (nstate n1 i1 s) l1 /\ holds (nstate n2 i2 s) l2 /\
  nth_error w j = Some m /\ l_origin l1 = c_self (n_conf m) /\ l_key l1 = l_key l2 /\ l_seq l1 = l_seq l2 /\
  l_seq l1 = seq_get (l_type l1) (s_seqs (nstate m j s)) /\ ~ (forall x, In x (links l1) <-> In x (links l2)).
Proof.
  exists wL, sL, 0%nat, n1, storedN, 2%nat, n3, (advertised (adjN 1 [r3N])), 3%nat, n2'.
  split; [exact one_wL|]. split; [exact possible_sL|]. split; [exact sendable_sL|]. split; [reflexivity|]. split; [reflexivity|].
  split; [exact sL_r1|]. split; [exact sL_r3|]. split; [reflexivity|]. split; [reflexivity|]. split; [reflexivity|]. split; [reflexivity|].
  split; [vm_compute; reflexivity|]. intros H. specialize (H (r1N, a_uri (adjX r1N SActive 0), of_int 10)). apply proj1 in H.
  destruct H as [H|H]; [left; reflexivity| |destruct H]. apply (f_equal (fun x => fst (fst x))) in H. discriminate H.
Qed.

Print Assumptions C54_authentic_partial.
Print Assumptions C54_links.
Print Assumptions C54_fresh_partial.
Print Assumptions C54_restart_refuted.
Print Assumptions C55_agree_partial.
Print Assumptions C55_latest.
Print Assumptions C55_converged_partial.
Print Assumptions C55_reached.
Print Assumptions C55_cost_refuted.
Print Assumptions C55_restart_refuted.

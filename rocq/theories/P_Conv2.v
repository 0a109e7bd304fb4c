(** C95: a network that meets the hypotheses. *)
From Verif Require Import Base M_Nexthop M_Tlv M_Adj M_Lsa M_Lsdb M_Codec M_Sync S_Lsdb S_Codec M_Net S_Net S_Conv X_Lsdb X_Net
  L_Lsdb L_Codec P_Codec P_Lsdb P_Sync L_Net P_Net P_Net2 P_Conv.
Open Scope Z_scope.

(** r2 has built its Adjacency LSA; nobody has retrieved anything. *)
Definition sB : sched := buildN 1 2 (envN [r1N; r3N] [(pX, of_int 7)]).
Definition nameB (r : name) (p : npl) : lsa := Lsa r 1 (T0 + 3600 * SEC) (BName p).
Definition coordB (r : name) : lsa := Lsa r 1 (T0 + 3600 * SEC) (BCoord 0 [0]).
Definition ownB : list lsa := [nameB r1N []; coordB r1N; nameB r2N [(pX, of_int 7)]; coordB r2N; adjN 1 [r1N; r3N]; nameB r3N []; coordB r3N].
Lemma ownB_ok : Forall sendableb ownB.
Proof.
  assert (C : forall r, legal_name r -> fits (enc_lsa ts8 (Lsa r 1 (T0 + 3600 * SEC) (BCoord 0 [0]))) -> sendableb (Lsa r 1 (T0 + 3600 * SEC) (BCoord 0 [0]))).
  { intros r L F. split; [|exact F]. split; [exact L|]. split; [cbn; lia|]. split; [vm_compute; reflexivity|]. cbn [l_body].
    split; [|intros x [<-|[]]]; apply is_double_spec, (double_int 0); reflexivity. }
  assert (N : forall r, legal_name r -> fits (enc_lsa ts8 (Lsa r 1 (T0 + 3600 * SEC) (BName []))) -> sendableb (Lsa r 1 (T0 + 3600 * SEC) (BName []))).
  { intros r L F. split; [|exact F]. split; [exact L|]. split; [cbn; lia|]. split; [vm_compute; reflexivity|]. cbn [l_body]. split; [constructor|]. intros x []. }
  assert (N2 : sendableb (Lsa r2N 1 (T0 + 3600 * SEC) (BName [(pX, of_int 7)]))) by (apply (namN_ok 1 7); [reflexivity|reflexivity|vm_compute; reflexivity]).
  apply Forall_cons; [apply N; [apply legal_nm|vm_compute; reflexivity]|]. apply Forall_cons; [apply C; [apply legal_nm|vm_compute; reflexivity]|].
  apply Forall_cons; [exact N2|]. apply Forall_cons; [apply C; [apply legal_nm|vm_compute; reflexivity]|]. apply Forall_cons; [exact adj13_ok|].
  apply Forall_cons; [apply N; [apply legal_nm|vm_compute; reflexivity]|]. apply Forall_cons; [apply C; [apply legal_nm|vm_compute; reflexivity]|].
  constructor.
Qed.
Lemma heldB : forall k j m, (k <= 3)%nat -> nth_error wN j = Some m -> Forall (fun l => In l ownB) (contents (nstate m j (firstn k sB))).
Proof.
  assert (A0 : forall k, (k <= 3)%nat -> contents (nstate n1 0 (firstn k sB)) = [nameB r1N []; coordB r1N]) by (intros k K; do 4 (destruct k as [|k]; [vm_compute; reflexivity|]); lia).
  assert (A1 : forall k, (k <= 2)%nat -> contents (nstate n2 1 (firstn k sB)) = [nameB r2N [(pX, of_int 7)]; coordB r2N]) by (intros k K; do 3 (destruct k as [|k]; [vm_compute; reflexivity|]); lia).
  assert (A1' : contents (nstate n2 1 (firstn 3 sB)) = [nameB r2N [(pX, of_int 7)]; coordB r2N; adjN 1 [r1N; r3N]]) by (vm_compute; reflexivity).
  assert (A2 : forall k, (k <= 3)%nat -> contents (nstate n3 2 (firstn k sB)) = [nameB r3N []; coordB r3N]) by (intros k K; do 4 (destruct k as [|k]; [vm_compute; reflexivity|]); lia).
  assert (I : forall k, (k < 7)%nat -> In (nth k ownB (coordB r1N)) ownB) by (intros k K; apply nth_In; exact K).
  intros k j m K E. destruct j as [|[|[|j]]]; [injection E as <-; rewrite (A0 k K)|injection E as <-|injection E as <-; rewrite (A2 k K)|destruct j; discriminate E].
  - apply Forall_cons; [apply (I 0%nat); lia|]. apply Forall_cons; [apply (I 1%nat); lia|constructor].
  - destruct (Nat.eq_dec k 3) as [->|N]; [rewrite A1'|rewrite (A1 k) by lia]; (apply Forall_cons; [apply (I 2%nat); lia|]); (apply Forall_cons; [apply (I 3%nat); lia|]); [|constructor].
    apply Forall_cons; [apply (I 4%nat); lia|constructor].
  - apply Forall_cons; [apply (I 5%nat); lia|]. apply Forall_cons; [apply (I 6%nat); lia|constructor].
Qed.
Lemma possible_sB : possibleN wN sB.
Proof. apply (possible_build wN [] 1 n2); [constructor|reflexivity]. Qed.
Lemma codable_sB : codable ts8 tp8 Some wN sB.
Proof.
  intros j m l (E & _ & s1 & s2 & Es & H). pose proof ownB_ok as O. rewrite Forall_forall in O. apply O.
  assert (X : s1 = firstn (length s1) sB) by (rewrite Es, firstn_app, Nat.sub_diag, firstn_all, app_nil_r; reflexivity).
  assert (L : (length s1 <= 3)%nat) by (change 3%nat with (length sB); rewrite Es, app_length; lia).
  rewrite X in H. pose proof (heldB _ _ _ L E) as F. rewrite Forall_forall in F. exact (F _ H).
Qed.
Lemma distinct_wN : distinct wN.
Proof.
  intros [|[|[|j]]] m E; cbn [nth_error wN] in E; try (destruct j; discriminate E); injection E as <-;
    (split; [reflexivity|]); intros [|[|[|i]]] n; cbn [nth_error wN]; intros E'; try (destruct i; discriminate E'); injection E' as <-; try reflexivity; discriminate.
Qed.
Lemma runs_sB : all_run wN sB.
Proof. intros [|[|[|j]]] m E; cbn [nth_error wN] in E; try (destruct j; discriminate E); injection E as <-; vm_compute; reflexivity. Qed.
Lemma says_sB : says wN sB 1 n2 (adjN 1 [r1N; r3N]).
Proof. split; [reflexivity|]. split; [find_in|]. split; reflexivity. Qed.

Lemma holds_key (s : st) l : holds s l -> In (l_key l) (map l_key (contents s)).
Proof. apply in_map. Qed.
Lemma keys_sB : map l_key (contents (nstate n3 2 sB)) = [(r3N, TName); (r3N, TCoord)].
Proof. vm_compute. reflexivity. Qed.
Lemma not_sB : ~ converged wN sB.
Proof.
  intros C. assert (U : used (c_hyp (n_conf n3)) (l_type (adjN 1 [r1N; r3N])) = true) by reflexivity. assert (E : nth_error wN 2 = Some n3) by reflexivity.
  destruct (C 2%nat n3 1%nat n2 _ E says_sB U) as (l1 & H & K & _). clear U E. apply holds_key in H. rewrite keys_sB, K in H.
  change (l_key (adjN 1 [r1N; r3N])) with (r2N, TAdj) in H. destruct H as [H|[H|[]]]; discriminate H.
Qed.
Lemma conv_sB : exists xs, (length xs <= 81)%nat /\ possibleN wN (sB ++ xs) /\ converged wN (sB ++ xs) /\ says wN (sB ++ xs) 1 n2 (adjN 1 [r1N; r3N]).
Proof.
  destruct (C95_converges one_wN distinct_wN possible_sB codable_sB runs_sB) as (xs & L & _ & P & _ & S & C). exists xs. split; [exact L|]. split; [exact P|]. split; [exact C|].
  exact (proj2 (S _ _ _) says_sB).
Qed.
Lemma knows_sB s : converged wN s -> says wN s 1 n2 (adjN 1 [r1N; r3N]) -> knows_of s 2 n3 (adjN 1 [r1N; r3N]).
Proof. intros C S. assert (E : nth_error wN 2 = Some n3) by reflexivity. apply (C _ _ _ _ _ E S). reflexivity. Qed.

(** Nobody but r2 knows its links; an exchange makes r1 and r3 store them, and every router the prefixes of every other. *)
Example C95_example : one_net wN /\ distinct wN /\ possibleN wN sB /\ codable ts8 tp8 Some wN sB /\ all_run wN sB /\ ~ converged wN sB /\
  exists xs, (length xs <= 81)%nat /\ possibleN wN (sB ++ xs) /\ converged wN (sB ++ xs) /\ knows_of (sB ++ xs) 2 n3 (adjN 1 [r1N; r3N]).
Proof.
  split; [exact one_wN|]. split; [exact distinct_wN|]. split; [exact possible_sB|]. split; [exact codable_sB|]. split; [exact runs_sB|]. split; [exact not_sB|].
  destruct conv_sB as (xs & L & P & C & S). exists xs. split; [exact L|]. split; [exact P|]. split; [exact C|]. exact (knows_sB _ C S).
Qed.

Print Assumptions C95_converges.
Print Assumptions C95_stays.
Print Assumptions C95_stable.

(** Properties of the link-state database: C11-C15, C59-C61.  Vocabulary: S_Lsdb.v. *)
From Verif Require Import Base M_Nexthop M_Tlv M_Adj M_Lsa M_Lsdb S_Lsdb X_Lsdb.
From Verif Require Import L_Lsdb L_Lsdb2 L_Lsdb3 L_Lsdb4 L_Lsdb5 L_Lsdb6 L_Lsdb7 L_Lsdb8 L_Lsdb9 P_Lsdb.
Open Scope Z_scope.
Set Implicit Arguments.

Lemma exec_app c f now e0 a b :
  fst (exec c f now e0 (a ++ b)) = fst (run (step c) (fst (exec c f now e0 a)) b) /\
  snd (exec c f now e0 (a ++ b)) = snd (exec c f now e0 a) ++ snd (run (step c) (fst (exec c f now e0 a)) b).
Proof.
  rewrite !exec_fst, !exec_snd, run_app.
  destruct (run (step c) (fst (init c f now e0)) a) as [s1 o1]. cbn [fst snd].
  destruct (run (step c) s1 b) as [s2 o2]. cbn [fst snd]. split; [reflexivity|apply app_assoc].
Qed.
Lemma exec_snoc c f now e0 a x :
  fst (exec c f now e0 (a ++ [x])) = fst (step c (fst (exec c f now e0 a)) x) /\
  snd (exec c f now e0 (a ++ [x])) = snd (exec c f now e0 a) ++ snd (step c (fst (exec c f now e0 a)) x).
Proof.
  destruct (exec_app c f now e0 a [x]) as [A B]. rewrite A, B. cbn [run].
  destruct (step c _ x) as [s' o']. cbn [fst snd]. rewrite app_nil_r. auto.
Qed.
Lemma reachable_invF c s : reachable c s -> exists o, invF c s o.
Proof. intros (f & now & e0 & evs & ->). eexists. apply invF_exec. Qed.

(** ** C11 *)

(** An Interest changes nothing in the database, announces nothing and notifies nobody. *)
Theorem C11_no_change c s e i p k v : reachable c s ->
  let r := step c s (e, EInterest i p k v) in
  contents (fst r) = contents s /\ s_seqs (fst r) = s_seqs s /\
  forall o, In o (snd r) -> match o with ONotify _ _ _ _ | OPublish _ _ | OTmp _ | ORename | OFetch _ _ => False | _ => True end.
Proof.
  intros R r. unfold r, step. clear r.
  assert (Id : contents s = contents s /\ s_seqs s = s_seqs s /\ forall o : out, In o [] ->
    match o with ONotify _ _ _ _ | OPublish _ _ | OTmp _ | ORename | OFetch _ _ => False | _ => True end)
    by (split; [reflexivity|]; split; [reflexivity|intros o []]).
  destruct (s_dead s); [exact Id|]. cbn [step_live].
  destruct (is_prefix (c_lsaprefix c) i); [|exact Id]. clear Id.
  destruct (@quietG_interest c i p k v s) as [[] F]. split.
  - assert (G : s_store (fst (process_interest c i p k v s)) = s_store s /\ s_heap (fst (process_interest c i p k v s)) = s_heap s).
    { destruct sG_same as [(A & B & _)|X]; [now split|exact X]. }
    destruct G as [G1 G2]. unfold contents. now rewrite G1, G2.
  - split; [exact sG_seqs|]. intros o Ho. destruct (is_fetch o) eqn:Ef.
    + exfalso. rewrite <- not_true_iff_false in F. apply F. apply existsb_exists. eauto.
    + revert Ho. unfold process_interest. destruct (back 2 i) as [cv|]; [|intros [<-|[]]; exact Logic.I].
      destruct (if is_version cv then _ else _) as [[n [l k']]|]; [intros [<-|[]]; exact Logic.I|].
      rewrite andthen_snd. cbn [emit snd app fst]. intros [<-|Ho]; [exact Logic.I|]. revert Ho.
      assert (St : In o (snd (serve_stored i p s)) -> match o with ONotify _ _ _ _ | OPublish _ _ | OTmp _ | ORename | OFetch _ _ => False | _ => True end).
      { unfold serve_stored. destruct (find _ _) as [[n d]|]; [intros [<-|[]]; exact Logic.I|intros []]. }
      destruct (name_origin _ _) as [or|]; [|exact St]. destruct (eqb _ _); [|exact St].
      destruct (back 1 _) as [cq|]; [|intros [<-|[]]; exact Logic.I].
      destruct (back 2 _) as [ct|]; [|intros [<-|[]]; exact Logic.I].
      destruct (to_number cq); [|intros [<-|[]]; exact Logic.I]. destruct (comp_type ct); [|intros []].
      rewrite andthen_snd. cbn [emit snd app fst]. intros [<-|Ho]; [exact Logic.I|]. revert Ho.
      unfold interest_for_lsa. destruct (find_lsa _ s) as [l0|]; [|intros []].
      destruct (_ =? _)%N; [|intros []]. rewrite !andthen_snd. cbn [upd emit snd app].
      destruct (nth_error _ _) as [[n' [l' k']]|]; cbn [emit ret snd app];
        intros Ho; repeat (destruct Ho as [<-|Ho]; [exact Logic.I|]); destruct Ho.
Qed.

(** Data sent in answer to Interest [i] comes either from the cache of packets already sent, and then
    its name starts with [i]; or it carries the stored LSA of this router that has exactly the type and
    number named in [i]. *)
Theorem C11_exact c s e i p k v n l j : reachable c s -> lsa_conf c -> sane i ->
  In (OData n l j) (snd (step c s (e, EInterest i p k v))) ->
  (In (n, (l, j)) (s_fifo s) /\ exists r, n = i ++ r) \/
  (holds s l /\ l_origin l = c_self c /\ asks c i (l_type l) (l_seq l) /\ exists r, n = i ++ r).
Proof.
  intros R Hc Hs. unfold step. destruct (s_dead s); [intros []|]. cbn [step_live].
  destruct (is_prefix (c_lsaprefix c) i) eqn:Ep; [|intros []].
  destruct (@interest_out c s i p k v (reachable_inv R) Hc Hs Ep) as (A & _). intros H. apply A in H.
  destruct H as [[H1 H2]|(H1 & H2 & H3 & H4 & H5)].
  - left. split; [exact H1|]. now apply is_prefix_true.
  - right. split; [exact H1|]. split; [exact H2|]. split; [exact H3|]. eauto.
Qed.

(** Over a whole run: every packet ever sent, and every packet in the cache, carries an LSA that this
    router originated and held at some earlier moment, and its name designates exactly that LSA. *)
Theorem C11_history c f now e0 evs n l j : lsa_conf c ->
  (forall e i p k v, In (e, EInterest i p k v) evs -> sane i) ->
  In (OData n l j) (snd (exec c f now e0 evs)) \/ In (n, (l, j)) (s_fifo (fst (exec c f now e0 evs))) ->
  was_held c f now e0 evs l /\ l_origin l = c_self c /\
  exists (i : name) v, n = i ++ [version_comp v; segment_comp j] /\ asks c i (l_type l) (l_seq l).
Proof.
  intros Hc. revert n l j. induction evs as [|x evs IH] using rev_ind; intros n l j Hs H.
  - exfalso. rewrite exec_fst, exec_snd in H. cbn [run fst snd] in H. rewrite app_nil_r in H. unfold init in H.
    set (b := St _ _ _ _ _ _ _ _ _ _ _ _ _ _ _ _) in H.
    assert (Q : quietF (build_name c e0 ;; (if eqb (c_hyp c) HOff then ret else build_coord c e0))).
    { apply quietF_andthen; [apply quietF_build_name|]. destruct (eqb _ _); [apply quietF_ret|apply quietF_build_coord]. }
    destruct (Q b) as [[] B]. destruct H as [H|H].
    + now apply calm_data in H.
    + rewrite sF_fifo in H. destruct H.
  - destruct (exec_snoc c f now e0 evs x) as [E1 E2]. rewrite E1, E2 in H. clear E1 E2.
    set (s := fst (exec c f now e0 evs)) in *.
    assert (Hs' : forall e i p k v, In (e, EInterest i p k v) evs -> sane i).
    { intros e i p k v X. apply (Hs e i p k v). apply in_app_iff. auto. }
    assert (Old : In (OData n l j) (snd (exec c f now e0 evs)) \/ In (n, (l, j)) (s_fifo s) ->
      was_held c f now e0 (evs ++ [x]) l /\ l_origin l = c_self c /\
      exists (i : name) v, n = i ++ [version_comp v; segment_comp j] /\ asks c i (l_type l) (l_seq l)).
    { intros X. destruct (IH _ _ _ Hs' X) as ((a & b & -> & A) & B). split; [|exact B].
      exists a, (b ++ [x]). split; [now rewrite app_assoc|exact A]. }
    rewrite in_app_iff in H.
    assert (Oth : (forall i p k v, snd x <> EInterest i p k v) ->
      was_held c f now e0 (evs ++ [x]) l /\ l_origin l = c_self c /\
      exists (i : name) v, n = i ++ [version_comp v; segment_comp j] /\ asks c i (l_type l) (l_seq l)).
    { intros Hx. pose proof (invF_exec c f now e0 evs) as F. fold s in F.
      destruct (@step_survives c s _ x F Hx) as (_ & _ & D). apply Old. destruct H as [[H|H]|H].
      - now left.
      - exfalso. exact (D _ _ _ H).
      - right. exact (@fifo_other c s _ _ F Hx _ H). }
    destruct x as [e v].
    destruct v as [d|u q face|tid|fid content|fid timeout|fid dname content|i p k v| |];
      try (apply Oth; discriminate).
    assert (R : reachable c s) by (exists f, now, e0, evs; reflexivity).
    assert (Si : sane i) by (apply (Hs e i p k v); apply in_app_iff; right; now left).
    unfold step in H. destruct (s_dead s); [cbn [fst snd] in H; apply Old; simpl in H; tauto|].
    cbn [step_live] in H. destruct (is_prefix (c_lsaprefix c) i) eqn:Ep; [|cbn [fst snd] in H; apply Old; simpl in H; tauto].
    destruct (@interest_out c s i p k v (reachable_inv R) Hc Si Ep) as (A & B & _).
    assert (New : holds s l /\ answer c i k v n l j ->
      was_held c f now e0 (evs ++ [(e, EInterest i p k v)]) l /\ l_origin l = c_self c /\
      exists (i : name) v, n = i ++ [version_comp v; segment_comp j] /\ asks c i (l_type l) (l_seq l)).
    { intros (N1 & N2 & N3 & N4 & _). split; [|eauto 6]. exists evs, [(e, EInterest i p k v)]. split; [reflexivity|exact N1]. }
    destruct H as [[H|H]|H].
    + apply Old. now left.
    + apply A in H. destruct H as [[H _]|H]; [apply Old; now right|now apply New].
    + apply B in H. destruct H as [H|H]; [apply Old; now right|now apply New].
Qed.

(** Conversely an Interest for a stored LSA of this router, by its exact type and number, is answered
    with the LSA's first segment. *)
Theorem C11_answered c s e p k v site l : reachable c s -> s_dead s = false -> lsa_conf c ->
  c_self c = c_network c ++ site -> holds s l -> l_origin l = c_self c -> (0 < k)%nat -> (l_seq l < 2 ^ 64)%N ->
  let i := c_lsaprefix c ++ site ++ [type_comp (l_type l); number_comp (l_seq l)] in
  sane i -> In (OData (i ++ [version_comp v; segment_comp 0]) l 0) (snd (step c s (e, EInterest i p k v))).
Proof.
  intros R Hd Hc Hsite Hh Ho Hk Hq i Hs. unfold step. rewrite Hd. cbn [step_live].
  assert (Ep : is_prefix (c_lsaprefix c) i = true) by apply is_prefix_app. rewrite Ep.
  assert (B1 : back 1 i = Some (number_comp (l_seq l))) by (unfold i; rewrite app_assoc; apply back1_app2).
  assert (B2 : back 2 i = Some (type_comp (l_type l))) by (unfold i; rewrite app_assoc; apply back2_app2).
  unfold process_interest. rewrite B2.
  assert (is_version (type_comp (l_type l)) = false) as -> by (destruct (l_type l); reflexivity).
  rewrite andthen_snd. cbn [emit fst snd app]. right.
  assert (No : name_origin c i = Some (c_self c)).
  { unfold i. rewrite name_origin_app by assumption. now rewrite Hsite. }
  rewrite No, eqb_refl, B1, B2, (to_number_comp Hq).
  rewrite (proj2 (comp_type_inv _ _) eq_refl). rewrite andthen_snd. cbn [emit fst snd app]. right.
  unfold interest_for_lsa. pose proof (reachable_inv R) as I. apply (holds_find l I) in Hh.
  assert (El : find_lsa (c_self c, l_type l) s = Some l) by (rewrite <- Ho; exact Hh). rewrite El, N.eqb_refl, B1.
  rewrite number_not_segment. rewrite !andthen_snd. cbn [upd fst snd app].
  destruct k as [|k]; [lia|]. cbn [segments seq map N.to_nat nth_error]. change (N.of_nat 0) with 0%N.
  cbn [emit fst snd]. now left.
Qed.

Definition iX : name := syncX "r1" TName ++ [number_comp 1].
Example C11_example :
  lsa_conf (confX HOff) /\
  (exists l, holds (fst (exec (confX HOff) None 0 envX evsX)) l /\ l_origin l = selfX /\ l_type l = TName /\ l_seq l = 1%N /\
     iX = c_lsaprefix (confX HOff) ++ nm ["site"; "r1"]%string ++ [type_comp (l_type l); number_comp (l_seq l)] /\
     In (OData (iX ++ [version_comp 9; segment_comp 0]) l 0) (snd (exec (confX HOff) None 0 envX (evsX ++ [(envX, EInterest iX true 3 9)])))) /\
  (forall n l j, ~ In (OData n l j) (snd (exec (confX HOff) None 0 envX (evsX ++ [(envX, EInterest (syncX "r1" TName ++ [number_comp 2]) true 3 9)])))).
Proof.
  split; [|split].
  - split; [reflexivity|]. intros [H|[]]. discriminate.
  - eexists. split; [vm_compute; left; reflexivity|]. do 4 (split; [reflexivity|]).
    vm_compute. repeat (first [left; reflexivity|right]).
  - intros n l j H. vm_compute in H. repeat (destruct H as [H|H]; [discriminate|]). exact H.
Qed.

(** ** C12 *)

(** For every LSA name the numbers for which fetches are started never decrease. *)
Theorem C12_order c f now e0 evs n : nondecreasing (fetched n (snd (exec c f now e0 evs))).
Proof. apply (iF_order (invF_exec c f now e0 evs)). Qed.

Lemma update_origin_own c (site : name) t : lsa_conf c -> ~ In (gen "nlsr"%string) (c_network c) ->
  sane (c_lsaprefix c ++ site ++ [type_comp t]) ->
  update_origin (c_lsaprefix c ++ site ++ [type_comp t]) = Some (c_network c ++ site).
Proof.
  intros H Hn Hs. unfold update_origin. rewrite lsa_pos by exact H.
  pose proof (prefix_len H) as L. destruct H as [E Hl].
  assert (Np : comp_pos (gen "nlsr"%string) (c_lsaprefix c ++ site ++ [type_comp t]) = Some (S (length (c_network c)))).
  { rewrite E. change (([gen "localhop"%string] ++ c_network c ++ [gen "nlsr"%string; gen "LSA"%string]) ++ site ++ [type_comp t])
      with (([gen "localhop"%string] ++ (c_network c ++ [gen "nlsr"%string; gen "LSA"%string])) ++ site ++ [type_comp t]).
    replace (([gen "localhop"%string] ++ (c_network c ++ [gen "nlsr"%string; gen "LSA"%string])) ++ site ++ [type_comp t])
      with ((gen "localhop"%string :: c_network c) ++ gen "nlsr"%string :: (gen "LSA"%string :: site ++ [type_comp t]))
      by (simpl; rewrite <- !app_assoc; reflexivity).
    rewrite comp_pos_app; [reflexivity|]. intros [X|X]; [discriminate|auto]. }
  rewrite Np. f_equal. f_equal.
  - unfold sane in Hs. rewrite !app_length in Hs. unfold sub_name. rewrite !app_length, L. unfold plen in *. cbn [length] in *.
    replace (Z.of_nat (S (length (c_network c))) - 1) with (Z.of_nat (length (c_network c))) by lia.
    rewrite Z.mod_small by lia.
    destruct (Z.eqb_spec (Z.of_nat (length (c_network c))) (2 ^ 64 - 1)); [lia|].
    rewrite Z.mod_small by lia. rewrite Z.min_r by lia. rewrite E. cbn [app skipn].
    replace (Z.to_nat _ - 1)%nat with (length (c_network c)) by lia.
    rewrite <- !app_assoc, firstn_app, Nat.sub_diag, firstn_all. simpl. apply app_nil_r.
  - unfold sub_name. change (-1 mod 2 ^ 64) with (2 ^ 64 - 1). rewrite Z.eqb_refl. rewrite <- L.
    rewrite skipn_app, skipn_all, Nat.sub_diag. cbn [app skipn]. rewrite app_length, L.
    rewrite firstn_all2 by lia. apply drop_last_snoc.
Qed.

(** The router never fetches one of its own LSAs. *)
Theorem C12_never_own c f now e0 evs i face site t q : lsa_conf c -> ~ In (gen "nlsr"%string) (c_network c) ->
  In (OFetch i face) (snd (exec c f now e0 evs)) -> sane i ->
  c_self c = c_network c ++ site -> i <> c_lsaprefix c ++ site ++ [type_comp t; number_comp q].
Proof.
  intros Hc Hn H Hs E ->. destruct (iF_out (invF_exec c f now e0 evs) _ _ H) as (u & q' & Ei & _ & _ & o & Ho & Hne).
  replace (c_lsaprefix c ++ site ++ [type_comp t; number_comp q]) with ((c_lsaprefix c ++ site ++ [type_comp t]) ++ [number_comp q]) in *
    by (rewrite <- !app_assoc; reflexivity).
  apply app_inj_tail in Ei. destruct Ei as [<- _]. apply sane_app_l in Hs. rewrite update_origin_own in Ho by assumption. congruence.
Qed.

(** A failed fetch of [u]/[q] leads to another attempt only while its deadline has not passed and no
    fetch of a newer number was ever started; it starts no fetch immediately. *)
Theorem C12_retry c f now e0 evs e fid timeout y :
  let s := fst (exec c f now e0 evs) in
  let r := step c s (e, EFetchErr fid timeout) in
  snd r = [] /\
  (In y (exp (fst r)) -> In y (exp s) \/
   exists ft (u : name) q, get fid (s_fetch s) = Some ft /\ f_iname ft = u ++ [number_comp q] /\
     s_now s < f_deadline ft /\ forall q', In q' (fetched u (snd (exec c f now e0 evs))) -> (q' <= q)%N).
Proof.
  intros s r. unfold r, step. clear r. pose proof (invF_exec c f now e0 evs) as F. fold s in F.
  destruct (s_dead s); [cbn; auto|]. cbn [step_live].
  destruct (@invF_fetch_err c s _ fid timeout F) as (_ & _ & O & N & H & _ & T). split; [exact O|].
  intros Hy. destruct T as [T|(ft & u & q & due & E1 & E2 & E3 & E4 & T)].
  - left. unfold exp in *. now rewrite T in Hy.
  - right. exists ft, u, q. repeat split; trivial. intros q' Hq'.
    destruct (iF_high F _ _ Hq') as (h & Hh & Hl). congruence.
Qed.

(** Fetching stops: once sync reports cease and two hours have passed, every attempt that was waiting
    is made at most once more, and then there are no further fetches, however long the run. *)
Theorem C12_stops c s d e evs : reachable c s -> s_dead s = false -> 7200 * SEC <= Z.abs d ->
  (forall x, In x evs -> is_sync (snd x) = false) ->
  (length (filter is_fetch (snd (run (step c) (fst (step c s (e, ETick d))) evs))) <= length (exp s))%nat.
Proof.
  intros R Hd Hl Hn. destruct (reachable_invF R) as [o F].
  pose proof (invF_step (e, ETick d) F) as F1.
  unfold step in F1 at 1 2. rewrite Hd in F1. unfold step at 2. rewrite Hd. cbn [step_live fst snd] in *.
  set (s1 := w_now (s_now s + Z.abs d) s) in *.
  assert (X : expired s1).
  { destruct F as [_ _ A B _]. split.
    - intros fid ft H. destruct (A fid ft H) as (_ & _ & _ & _ & _ & _ & Hdl). cbn [s_now s1 w_now].
      unfold LSA_REFRESH_TIME_MAX in Hdl. lia.
    - intros tid due i n dl H. destruct (B tid due i n dl H) as (_ & _ & _ & _ & _ & _ & Hdl). cbn [s_now s1 w_now].
      unfold LSA_REFRESH_TIME_MAX in Hdl. lia. }
  change (exp s) with (exp s1). clearbody s1. clear - F1 X Hn.
  revert s1 F1 X. generalize (o ++ []) as o1. clear o.
  induction evs as [|x evs IH]; intros o1 s1 F1 X; [cbn; lia|].
  cbn [run]. destruct (expired_step x F1 X (Hn x (or_introl eq_refl))) as [X2 L].
  pose proof (invF_step x F1) as F2. destruct (step c s1 x) as [s2 o2]. cbn [fst snd] in *.
  specialize (IH (fun y H => Hn y (or_intror H)) _ _ F2 X2). destruct (run (step c) s2 evs) as [s3 o3]. cbn [snd] in *.
  rewrite filter_app, app_length. lia.
Qed.

(** A fetched LSA whose number is older than one for which a fetch of the same name was started is
    dropped: the database is unchanged and nobody is notified. *)
Theorem C12_outdated_dropped c f now e0 evs e fid ft (u : name) q q' content :
  let s := fst (exec c f now e0 evs) in
  get fid (s_fetch s) = Some ft -> f_iname ft = u ++ [number_comp q] -> (q < 2 ^ 64)%N ->
  In q' (fetched u (snd (exec c f now e0 evs))) -> (q < q')%N ->
  let r := step c s (e, EFetchDone fid content) in
  contents (fst r) = contents s /\ (snd r = [] \/ snd r = [OStat RcvData]).
Proof.
  intros s Hf Hi Hq Hin Hlt r. unfold r, step. clear r. destruct (s_dead s); [cbn; auto|]. cbn [step_live].
  pose proof (invF_exec c f now e0 evs) as F. fold s in F.
  destruct (iF_high F _ _ Hin) as (h & Hh & Hl).
  destruct (iF_fetch F _ Hf) as (u' & q2 & Ei & _ & [Hu _] & _).
  rewrite Hi in Ei. apply app_inj_tail in Ei. destruct Ei as [<- _].
  unfold fetch_done. rewrite Hf, Hi, drop_last_snoc, back1_snoc, (to_number_comp Hq).
  rewrite !andthen_fst, !andthen_snd. cbn [upd fst snd app]. set (s0 := w_sto _ s).
  destruct (@after_fetch_cases c (e_sys e) u q content s0 Hu Hq) as [[_ E]|(s1 & E & _)].
  - rewrite E. cbn. auto.
  - exfalso. unfold note_high in E. change (s_high s0) with (s_high s) in E. rewrite Hh in E.
    destruct (N.ltb_spec h q); [lia|]. destruct (N.ltb_spec q h); [discriminate|lia].
Qed.

(** r2 announces 5, then 6 while the fetch of 5 is in progress; the fetch of 6 fails once and is
    retried. *)
Definition evsF : list (env * ev) :=
  [(envX, ESync (syncX "r2" TName) 5 300); (envX, ESync (syncX "r2" TName) 6 300);
   (envX, EFetchErr 1 true); (envX, EFire 1)].
Example C12_example :
  let s := fst (exec (confX HOff) None 0 envX evsF) in
  fetched (syncX "r2" TName) (snd (exec (confX HOff) None 0 envX evsF)) = [5; 6; 6]%N /\
  s_dead s = false /\
  length (exp (fst (exec (confX HOff) None 0 envX (firstn 3 evsF)))) = 1%nat /\
  get 0%nat (s_fetch s) = Some (Fetch (syncX "r2" TName ++ [number_comp 5]) 0 (7200 * SEC)).
Proof. vm_compute. repeat split. Qed.

(** ** C13 *)

(** The claim of C13: what is installed has the origin, type and number of the name it was fetched
    under. *)
Definition C13_claim : Prop := forall c s e fid ft site t q content l,
  reachable c s -> get fid (s_fetch s) = Some ft -> f_iname ft = c_lsaprefix c ++ site ++ [type_comp t; number_comp q] ->
  ~ holds s l -> holds (fst (step c s (e, EFetchDone fid content))) l ->
  l_origin l = c_network c ++ site /\ l_type l = t /\ l_seq l = q.

Theorem C13_refuted : ~ C13_claim.
Proof.
  intros H.
  specialize (H (confX HOff) (fst (exec (confX HOff) None 0 envX (firstn 1 evsX))) envX 0%nat
    (Fetch (syncX "r2" TName ++ [number_comp 5]) 0 (7200 * SEC)) (nm ["site"; "r2"]%string) TName 5%N
    (Some (Lsa (nm ["ndn"; "site"; "r3"]%string) 77 (T0 + 3600 * SEC) (BName [])))
    (Lsa (nm ["ndn"; "site"; "r3"]%string) 77 (T0 + 3600 * SEC) (BName []))).
  destruct H as [H _].
  - exists None, 0, envX, (firstn 1 evsX). reflexivity.
  - vm_compute. reflexivity.
  - reflexivity.
  - vm_compute. intros [X|[]]. discriminate.
  - vm_compute. right. left. reflexivity.
  - vm_compute in H. discriminate.
Qed.

Local Ltac peel E := match type of E with forall k, find_lsa k ?s' = find_lsa k (fst ((emit _ ;; ?g) ?s1)) =>
    let E2 := fresh in assert (E2 : forall k, find_lsa k s' = find_lsa k (fst (g s1)))
      by (intros k; rewrite E, andthen_fst; reflexivity); clear E; rename E2 into E; cbv beta in E end.

(** What does hold: the type matches, the number in the name is newer than what was stored for the
    router in the name, and the only LSA that can change is the one the content claims to be.
    Missing: origin and number of the content are not compared with the name. *)
Theorem C13_type_partial c s e fid content : reachable c s ->
  let s' := fst (step c s (e, EFetchDone fid content)) in
  (forall l, holds s' l <-> holds s l) \/
  exists ft l t u q, content = Some l /\ get fid (s_fetch s) = Some ft /\
    f_iname ft = u ++ [type_comp t; number_comp q] /\ l_type l = t /\ same_but (l_key l) s s'.
Proof.
  intros R s'. unfold s', step. clear s'. pose proof (reachable_inv R) as I.
  pose proof (reachable_inv (reachable_step (e, EFetchDone fid content) R)) as I'.
  unfold step in I'. destruct (s_dead s); [left; tauto|]. cbn [step_live] in *.
  destruct (reachable_invF R) as [o F].
  set (s' := fst (fetch_done c (e_sys e) fid content s)) in *.
  assert (Same : (forall k, find_lsa k s' = find_lsa k s) -> forall l, holds s' l <-> holds s l).
  { intros H l. rewrite (holds_find l I), (holds_find l I'), H. tauto. }
  unfold fetch_done in s'. destruct (get fid (s_fetch s)) as [ft|] eqn:Ef; [|left; apply Same; reflexivity].
  destruct (iF_fetch F _ Ef) as (u & q & Ei & Hq & [Hu _] & _).
  destruct (@exists_last _ u Hu) as (w & ct & ->).
  assert (Es' : forall k, find_lsa k s' = find_lsa k (fst (after_fetch c (e_sys e) (f_iname ft) content
     (w_sto (erase_prefix (drop_last 1 (f_iname ft) ++ [number_comp ((match back 1 (f_iname ft) with Some cq => match to_number cq with Some q => q | None => 0%N end | None => 0%N end + (2 ^ 64 - 1)) mod 2 ^ 64)%N]) (s_sto s)) s)))).
  { intros k. unfold s'. rewrite !andthen_fst. reflexivity. }
  set (s0 := w_sto _ s) in Es'. assert (S0 : sameS s s0) by (repeat split). clearbody s0. clearbody s'.
  unfold after_fetch in Es'. rewrite Ei, drop_last_snoc, back1_snoc, (to_number_comp Hq), back2_snoc, back1_snoc in Es'.
  destruct (note_high _ q s0) as [s1|] eqn:En.
  2: { left. apply Same. intros k. rewrite Es'. apply (find_same k S0). }
  assert (S1 : sameS s s1) by (eapply sameS_trans; [exact S0|exact (note_high_same _ _ _ En)]).
  assert (Left : (forall k, find_lsa k s' = find_lsa k s1) -> forall l, holds s' l <-> holds s l).
  { intros H. apply Same. intros k. rewrite H. apply (find_same k S1). }
  peel Es'.
  destruct (name_origin _ _) as [origin|]; [|left; apply Left; exact Es'].
  destruct (comp_type ct) as [t|] eqn:Et; [|left; apply Left; exact Es'].
  peel Es'.
  destruct (is_new _ _ _ _); [|left; apply Left; exact Es'].
  destruct content as [l|]; [|left; apply Left; exact Es'].
  eqb_case (l_type l) t; [|left; apply Left; exact Es'].
  right. exists ft, l, (l_type l), w, q. split; [reflexivity|]. split; [reflexivity|].
  apply comp_type_inv in Et. subst ct. split; [rewrite Ei, <- app_assoc; reflexivity|]. split; [reflexivity|].
  apply same_but_find; trivial. intros k Hk. rewrite Es'.
  rewrite (install_find c (e_sys e) l k (invS_same S1 I)). eqb_case k (l_key l); [contradiction|]. apply (find_same k S1).
Qed.

Example C13_example :
  exists l, ~ holds (fst (exec (confX HOff) None 0 envX (firstn 1 evsX))) l /\
            holds (fst (exec (confX HOff) None 0 envX (firstn 2 evsX))) l /\ l_type l = TName.
Proof.
  exists (nlsaX 5 [(pX, 7)]). vm_compute. split; [intros [X|[]]; discriminate|]. split; [right; left; reflexivity|reflexivity].
Qed.

(** ** C14 *)

(** A build of the Adjacency LSA is pending. *)
Definition build_pending (s : st) : Prop := exists tid due, get tid (s_timers s) = Some (Timer due ABuild).

(** Unless hyperbolic routing replaced link-state routing, a build request leaves a build pending, due
    after the build interval. *)
Theorem C14_requested c s e : reachable c s -> s_dead s = false -> c_hyp c <> HOn ->
  exists tid, get tid (s_timers (fst (step c s (e, EScheduleBuild)))) = Some (Timer (s_now s + c_build c * SEC) ABuild).
Proof.
  intros R Hd Hh. unfold step. rewrite Hd. cbn [step_live]. unfold schedule_adj_build.
  eqb_case (c_hyp c) HOn; [contradiction|]. cbn [fst]. set (s1 := w_build _ _ _ s).
  pose proof (reachable_inv R) as I. assert (I1 : invS None s1) by (exact (@invS_same None s s1 ltac:(repeat split) I)).
  destruct R as (f & now & e0 & evs & Es). pose proof (invB_exec c f now e0 evs) as B. rewrite <- Es in B.
  destruct (@schedule_build_spec None (c_build c * SEC) s1 I1 (iB_one B)) as (A & _).
  exists (s_ntid s1). now apply A.
Qed.

(** A pending build stays pending until one completes: the timer fires when the states of the
    neighbours allow a build. *)
Theorem C14_pending c s x : reachable c s -> build_pending s ->
  build_pending (fst (step c s x)) \/
  exists tid due, snd x = EFire tid /\ get tid (s_timers s) = Some (Timer due ABuild) /\
    due <= s_now s /\ is_buildable (c_retry c) (e_adl (fst x)) = true.
Proof.
  intros R (tid & due & Ht). pose proof (reachable_inv R) as I.
  assert (B : invB c s) by (destruct R as (f & now & e0 & evs & ->); apply invB_exec).
  assert (Hh : c_hyp c <> HOn) by (intros X; exact (iB_on B X Ht)).
  assert (Hc : 0 < s_count s) by (apply (iB_iff B Hh); now exists tid, due).
  assert (P : build_pending s) by now exists tid, due.
  pose proof (invB_step x I B) as B'.
  destruct x as [e v]. unfold step in *. destruct (s_dead s); [now left|].
  assert (Q : forall a, quietB a -> build_pending (fst (a s))).
  { intros a Ha. destruct (Ha s I) as [_ [_ _ _ K]]. exists tid, due. now apply K. }
  destruct v; cbn [step_live fst snd] in *.
  - left. exact P.
  - left. apply Q, quietB_sync.
  - destruct (eq_dec tid0 tid) as [->|Hne].
    + unfold fire in *. rewrite Ht in *. cbn [t_due t_act] in *. destruct (Z.leb_spec due (s_now s)); [|left; exact P].
      destruct (is_buildable (c_retry c) (e_adl e)) eqn:Eb; [right; exists tid, due; auto|left].
      apply (iB_iff B' Hh). unfold build_adj. rewrite Eb. cbn [fst].
      set (s0 := w_build _ _ _ _). set (d := (_ * SEC)).
      change (0 < s_count (schedule_build d s0)).
      assert (E : s_count (schedule_build d s0) = s_count s0).
      { unfold schedule_build, schedule, cancel. cbn. destruct (s_btid s); reflexivity. }
      rewrite E. exact Hc.
    + left. apply (iB_iff B' Hh).
      assert (K : keepB s (fst (fire c e tid0 s))).
      { unfold fire. destruct (get tid0 (s_timers s)) as [[d0 a]|] eqn:Et; [|apply keepB_refl].
        cbn [t_due t_act]. destruct (d0 <=? s_now s); [|apply keepB_refl].
        assert (Ha : a <> ABuild).
        { intros ->. apply Hne. pose proof (iB_one B Et). pose proof (iB_one B Ht). congruence. }
        set (s1 := w_timers (del tid0 (s_timers s)) (s_ntid s) s).
        assert (K1 : keepB s s1).
        { constructor; try reflexivity. intros t d. unfold armed. cbn [s_timers w_timers s1].
          rewrite get_del. eqb_case t tid0; [|tauto]. split; [discriminate|]. rewrite Et. intros X. injection X as _ X. contradiction. }
        eapply keepB_trans; [exact K1|]. destruct a as [oid| |i n d|n|n].
        - apply keepB_expire. apply invS_del_timer; [now apply invS_weaken|]. intros oid' tm X Y. rewrite Et in X. injection X as <-.
          cbn in Y. congruence.
        - contradiction.
        - apply (@quietB_express i n 0 (Some d) s1). apply invS_del_timer; [exact I|].
          intros oid' tm X Y. rewrite Et in X. injection X as <-. discriminate.
        - now constructor.
        - now constructor. }
      rewrite (kB_count K). exact Hc.
  - left. apply Q, quietB_fetch_done.
  - left. apply Q, quietB_fetch_err.
  - left. apply Q, quietB_segment.
  - left. destruct (is_prefix _ _); [apply Q, quietB_interest|exact P].
  - left. apply Q, quietB_build_name.
  - left. apply (iB_iff B' Hh). unfold schedule_adj_build. eqb_case (c_hyp c) HOn; [contradiction|]. cbn [fst].
    match goal with |- 0 < s_count (schedule_build ?d ?s0) =>
      assert (E0 : s_count (schedule_build d s0) = s_count s0)
        by (unfold schedule_build, schedule, cancel; cbn; destruct (s_btid s); reflexivity); rewrite E0 end.
    cbn [s_count w_build]. lia.
Qed.

Lemma own_adl_names l n : In n (map a_name (own_adl l)) <-> exists a, In a l /\ a_status a = SActive /\ a_name a = n.
Proof.
  unfold own_adl. destruct (adl_of_list_spec (filter (fun a => eqb (a_status a) SActive) l)) as (_ & _ & H). rewrite H, in_map_iff.
  split.
  - intros (a & E & X). apply filter_In in X. destruct X as [X Y]. apply (proj1 (eqb_eq _ _)) in Y. eauto.
  - intros (a & X & Y & E). exists a. split; [exact E|]. apply filter_In. split; [exact X|]. rewrite Y. reflexivity.
Qed.

Lemma adl_eqb_names x y : NoDup (map a_name x) -> NoDup (map a_name y) -> adl_eqb x y = true ->
  forall n, In n (map a_name x) <-> In n (map a_name y).
Proof.
  intros Hx Hy E. unfold adl_eqb in E. apply andb_true_iff in E. destruct E as [El Ef]. apply Nat.eqb_eq in El.
  assert (I1 : incl (map a_name x) (map a_name y)).
  { intros n H. apply in_map_iff in H. destruct H as (a & <- & Ha). rewrite forallb_forall in Ef. apply Ef in Ha.
    apply existsb_exists in Ha. destruct Ha as (b & Hb & Ea). unfold adj_eqb in Ea.
    apply andb_true_iff in Ea. destruct Ea as [Ea _]. apply andb_true_iff in Ea. destruct Ea as [Ea _].
    apply (proj1 (eqb_eq _ _)) in Ea. rewrite Ea. now apply in_map. }
  intros n. split; [apply I1|]. apply (@NoDup_length_incl _ (map a_name x) (map a_name y)); trivial.
  rewrite !map_length. lia.
Qed.

(** Two entries describe the same link: neighbour, face URI, and a cost that is equal or that the code's
    comparison (adjacent.cpp:159-165) cannot tell from it: at most 2^-52 away from the cost rounded up. *)
Definition same_link (a b : adjacent) : Prop :=
  a_name b = a_name a /\ a_uri b = a_uri a /\
  (a_cost b = a_cost a \/ Z.abs (a_cost b - of_int (link_cost a)) < EPS).

(** For whole costs that is equality. *)
Lemma same_link_whole a b : same_link a b -> (exists z, a_cost a = of_int z) -> (exists z, a_cost b = of_int z) ->
  a_cost b = a_cost a.
Proof.
  intros (_ & _ & [E|E]) [x Ex] [y Ey]; [exact E|]. rewrite !link_cost_eq in E. rewrite Ex in E. rewrite Ey in *. rewrite Ex. f_equal.
  assert (U : - ((- of_int x) / UNIT) = x).
  { unfold of_int. rewrite <- Z.mul_opp_l, Z.div_mul; [lia|]. unfold UNIT. now apply Z.pow_nonzero. }
  rewrite U in E. unfold of_int in E. rewrite <- Z.mul_sub_distr_r in E.
  assert (L : 0 < EPS < UNIT) by (split; [apply Z.pow_pos_nonneg; lia|apply Z.pow_lt_mono_r; lia]).
  revert E L. generalize EPS UNIT. intros p u E L. rewrite Z.abs_mul, (Z.abs_eq u) in E by lia.
  destruct (Z.eq_dec y x) as [|N]; [assumption|]. assert (1 <= Z.abs (y - x)) by lia. nia.
Qed.

Lemma own_adl_links l b : In b (own_adl l) -> exists a, In a l /\ a_status a = SActive /\ same_link a b.
Proof.
  intros H. apply (adl_of_list_spec (filter (fun a => eqb (a_status a) SActive) l)) in H. apply filter_In in H. destruct H as [H E].
  apply (proj1 (eqb_eq _ _)) in E. exists b. repeat split; trivial. now left.
Qed.

Lemma adl_eqb_links x l : adl_eqb x (own_adl l) = true -> forall b, In b x -> exists a, In a l /\ a_status a = SActive /\ same_link a b.
Proof.
  intros E b Hb. unfold adl_eqb in E. apply andb_true_iff in E. destruct E as [_ E]. rewrite forallb_forall in E. apply E in Hb.
  apply existsb_exists in Hb. destruct Hb as (a & Ha & Ea). unfold own_adl in Ha.
  apply (adl_of_list_spec (filter (fun a => eqb (a_status a) SActive) l)) in Ha. apply filter_In in Ha. destruct Ha as [Ha Es].
  apply (proj1 (eqb_eq _ _)) in Es. exists a. split; [exact Ha|]. split; [exact Es|]. unfold adj_eqb in Ea.
  apply andb_true_iff in Ea. destruct Ea as [Ea E3]. apply andb_true_iff in Ea. destruct Ea as [E1 E2].
  apply (proj1 (eqb_eq _ _)) in E1, E2. apply Z.ltb_lt in E3. repeat split; trivial. now right.
Qed.

(** When a pending build completes, no build is pending any more and the stored Adjacency LSA of this
    router lists exactly the neighbours that are ACTIVE at that moment, with their face URIs and costs
    ([same_link]; for whole costs exactly those costs, [same_link_whole]), under a number higher than any
    announced before (C08); if no neighbour is ACTIVE there is none.  (Nobody forges LSAs of this
    router.) *)
Theorem C14_completed c f now e0 evs e tid due : no_forged_own c evs ->
  let s := fst (exec c f now e0 evs) in
  let s' := fst (step c s (e, EFire tid)) in
  s_dead s = false -> get tid (s_timers s) = Some (Timer due ABuild) -> due <= s_now s ->
  is_buildable (c_retry c) (e_adl e) = true ->
  ~ build_pending s' /\
  ((exists a, In a (e_adl e) /\ a_status a = SActive) ->
     exists l al, holds s' l /\ l_origin l = c_self c /\ l_body l = BAdj al /\
       (forall n, In n (map a_name al) <-> exists a, In a (e_adl e) /\ a_status a = SActive /\ a_name a = n) /\
       (forall b, In b al -> exists a, In a (e_adl e) /\ a_status a = SActive /\ same_link a b)) /\
  ((forall a, In a (e_adl e) -> a_status a <> SActive) ->
     forall l, holds s' l -> ~ (l_origin l = c_self c /\ l_type l = TAdj)).
Proof.
  intros Hn s s' Hd Ht Hdue Hb.
  assert (R : reachable c s) by (exists f, now, e0, evs; reflexivity).
  pose proof (reachable_inv R) as I. pose proof (invB_exec c f now e0 evs) as B. fold s in B.
  pose proof (reachable_inv (reachable_step (e, EFire tid) R)) as I'. fold s' in I'.
  pose proof (own_ok_exec f now e0 Hn) as O. fold s in O.
  assert (Hh : c_hyp c <> HOn) by (intros X; exact (iB_on B X Ht)).
  assert (Hc : 0 < s_count s) by (apply (iB_iff B Hh); now exists tid, due).
  pose proof (invB_step (e, EFire tid) I B) as B'. fold s' in B'.
  assert (Es : s' = fst (((if Nat.ltb 0 (num_active (e_adl e)) then build_own_adj c e else remove (c_self c, TAdj)) ;;
       upd (fun x => w_build (s_sched x) (s_count x - s_count s) (s_btid x) x))
       (w_build false (s_count s) (s_btid s) (w_timers (del tid (s_timers s)) (s_ntid s) s)))).
  { unfold s', step. rewrite Hd. cbn [step_live]. unfold fire. rewrite Ht. cbn [t_due t_act].
    destruct (Z.leb_spec due (s_now s)); [|lia]. unfold build_adj. rewrite Hb.
    cbn [s_count s_btid s_timers w_build w_timers]. destruct (Z.ltb_spec 0 (s_count s)); [reflexivity|lia]. }
  clearbody s'. rewrite andthen_fst in Es. cbn [upd fst] in Es.
  set (s1 := w_timers (del tid (s_timers s)) (s_ntid s) s) in *.
  assert (I1 : invS None s1).
  { apply invS_del_timer; [exact I|]. intros oid tm X Y. rewrite Ht in X. injection X as <-. discriminate. }
  set (s0 := w_build _ _ _ s1) in *.
  assert (I0 : invS None s0) by (exact (@invS_same None s1 s0 ltac:(repeat split) I1)).
  assert (Q : quietB (if Nat.ltb 0 (num_active (e_adl e)) then build_own_adj c e else remove (c_self c, TAdj))).
  { destruct (Nat.ltb _ _); [apply quietB_build_own_adj|apply quietB_remove]. }
  destruct (Q s0 I0) as [_ [K _ _ _]].
  set (s2 := fst ((if Nat.ltb 0 (num_active (e_adl e)) then build_own_adj c e else remove (c_self c, TAdj)) s0)) in *.
  assert (F2 : forall k, find_lsa k s' = find_lsa k s2) by (intros k; rewrite Es; reflexivity).
  split; [|split].
  - intros P. apply (iB_iff B' Hh) in P. rewrite Es in P. cbn [s_count w_build] in P. rewrite K in P.
    change (s_count s0) with (s_count s) in P. lia.
  - intros (a & Ha & Hact).
    assert (Hna : Nat.ltb 0 (num_active (e_adl e)) = true).
    { apply Nat.ltb_lt. unfold num_active. assert (X : In a (filter (fun a => eqb (a_status a) SActive) (e_adl e))).
      { apply filter_In. split; [exact Ha|]. rewrite Hact. reflexivity. }
      destruct (filter _ _); [destruct X|simpl; lia]. }
    unfold s2 in F2. rewrite Hna in F2.
    set (q := seq_get TAdj (s_seqs s)) in *.
    set (l := own c TAdj (q + 1) (e_sys e) (BAdj (own_adl (e_adl e)))).
    assert (Fl : find_lsa (c_self c, TAdj) s' = match find_lsa (c_self c, TAdj) s with
        | None => Some l | Some o => if (l_seq o <? l_seq l)%N then Some (merged o l) else Some o end).
    { rewrite F2, build_own_adj_eq, !andthen_fst. change (seq_get TAdj (s_seqs s0)) with q. fold l.
      match goal with |- find_lsa _ (fst (install c _ l ?x)) = _ =>
        assert (Sx : sameS s0 x) by (destruct (negb _); repeat split);
        rewrite (install_find c (e_sys e) l (c_self c, TAdj) (invS_same Sx I0)) end.
      change (l_key l) with (c_self c, TAdj). rewrite eqb_refl. rewrite (find_same (c_self c, TAdj) Sx). reflexivity. }
    assert (Good : forall y al, find_lsa (c_self c, TAdj) s' = Some y -> l_body y = BAdj al ->
       (forall n, In n (map a_name al) <-> exists a, In a (e_adl e) /\ a_status a = SActive /\ a_name a = n) ->
       (forall b, In b al -> exists a, In a (e_adl e) /\ a_status a = SActive /\ same_link a b) ->
       exists l al, holds s' l /\ l_origin l = c_self c /\ l_body l = BAdj al /\
       (forall n, In n (map a_name al) <-> exists a, In a (e_adl e) /\ a_status a = SActive /\ a_name a = n) /\
       (forall b, In b al -> exists a, In a (e_adl e) /\ a_status a = SActive /\ same_link a b)).
    { intros y al Hy Hbd H H2. exists y, al. pose proof (@find_key _ _ _ _ I' Hy) as Ky. split; [|split; [|split; [|split]]]; trivial.
      - apply (holds_find y I'). now rewrite Ky.
      - injection Ky as X _. exact X. }
    destruct (find_lsa (c_self c, TAdj) s) as [o|] eqn:Eo.
    + destruct (O _ _ Eo) as [O1 O2]. fold q in O1.
      assert ((l_seq o <? l_seq l)%N = true) as El by (apply N.ltb_lt; change (l_seq l) with (q + 1)%N; lia). rewrite El in Fl.
      pose proof (@find_key _ _ _ _ I Eo) as Ko. injection Ko as _ Ko. unfold l_type in Ko.
      unfold merged, l in Fl. cbn [l_body own] in Fl. destruct (l_body o) as [al| |] eqn:Ebo; try discriminate.
      cbn [update_body] in Fl. cbn [body_adl] in O2.
      destruct (adl_eqb al (own_adl (e_adl e))) eqn:Eq; cbn [fst snd] in Fl.
      * eapply Good; [exact Fl|reflexivity| |exact (@adl_eqb_links _ _ Eq)]. intros n.
        rewrite (@adl_eqb_names _ _ O2 (own_adl_nodup _) Eq n). apply own_adl_names.
      * eapply Good; [exact Fl|reflexivity| |intros b0 Hb0; apply own_adl_links, (adl_of_list_spec (own_adl (e_adl e))), Hb0]. intros n.
        destruct (adl_of_list_spec (own_adl (e_adl e))) as (_ & _ & H). rewrite H. apply own_adl_names.
    + eapply Good; [exact Fl|reflexivity| |apply own_adl_links]. intros n. apply own_adl_names.
  - intros Hna l Hl [Ho Hty].
    assert (Hz : Nat.ltb 0 (num_active (e_adl e)) = false).
    { apply Nat.ltb_ge. unfold num_active. destruct (filter _ _) as [|a r] eqn:Efl; [reflexivity|exfalso].
      assert (X : In a (filter (fun a => eqb (a_status a) SActive) (e_adl e))) by (rewrite Efl; now left).
      apply filter_In in X. destruct X as [X Y]. apply (proj1 (eqb_eq _ _)) in Y. exact (Hna _ X Y). }
    unfold s2 in F2. rewrite Hz in F2. apply (holds_find l I') in Hl. rewrite F2, remove_find in Hl.
    assert (l_key l = (c_self c, TAdj)) as Kl by (unfold l_key; congruence). rewrite Kl, eqb_refl in Hl. discriminate.
Qed.

(** A build is requested twice, fires while r2's state is unknown, is repeated, and completes when r2
    is ACTIVE; later r2 is down and the LSA disappears. *)
Definition envU : env := Env T0 [(pX, 0)] [adjX farX SInactive 0].
Definition evsB : list (env * ev) :=
  [(envU, EScheduleBuild); (envU, EScheduleBuild); (envU, ETick (10 * SEC)); (envU, EFire 2);
   (envU, ETick (3 * SEC)); (envX, EFire 3)].
Example C14_example :
  let s k := fst (exec (confX HOff) None 0 envX (firstn k evsB)) in
  build_pending (s 3%nat) /\ build_pending (s 4%nat) /\ ~ build_pending (s 6%nat) /\
  is_buildable 3 (e_adl envU) = false /\ is_buildable 3 (e_adl envX) = true /\
  map l_body (filter (fun l => eqb (l_type l) TAdj) (contents (s 6%nat))) = [BAdj [adjX farX SActive 0]].
Proof.
  vm_compute. split; [exists 2%nat, 10000000000; reflexivity|].
  split; [exists 3%nat, 13000000000; reflexivity|]. split; [|repeat split].
  intros (tid & due & H). revert H. repeat (destruct tid as [|tid]; [discriminate|]). discriminate.
Qed.

(** ** C15 *)

(** The state of a neighbour is known: it is ACTIVE or has used up its hello retries. *)
Definition known (retry : N) (a : adjacent) : Prop := a_status a = SActive \/ (retry <= a_touts a)%N.

Definition C15_claim : Prop := forall c s e tid due q, reachable c s -> s_dead s = false ->
  get tid (s_timers s) = Some (Timer due ABuild) ->
  In (OPublish TAdj q) (snd (step c s (e, EFire tid))) ->
  forall a, In a (e_adl e) -> known (c_retry c) a.

(** One ACTIVE neighbour is enough for the LSA to be built while nothing is known about the others. *)
Definition envP : env := Env T0 [(pX, 0)] [adjX farX SActive 0; adjX (nm ["ndn"; "site"; "r3"]%string) SInactive 0].
Theorem C15_refuted : ~ C15_claim.
Proof.
  intros H. specialize (H (confX HOff) (fst (exec (confX HOff) None 0 envX [(envP, EScheduleBuild); (envP, ETick (10 * SEC))]))
    envP 1%nat (10 * SEC) 1%N).
  destruct (H ltac:(eexists _, _, _, _; reflexivity) eq_refl eq_refl
      ltac:(vm_compute; right; right; left; reflexivity) (adjX (nm ["ndn"; "site"; "r3"]%string) SInactive 0)
      ltac:(right; left; reflexivity)) as [X|X].
  - discriminate.
  - apply X. reflexivity.
Qed.

Lemma buildable_loop_spec r l cnt size : buildable_loop r cnt l size = true ->
  (exists a, In a l /\ a_status a = SActive) \/
  (exists k, (k <= length l)%nat /\ (cnt + k)%nat = size /\ (k = length l -> forall a, In a l -> (r <= a_touts a)%N)).
Proof.
  revert cnt. induction l as [|a l IH]; intros cnt; cbn [buildable_loop length].
  - intros H. apply Nat.eqb_eq in H. right. exists O. split; [lia|]. split; [lia|]. intros _ a [].
  - eqb_case (a_status a) SActive; [left; exists a; simpl; auto|].
    destruct (N.leb_spec r (a_touts a)) as [L|L]; intros H; apply IH in H.
    + destruct H as [(b & Hb & Hs)|(k & H1 & H2 & H3)]; [left; exists b; simpl; auto|right].
      exists (S k). split; [lia|]. split; [lia|]. intros Hk b [<-|Hb]; [exact L|]. apply H3; [lia|exact Hb].
    + destruct H as [(b & Hb & Hs)|(k & H1 & H2 & H3)]; [left; exists b; simpl; auto|right].
      exists k. split; [lia|]. split; [exact H2|]. intros Hk. lia.
Qed.

(** What does hold: a build happens only if some neighbour is ACTIVE or every neighbour is known to be
    down; in particular the LSA is withdrawn only when every neighbour is known to be down.
    Missing: the claim for the neighbours listed besides an ACTIVE one. *)
Theorem C15_known_partial c s e tid due o : reachable c s -> s_dead s = false ->
  get tid (s_timers s) = Some (Timer due ABuild) -> In o (snd (step c s (e, EFire tid))) ->
  (exists a, In a (e_adl e) /\ a_status a = SActive) \/
  (forall a, In a (e_adl e) -> known (c_retry c) a).
Proof.
  intros R Hd Ht H. unfold step in H. rewrite Hd in H. cbn [step_live] in H. unfold fire in H. rewrite Ht in H.
  cbn [t_due t_act] in H. destruct (due <=? s_now s); [|destruct H]. unfold build_adj in H.
  destruct (is_buildable (c_retry c) (e_adl e)) eqn:Eb; [|destruct H]. clear H.
  apply buildable_loop_spec in Eb. destruct Eb as [X|(k & _ & H2 & H3)]; [now left|right].
  intros a Ha. right. apply H3; [exact H2|exact Ha].
Qed.

Example C15_example : exists o, In o (snd (step (confX HOff) (fst (exec (confX HOff) None 0 envX
  [(envI, EScheduleBuild); (envX, ETick (10 * SEC)); (envX, EFire 1); (envI, EScheduleBuild); (envI, ETick (10 * SEC))])) (envI, EFire 3))) /\
  o = ONotify KRemoved (Lsa selfX 1 (T0 + 3600 * SEC) (BAdj [adjX farX SActive 0])) [] [].
Proof. eexists. split; [vm_compute; left; reflexivity|reflexivity]. Qed.

(** ** C59 *)

(** The only input that can terminate the router is an Interest whose number component is not a
    number: no sync report, fetched content, fetch failure, timer or well-formed Interest throws, and
    nothing is undefined behaviour. *)
Theorem C59_only_malformed c s x : reachable c s -> lsa_conf c ->
  (forall i p k v, snd x = EInterest i p k v -> sane i) ->
  ~ In OUb (snd (step c s x)) /\
  (In OThrow (snd (step c s x)) \/ s_dead (fst (step c s x)) <> s_dead s ->
   exists i p k v u cq, snd x = EInterest i p k v /\ to_number cq = None /\
     (i = u ++ [cq] \/ exists ver y, is_version ver = true /\ i = u ++ [cq; ver; y])).
Proof.
  intros R Hc Hs. destruct (reachable_invF R) as [o F].
  assert (Oth : (forall i p k v, snd x <> EInterest i p k v) ->
    ~ In OUb (snd (step c s x)) /\ ~ (In OThrow (snd (step c s x)) \/ s_dead (fst (step c s x)) <> s_dead s)).
  { intros Hx. destruct (@step_survives c s o x F Hx) as (A & B & _). split.
    - intros X. apply B in X. tauto.
    - intros [X|X]; [|contradiction]. apply B in X. tauto. }
  destruct x as [e v].
  destruct v as [d|u q face|tid|fid content|fid timeout|fid dname content|i p k v| |];
    try (destruct (Oth ltac:(discriminate)) as [O1 O2]; split; [exact O1|intros X; exfalso; exact (O2 X)]).
  clear Oth. specialize (Hs i p k v eq_refl). unfold step. destruct (s_dead s) eqn:Ed.
  { cbn [fst snd]. split; [intros []|]. intros [[]|X]. congruence. }
  cbn [step_live]. destruct (is_prefix (c_lsaprefix c) i) eqn:Ep.
  2: { cbn [fst snd]. split; [intros []|]. intros [[]|X]. congruence. }
  destruct (@interest_out c s i p k v (reachable_inv R) Hc Hs Ep) as (_ & _ & U & T & D).
  split; [exact U|]. intros X.
  assert (Th : In OThrow (snd (process_interest c i p k v s))).
  { destruct X as [X|X]; [exact X|].
    destruct (existsb (fun y => match y with OThrow => true | _ => false end) (snd (process_interest c i p k v s))) eqn:Ex.
    - apply existsb_exists in Ex. destruct Ex as (y & Hy & Ey). destruct y; try discriminate. exact Hy.
    - exfalso. apply X. rewrite D; [exact Ed|]. intros Y. rewrite <- not_true_iff_false in Ex. apply Ex.
      apply existsb_exists. exists OThrow. auto. }
  destruct (T Th) as (cq & B1 & Hq & _). exists i, p, k, v. unfold base in B1.
  assert (Split : forall w : name, back 1 w = Some cq -> exists u, w = u ++ [cq]).
  { intros w Hw. destruct w as [|z w] using rev_ind; [discriminate|]. rewrite back1_snoc in Hw. injection Hw as ->. eauto. }
  destruct (back 2 i) as [cv|] eqn:E2; [destruct (is_version cv) eqn:Ev|].
  - destruct (back2_split _ E2) as (u & y & ->). rewrite drop_last_app2 in B1. destruct (Split _ B1) as [w ->].
    exists w, cq. split; [reflexivity|]. split; [exact Hq|]. right. exists cv, y. rewrite <- app_assoc. auto.
  - destruct (Split _ B1) as [w ->]. exists w, cq. auto.
  - destruct (Split _ B1) as [w ->]. exists w, cq. auto.
Qed.

(** But such an Interest does terminate it: anyone who can send an Interest under the LSA prefix can
    stop the router. *)
Theorem C59_interest_kills_refuted : exists i,
  sane i /\ is_prefix lsaX i = true /\
  In OThrow (snd (step (confX HOff) (fst (exec (confX HOff) None 0 envX [])) (envX, EInterest i false 1 1))) /\
  forall evs, snd (run (step (confX HOff)) (fst (step (confX HOff) (fst (exec (confX HOff) None 0 envX [])) (envX, EInterest i false 1 1))) evs) = [].
Proof.
  exists (syncX "r1" TName ++ [gen "abc"%string]). split; [vm_compute; reflexivity|]. split; [reflexivity|].
  split; [vm_compute; right; left; reflexivity|].
  set (s := fst (step _ _ _)). assert (D : s_dead s = true) by (vm_compute; reflexivity). clearbody s.
  intros evs. induction evs as [|x evs IH]; [reflexivity|]. cbn [run]. unfold step. rewrite D.
  destruct (run _ s evs) as [s1 o1] eqn:Er. cbn [snd] in *. fold (step (confX HOff)) in Er. 
  change (snd (s1, o1) = []). cbn [snd]. unfold step in IH. exact IH.
Qed.

Example C59_example : lsa_conf (confX HOff) /\ reachable (confX HOff) (fst (exec (confX HOff) None 0 envX evsX)) /\
  s_dead (fst (exec (confX HOff) None 0 envX evsX)) = false.
Proof.
  split; [split; [reflexivity|intros [H|[]]; discriminate]|]. split; [|reflexivity]. exists None, 0, envX, evsX. reflexivity.
Qed.

(** ** C60 *)

Lemma fifo_inserts_spec c es s : (length es <= FIFO_LIMIT)%nat -> exists old,
  s_fifo (fold_left (fun s e => fifo_insert c e s) es s) = old ++ es /\ (forall e, In e old -> In e (s_fifo s)).
Proof.
  intros Hl. 
  assert (G : forall done old s, s_fifo s = old ++ done -> (length done + length es <= FIFO_LIMIT)%nat ->
     exists old', s_fifo (fold_left (fun s e => fifo_insert c e s) es s) = old' ++ done ++ es /\ (forall e, In e old' -> In e old)).
  { clear Hl s. induction es as [|x es IH]; intros done old s Hs Hl.
    - exists old. rewrite app_nil_r. auto.
    - cbn [fold_left].
      assert (Hf : exists old1, s_fifo (fifo_insert c x s) = old1 ++ done ++ [x] /\ (forall e, In e old1 -> In e old)).
      { unfold fifo_insert, schedule. cbn [fst s_fifo w_fifo w_timers]. rewrite Hs.
        destruct (Nat.leb_spec FIFO_LIMIT (length (old ++ done))) as [L|L].
        - destruct old as [|y old]; [cbn [app length] in *; lia|]. cbn [app tl]. exists old. rewrite <- app_assoc. split; [reflexivity|].
          intros e He. now right.
        - exists old. rewrite <- app_assoc. auto. }
      destruct Hf as (old1 & Hf & Hin).
      destruct (IH (done ++ [x]) old1 _ Hf) as (old2 & A & B).
      { rewrite app_length. cbn [length] in *. lia. }
      exists old2. rewrite A, <- !app_assoc. split; [reflexivity|]. auto. }
  destruct (G [] (s_fifo s) s) as (old & A & B); [now rewrite app_nil_r|exact Hl|]. exists old. auto.
Qed.

Lemma is_prefix_same_len (a b : name) : length a = length b -> is_prefix a b = true -> a = b.
Proof.
  intros L H. apply is_prefix_true in H. destruct H as [r ->]. rewrite app_length in L.
  destruct r; [now rewrite app_nil_r|simpl in L; lia].
Qed.

(** An LSA of at most 100 segments can be fetched segment by segment: after the router answered the
    Interest for the LSA, an Interest for any of its segments, by version and segment number, is
    answered with exactly that segment under exactly that name (the version is not one used before). *)
Theorem C60_segments c s e p k v site l : reachable c s -> s_dead s = false -> lsa_conf c ->
  c_self c = c_network c ++ site -> holds s l -> l_origin l = c_self c -> (0 < k <= 100)%nat ->
  (l_seq l < 2 ^ 64)%N -> (v < 2 ^ 64)%N ->
  let i := c_lsaprefix c ++ site ++ [type_comp (l_type l); number_comp (l_seq l)] in
  sane i -> (forall n d, In (n, d) (s_fifo s) -> is_prefix (i ++ [version_comp v]) n = false) ->
  forall e' p' k' v' j, (j < N.of_nat k)%N ->
  let i' := i ++ [version_comp v; segment_comp j] in
  snd (step c (fst (step c s (e, EInterest i p k v))) (e', EInterest i' p' k' v')) = [OData i' l j].
Proof.
  intros R Hd Hc Hsite Hh Ho Hk Hq Hv i Hs Hfresh e' p' k' v' j Hj i'.
  assert (Ep : is_prefix (c_lsaprefix c) i = true) by apply is_prefix_app.
  assert (B1 : back 1 i = Some (number_comp (l_seq l))) by (unfold i; rewrite app_assoc; apply back1_app2).
  assert (B2 : back 2 i = Some (type_comp (l_type l))) by (unfold i; rewrite app_assoc; apply back2_app2).
  assert (No : name_origin c i = Some (c_self c)).
  { unfold i. rewrite name_origin_app by assumption. now rewrite Hsite. }
  pose proof (reachable_inv R) as I. apply (holds_find l I) in Hh.
  assert (El : find_lsa (c_self c, l_type l) s = Some l) by (rewrite <- Ho; exact Hh).
  set (segs := segments i v k l).
  assert (Es1 : exists old, s_fifo (fst (step c s (e, EInterest i p k v))) = old ++ segs /\
     (forall x, In x old -> In x (s_fifo s)) /\ s_dead (fst (step c s (e, EInterest i p k v))) = false).
  { unfold step. rewrite Hd. cbn [step_live]. rewrite Ep. unfold process_interest. rewrite B2.
    assert (is_version (type_comp (l_type l)) = false) as -> by (destruct (l_type l); reflexivity).
    rewrite andthen_fst. cbn [emit fst]. rewrite No, eqb_refl, B1, B2, (to_number_comp Hq).
    rewrite (proj2 (comp_type_inv _ _) eq_refl). rewrite andthen_fst. cbn [emit fst].
    unfold interest_for_lsa. rewrite El, N.eqb_refl, !andthen_fst. cbn [upd emit fst]. fold segs.
    destruct (@fifo_inserts_spec c segs s) as (old & A & B).
    { unfold segs, segments. rewrite map_length, seq_length. unfold FIFO_LIMIT. lia. }
    set (s1 := fold_left _ segs s) in *.
    match goal with |- context [fst (match ?m with _ => _ end s1)] =>
      assert (S1 : fst (match m with Some (n, (l, k0)) => emit (OData n l k0) | None => ret end s1) = s1)
        by (destruct m as [[n [l' j']]|]; reflexivity) end.
    rewrite S1. exists old. split; [exact A|]. split; [exact B|]. unfold s1. now rewrite fifo_inserts_dead. }
  destruct Es1 as (old & Ef & Hold & Hd1). set (s1 := fst (step c s (e, EInterest i p k v))) in *. clearbody s1.
  unfold step. rewrite Hd1. cbn [step_live].
  assert (Ep' : is_prefix (c_lsaprefix c) i' = true).
  { unfold i', i. rewrite <- !app_assoc. apply is_prefix_app. }
  rewrite Ep'. unfold process_interest. unfold i' at 1. rewrite back2_app2.
  assert (is_version (version_comp v) = true) as ->.
  { assert (X : is_number_str (nni_enc v) = true) by (unfold is_number_str; now rewrite (@nni_dec_enc v Hv)).
    unfold is_version, is_conv, version_comp. cbn [ctype cval]. now rewrite X. }
  unfold find_prefix. rewrite Ef.
  assert (Ff : find (fun e0 => is_prefix i' (fst e0)) (old ++ segs) = Some (i', (l, j))).
  { assert (G1 : forall old', (forall x, In x old' -> is_prefix i' (fst x) = false) ->
       find (fun e0 => is_prefix i' (fst e0)) (old' ++ segs) = find (fun e0 => is_prefix i' (fst e0)) segs).
    { induction old' as [|y old' IH]; intros H; [reflexivity|]. cbn [app find]. rewrite (H y) by now left.
      apply IH. intros x Hx. apply H. now right. }
    rewrite G1.
    - unfold segs, segments.
      assert (G2 : forall a m, (a <= N.to_nat j < a + m)%nat ->
        find (fun e0 => is_prefix i' (fst e0)) (map (fun k => (i ++ [version_comp v; segment_comp (N.of_nat k)], (l, N.of_nat k))) (seq a m))
        = Some (i', (l, j))).
      { clear - Hj Hk. intros a m. revert a. induction m as [|m IH]; intros a Ha; [lia|].
        cbn [seq map find fst].
        destruct (is_prefix i' (i ++ [version_comp v; segment_comp (N.of_nat a)])) eqn:E.
        - apply is_prefix_same_len in E; [|unfold i'; rewrite !app_length; reflexivity].
          unfold i' in E. apply app_inv_head in E. injection E as E.
          apply nni_enc_inj in E; [|lia|lia]. subst j. reflexivity.
        - apply IH. assert (N.to_nat j <> a); [|lia]. intros <-. rewrite N2Nat.id in E. fold i' in E.
          assert (X : is_prefix i' (i' ++ []) = true) by apply is_prefix_app. rewrite app_nil_r in X. congruence. }
      apply G2. lia.
    - intros [n d] Hx. apply Hold in Hx. apply Hfresh in Hx. cbn [fst].
      destruct (is_prefix i' n) eqn:E; [|reflexivity]. apply is_prefix_true in E. destruct E as [r ->].
      exfalso. unfold i' in Hx.
      replace ((i ++ [version_comp v; segment_comp j]) ++ r) with ((i ++ [version_comp v]) ++ segment_comp j :: r) in Hx
        by (rewrite <- !app_assoc; reflexivity).
      rewrite is_prefix_app in Hx. discriminate. }
  rewrite Ff. reflexivity.
Qed.

(** The limit is real: the cache holds 100 packets, so of an LSA with 101 segments the first one is
    gone by the time it is asked for, and the answer is a packet with a different name. *)
Theorem C60_large_refuted :
  let c := confX HOff in let s := fst (exec c None 0 envX []) in
  let i' := iX ++ [version_comp 9; segment_comp 0] in
  exists l n, holds s l /\ l_origin l = c_self c /\ l_type l = TName /\
    filter (fun o => match o with OData _ _ _ => true | _ => false end)
      (snd (step c (fst (step c s (envX, EInterest iX true 101 9))) (envX, EInterest i' false 101 10))) = [OData n l 0] /\
    n <> i'.
Proof.
  cbv zeta. do 2 eexists. split; [vm_compute; left; reflexivity|]. split; [reflexivity|]. split; [reflexivity|].
  split; [vm_compute; reflexivity|]. vm_compute. discriminate.
Qed.

Example C60_example : (forall n d, In (n, d) (s_fifo (fst (exec (confX HOff) None 0 envX []))) ->
    is_prefix (iX ++ [version_comp 9]) n = false) /\ sane iX.
Proof. split; [intros n d []|vm_compute; reflexivity]. Qed.

(** ** C61 *)

(** Requests arriving faster than the build interval postpone the build for ever: for every number of
    requests there is a run in which 9 s pass between two requests, no build timer is ever overdue, and
    no Adjacency LSA is ever built, however much time has passed since the first request. *)
Fixpoint flapping (n : nat) : list (env * ev) :=
  match n with
  | O => []
  | S n' => flapping n' ++ [(envX, EScheduleBuild); (envX, ETick (9 * SEC))]
  end.
Theorem C61_postponed_refuted n :
  let r := exec (confX HOff) None 0 envX (flapping n) in
  s_now (fst r) = 9 * SEC * Z.of_nat n /\ s_dead (fst r) = false /\
  (forall t due, get t (s_timers (fst r)) = Some (Timer due ABuild) -> s_now (fst r) < due) /\
  announced TAdj (snd r) = [] /\ forall l, holds (fst r) l -> l_type l <> TAdj.
Proof.
  cbv zeta. induction n as [|n IH].
  - vm_compute. repeat split; try discriminate.
    + intros t due. destruct t as [|[|t]]; discriminate.
    + intros l [<-|[]]. discriminate.
  - cbn [flapping]. destruct (exec_app (confX HOff) None 0 envX (flapping n) [(envX, EScheduleBuild); (envX, ETick (9 * SEC))]) as [E1 E2].
    rewrite E1, E2. clear E1 E2.
    assert (R : reachable (confX HOff) (fst (exec (confX HOff) None 0 envX (flapping n)))) by (eexists _, _, _, _; reflexivity).
    pose proof (reachable_inv R) as I. pose proof (invB_exec (confX HOff) None 0 envX (flapping n)) as B.
    set (s := fst (exec (confX HOff) None 0 envX (flapping n))) in *. destruct IH as (A1 & A2 & A3 & A4 & A5).
    set (s1 := w_build (s_sched s) (s_count s + 1) (s_btid s) s).
    assert (I1 : invS None s1) by (exact (@invS_same None s s1 ltac:(repeat split) I)).
    destruct (@schedule_build_spec None (c_build (confX HOff) * SEC) s1 I1 (iB_one B)) as (S1 & S2 & S3 & S4).
    set (s2 := schedule_build (c_build (confX HOff) * SEC) s1) in *.
    assert (E3 : s_dead s2 = false /\ s_now s2 = s_now s /\ contents s2 = contents s).
    { unfold s2, schedule_build, schedule, cancel. cbn [s_btid w_timers]. destruct (s_btid s1); cbn; auto. }
    destruct E3 as (D2 & N2 & C2).
    assert (Er : run (step (confX HOff)) s [(envX, EScheduleBuild); (envX, ETick (9 * SEC))]
                 = (w_now (s_now s2 + Z.abs (9 * SEC)) s2, [])).
    { assert (X1 : step (confX HOff) s (envX, EScheduleBuild) = (s2, [])) by (unfold step; rewrite A2; reflexivity).
      assert (X2 : step (confX HOff) s2 (envX, ETick (9 * SEC)) = (w_now (s_now s2 + Z.abs (9 * SEC)) s2, []))
        by (unfold step; rewrite D2; reflexivity).
      cbn [run]. rewrite X1, X2. reflexivity. }
    rewrite Er. cbn [fst snd].
    split; [|split; [|split; [|split]]].
    + cbn [s_now w_now]. rewrite N2, A1. change (Z.abs (9 * SEC)) with (9 * SEC). lia.
    + exact D2.
    + intros t due H. apply S1 in H. destruct H as [_ ->]. cbn [s_now w_now]. rewrite N2.
      change (s_now s1) with (s_now s). change (Z.abs (9 * SEC)) with (9 * SEC). change (c_build (confX HOff)) with 10. unfold SEC. lia.
    + rewrite app_nil_r. exact A4.
    + intros l H. apply A5. unfold holds in *. change (contents (w_now (s_now s2 + Z.abs (9 * SEC)) s2)) with (contents s2) in H.
      now rewrite C2 in H.
Qed.

Print Assumptions C11_no_change.
Print Assumptions C11_exact.
Print Assumptions C11_history.
Print Assumptions C11_answered.
Print Assumptions C12_order.
Print Assumptions C12_never_own.
Print Assumptions C12_retry.
Print Assumptions C12_stops.
Print Assumptions C12_outdated_dropped.
Print Assumptions C13_refuted.
Print Assumptions C13_type_partial.
Print Assumptions C14_requested.
Print Assumptions C14_pending.
Print Assumptions C14_completed.
Print Assumptions C15_refuted.
Print Assumptions C15_known_partial.
Print Assumptions C59_only_malformed.
Print Assumptions C59_interest_kills_refuted.
Print Assumptions C60_segments.
Print Assumptions C60_large_refuted.
Print Assumptions C61_postponed_refuted.

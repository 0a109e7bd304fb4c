(** C95: from any state, an exchange of LSAs brings the databases of a network into agreement, and keeps them there. *)
From Verif Require Import Base M_Nexthop M_Tlv M_Adj M_Lsa M_Lsdb M_Codec M_Sync S_Lsdb S_Codec M_Net S_Net S_Conv
  L_Lsdb L_Lsdb2 L_Lsdb3 L_Lsdb4 L_Lsdb5 L_Lsdb6 L_Lsdb7 L_Lsdb8 L_Lsdb9 L_Codec P_Codec P_Lsdb P_Lsdb2 P_Sync L_Net L_Net2 P_Net.
Open Scope Z_scope.
Set Implicit Arguments.

(** The numbers of a router's own LSAs are positive. *)
Lemma own_positive c f now e0 evs : undisturbed c evs -> forall t l, find_lsa (c_self c, t) (fst (exec c f now e0 evs)) = Some l -> (0 < l_seq l)%N.
Proof.
  intros U. revert U.
  assert (St : forall s x s' o', invS None s -> (forall t l, find_lsa (c_self c, t) s = Some l -> (0 < l_seq l)%N) -> eff c s x s' o' ->
    (forall fid l, snd x = EFetchDone fid (Some l) -> l_origin l <> c_self c) -> forall t l, find_lsa (c_self c, t) s' = Some l -> (0 < l_seq l)%N).
  { intros s x s' o' I H E F t l0 Hl. destruct E as [E1 E2|fid f1 cq q origin ct t' l Ex Ef _ _ _ _ _ _ _ _ Eo Es|t' q0 b Q Eb _ _ _ Es Eo|l tid Ex El Eo Ef Es|l tid Ex El Eo Ef Es|l tid Ex El Ea Ef Es].
    - rewrite E1 in Hl. exact (H _ _ Hl).
    - rewrite Eo in Hl. destruct (eqb (c_self c, t) (l_key l)) eqn:K; [|exact (H _ _ Hl)]. exfalso. apply eqb_eq in K. apply (F _ _ Ex). now injection K.
    - rewrite Eo in Hl. destruct (eqb _ _) eqn:K; [|exact (H _ _ Hl)]. apply eqb_eq in K. rewrite <- K in Hl. injection Hl as <-. unfold offer.
      destruct (find_lsa (c_self c, t) s) as [o|] eqn:Eo1; [|cbn [own l_seq]; lia]. destruct (_ <? _)%N eqn:L; [|exact (H _ _ Eo1)].
      cbn [merged l_seq own]. lia.
    - rewrite Ef in Hl. destruct (eqb _ _); [|exact (H _ _ Hl)]. injection Hl as <-. cbn [refreshed l_seq]. lia.
    - rewrite Ef in Hl. destruct (eqb _ _); [discriminate|exact (H _ _ Hl)].
    - rewrite Ef in Hl. destruct (eqb _ _); [discriminate|exact (H _ _ Hl)]. }
  apply (@exec_eff_ind c f now e0 (fun evs s _ => undisturbed c evs -> forall t l, find_lsa (c_self c, t) s = Some l -> (0 < l_seq l)%N)); clear evs.
  - intros _ t l X. discriminate X.
  - intros s o s' o' I H E _ U. apply (St _ _ _ _ I (H U) E). discriminate.
  - intros evs s o x s' o' _ _ I H E U. destruct (undisturbed_last _ _ U) as [F _]. exact (St _ _ _ _ I (H (undisturbed_app _ _ U)) E F).
Qed.

Section Net.
Variables (time_str : Z -> string) (time_parse : string -> option Z) (uri_parse : string -> option uri).
Variable w : net.
Notation allowed := (allowed time_str time_parse uri_parse w).
Notation possible := (possible time_str time_parse uri_parse w).
Notation sendable := (sendable time_str time_parse uri_parse w).
Notation codable := (codable time_str time_parse uri_parse w).
Notation converged := (converged w).
Hypothesis W : one_net w.
Hypothesis D : distinct w.

Lemma codable_sendable s : possible s -> codable s -> sendable s.
Proof using W.
  intros P C j m n l k E H. destruct (node_conf W _ E) as (Lc & _ & _).
  destruct (@C11_history (n_conf m) (n_file m) (n_now m) (n_env m) (hist j s) n l k Lc (sane_hist j P) (or_introl H)) as ((h1 & h2 & Eh & Hh) & O & _).
  destruct (hist_split _ _ _ _ Eh) as (s1 & s2 & -> & <-). apply (C j m). split; [exact E|]. split; [exact O|]. exists s1, s2. auto.
Qed.

(** The exchange changes no router's own LSAs... *)
Lemma own_kept s x : possible (s ++ [x]) -> codable s -> exchange x -> forall j m t, nth_error w j = Some m ->
  find_lsa (c_self (n_conf m), t) (nstate m j (s ++ [x])) = find_lsa (c_self (n_conf m), t) (nstate m j s).
Proof using W D.
  intros P C X j m t E. destruct x as [i [e v]]. destruct (Nat.eq_dec i j) as [->|N]; [|destruct (nrun_other m s (i, (e, v)) (i := j)) as [-> _]; [exact N|reflexivity]].
  pose proof (possible_app _ _ P) as P0. pose proof (codable_sendable P0 C) as Sd. pose proof (possible_last _ _ P) as A.
  destruct (nrun_step m j s (e, v)) as [-> _].
  destruct (step_eff (n_conf m) (e, v) (nstate_inv m j s)) as
    [E1 _|fid f cq q origin ct t' l Ex _ _ _ _ _ _ _ _ _ Eo _|t' q0 b Q _ _ _ _ _ _|l tid Ex _ _ _ _|l tid Ex _ _ _ _|l tid Ex _ _ _ _]; cbn [snd] in *.
  - apply E1.
  - subst v. destruct (fetched_spec W P0 Sd E A) as (j' & m' & l' & f' & cq' & (Em & O & _) & -> & Ne & _). rewrite Eo.
    assert (Nk : eqb (c_self (n_conf m), t) (l_key (advertised l')) = false); [|now rewrite Nk].
    apply eqb_neq. unfold l_key. cbn [advertised l_origin]. congruence.
  - exfalso. destruct Q as [[_ Q]|(u & q & f & Ex & Eu & _)].
    + unfold own_build in Q. cbn [snd] in Q. unfold exchange in X. cbn [snd] in X. now destruct v.
    + subst v. destruct A as (n & En & j' & m' & t1 & Em & Nj & -> & _). cbn [fst] in *. rewrite (user_origin W _ t1 Em) in Eu. injection Eu as Eu. apply Nj. now apply (proj2 (D _ E) _ m').
  - subst v. destruct X.
  - subst v. destruct X.
  - subst v. destruct X.
Qed.
Lemma codable_step s x : possible (s ++ [x]) -> codable s -> exchange x -> codable (s ++ [x]).
Proof using W D.
  intros P C X j m l (E & O & s1 & s2 & Es & H). destruct s2 as [|y s2 _] using rev_ind.
  - rewrite app_nil_r in Es. subst s1. apply (C j m). split; [exact E|]. split; [exact O|]. exists s, []. split; [now rewrite app_nil_r|].
    apply (holds_find l (nstate_inv m j _)) in H. apply (holds_find l (nstate_inv m j _)). rewrite <- H. unfold l_key. rewrite O. symmetry. now apply own_kept.
  - rewrite app_assoc in Es. apply app_inj_tail in Es as [-> _]. apply (C j m). split; [exact E|]. split; [exact O|]. exists s1, s2. auto.
Qed.
Lemma exchange_kept xs : forall s, possible (s ++ xs) -> codable s -> Forall exchange xs ->
  codable (s ++ xs) /\ forall j m t, nth_error w j = Some m ->
  find_lsa (c_self (n_conf m), t) (nstate m j (s ++ xs)) = find_lsa (c_self (n_conf m), t) (nstate m j s).
Proof using W D.
  induction xs as [|x xs IH]; intros s P C F; [rewrite app_nil_r; auto|]. inversion_clear F as [|? ? X F'].
  replace (s ++ x :: xs) with ((s ++ [x]) ++ xs) in * by (rewrite <- app_assoc; reflexivity). pose proof (possible_app _ _ P) as P1.
  destruct (IH _ P (@codable_step _ _ P1 C X) F') as [A B]. split; [exact A|]. intros j m t E. rewrite B by exact E. now apply own_kept.
Qed.
Lemma says_iff s xs j m l : possible (s ++ xs) -> codable s -> Forall exchange xs -> says w (s ++ xs) j m l <-> says w s j m l.
Proof using W D.
  intros P C F. destruct (@exchange_kept _ _ P C F) as [_ K]. unfold says.
  split; intros (E & H & O & Pb); (split; [exact E|]; split; [|auto]); apply (holds_find l (nstate_inv m j _)); apply (holds_find l (nstate_inv m j _)) in H;
    unfold l_key in *; rewrite O in *; [rewrite <- H; symmetry|rewrite <- H]; now apply K.
Qed.
Lemma says_unique s j m l l' : says w s j m l -> says w s j m l' -> l_type l = l_type l' -> l = l'.
Proof using.
  intros (_ & H & O & _) (_ & H' & O' & _) T. apply (@holds_unique _ _ _ _ _ H H'). unfold l_key. congruence.
Qed.
Lemma says_number s j m l : possible s -> codable s -> says w s j m l -> l_seq l = seq_get (l_type l) (s_seqs (nstate m j s)) /\ (0 < l_seq l)%N.
Proof using W D.
  intros P C (E & H & O & _). pose proof (only_undisturbed W P (codable_sendable P C) (D _ E)) as U.
  pose proof (own_num_exec (n_file m) (n_now m) (n_env m) U (l_type l)) as [N _]. apply (holds_find l (nstate_inv m j s)) in H. unfold l_key in H. rewrite O in H.
  split; [exact (proj1 (N _ H))|exact (@own_positive _ _ _ _ _ U _ _ H)].
Qed.
Lemma stored_bound s i n l1 j m l : possible s -> codable s -> nth_error w i = Some n -> says w s j m l -> holds (nstate n i s) l1 -> l_key l1 = l_key l -> (l_seq l1 <= l_seq l)%N.
Proof using W D.
  intros P C En Sy H K. destruct (@says_number _ _ _ _ P C Sy) as [-> _]. destruct Sy as (E & _ & O & _).
  assert (X : l_origin l1 = c_self (n_conf m) /\ l_type l1 = l_type l) by (unfold l_key in K; split; congruence). destruct X as [X1 X2]. rewrite <- X2.
  exact (proj1 (@C54_fresh_partial _ _ _ _ W s i n l1 j m P (codable_sendable P C) En H (D _ E) X1)).
Qed.

(** ... and what a router once stores of what another now says, it keeps. *)
Lemma known_kept s x i n j m l : possible (s ++ [x]) -> codable s -> exchange x -> nth_error w i = Some n -> says w s j m l -> knows_of s i n l -> knows_of (s ++ [x]) i n l.
Proof using W D.
  intros P C X En Sy (l1 & H & K & Cp). destruct x as [i' [e v]]. destruct (Nat.eq_dec i' i) as [->|N].
  2:{ exists l1. destruct (nrun_other n s (i', (e, v)) (i := i)) as [-> _]; [exact N|auto]. }
  pose proof (possible_app _ _ P) as P0. pose proof (codable_sendable P0 C) as Sd. pose proof (possible_last _ _ P) as A.
  exists l1. split; [|auto]. apply (holds_find l1 (nstate_inv n i _)). apply (holds_find l1 (nstate_inv n i s)) in H. rewrite <- H.
  destruct (nrun_step n i s (e, v)) as [-> _].
  destruct (step_eff (n_conf n) (e, v) (nstate_inv n i s)) as
    [E1 _|fid f cq q origin ct t' d Ex _ _ _ _ _ _ _ _ _ Eo _|t' q0 b Q _ _ _ _ _ _|d tid Ex _ _ _ _|d tid Ex _ _ _ _|d tid Ex _ _ _ _]; cbn [snd] in *.
  - apply E1.
  - subst v. destruct (fetched_spec W P0 Sd En A) as (j' & m' & l' & f' & cq' & Pr & -> & Ne & _). rewrite Eo.
    destruct (eqb (l_key l1) (l_key (advertised l'))) eqn:Ek; [|reflexivity]. apply eqb_eq in Ek. rewrite <- Ek, H. unfold offer.
    destruct (N.ltb_spec (l_seq l1) (l_seq (advertised l'))) as [Lt|_]; [exfalso|reflexivity].
    destruct Cp as (_ & Cq & _). destruct (@says_number _ _ _ _ P0 C Sy) as [Sq _]. destruct Sy as (Em & Hm & Om & _).
    assert (Ka : l_key l' = l_key l) by (rewrite <- K, Ek; unfold l_key, l_type; cbn [advertised l_origin l_body]; now destruct (l_body l')).
    assert (j' = j). { apply (proj2 (D _ Em) _ m'); [apply Pr|]. destruct Pr as (_ & Pr & _). unfold l_key in Ka. congruence. }
    subst j'. assert (m' = m) by (destruct Pr; congruence). subst m'.
    pose proof (only_undisturbed W P0 Sd (D _ Em)) as U. assert (Kl : l_key l' = (c_self (n_conf m), l_type l')) by (unfold l_key; f_equal; apply Pr).
    pose proof (proj1 (own_unique U (produced_held Pr) Kl)) as B. assert (Tt : l_type l' = l_type l) by (unfold l_key in Ka; congruence).
    rewrite Tt in B. change (l_seq (advertised l')) with (l_seq l') in Lt. unfold nstate, nrun in Sq. lia.
  - exfalso. destruct Q as [[_ Q]|(u & q & f & Ex & Eu & _)].
    + unfold own_build in Q. cbn [snd] in Q. unfold exchange in X. cbn [snd] in X. now destruct v.
    + subst v. destruct A as (n' & En' & j' & m' & t1 & Em & Nj & -> & _). cbn [fst] in *. rewrite (user_origin W _ t1 Em) in Eu. injection Eu as Eu. apply Nj. now apply (proj2 (D _ En) _ m').
  - subst v. destruct X.
  - subst v. destruct X.
  - subst v. destruct X.
Qed.
Theorem C95_stays s xs i n j m l : possible (s ++ xs) -> codable s -> Forall exchange xs -> nth_error w i = Some n ->
  says w s j m l -> knows_of s i n l -> says w (s ++ xs) j m l /\ knows_of (s ++ xs) i n l.
Proof using W D.
  intros P C F En Sy Kn. split; [now apply says_iff|]. revert s P C Sy Kn. induction xs as [|x xs IH]; intros s P C Sy Kn; [now rewrite app_nil_r|].
  inversion_clear F as [|? ? X F']. replace (s ++ x :: xs) with ((s ++ [x]) ++ xs) in * by (rewrite <- app_assoc; reflexivity). pose proof (possible_app _ _ P) as P1.
  apply IH; [exact F'|exact P|now apply codable_step|apply says_iff; auto|]. now apply (@known_kept s x i n j m l).
Qed.

(** One router, another one, and a type *)
Definition goal (s : sched) (g : nat * nat * ltype) : Prop := forall n m l, nth_error w (fst (fst g)) = Some n -> says w s (snd (fst g)) m l ->
  l_type l = snd g -> used (c_hyp (n_conf n)) (l_type l) = true -> knows_of s (fst (fst g)) n l.
Lemma goal_kept s xs g : possible (s ++ xs) -> codable s -> Forall exchange xs -> goal s g -> goal (s ++ xs) g.
Proof using W D.
  intros P C F G n m l En Sy T Us. apply (proj1 (@says_iff s xs _ _ _ P C F)) in Sy. apply (@C95_stays s xs _ n _ m l P C F En Sy). now apply (G n m l).
Qed.
Lemma known_self s i n l : possible s -> codable s -> says w s i n l -> knows_of s i n l.
Proof using.
  intros P C (E & H & O & _). exists l. split; [exact H|]. split; [reflexivity|]. repeat (split; [reflexivity|]). apply similar_refl. intros a Ea.
  destruct (C i n l) as [Ec _]; [split; [exact E|]; split; [exact O|]; exists s, []; now rewrite app_nil_r|]. exact (encodable_nodup Ec Ea).
Qed.
Lemma reach s g : possible s -> codable s -> all_run w s ->
  exists xs, (length xs <= 3)%nat /\ Forall exchange xs /\ possible (s ++ xs) /\ all_run w (s ++ xs) /\ goal (s ++ xs) g.
Proof using W D.
  intros P C R. destruct g as [[i j] t].
  assert (Nil : goal s (i, j, t) -> exists xs, (length xs <= 3)%nat /\ Forall exchange xs /\ possible (s ++ xs) /\ all_run w (s ++ xs) /\ goal (s ++ xs) (i, j, t)).
  { intros G. exists []. rewrite app_nil_r. cbn [length]. split; [lia|]. auto. }
  destruct (nth_error w i) as [n|] eqn:En; [|apply Nil; intros n m l X; cbn [fst] in X; congruence].
  destruct (nth_error w j) as [m|] eqn:Em; [|apply Nil; intros n1 m l _ (X & _); cbn [fst snd] in X; congruence].
  destruct (find_lsa (c_self (n_conf m), t) (nstate m j s)) as [l|] eqn:Fl.
  2:{ apply Nil. intros n1 m1 l _ (X & H & O & _) T _. cbn [fst snd] in *. assert (m1 = m) by congruence. subst m1.
      apply (holds_find l (nstate_inv m j s)) in H. unfold l_key in H. congruence. }
  pose proof (find_key (nstate_inv m j s) Fl) as Kl. assert (Kl1 : l_origin l = c_self (n_conf m) /\ l_type l = t) by (unfold l_key in Kl; split; congruence). destruct Kl1 as [Ol Tl].
  assert (Hl : holds (nstate m j s) l) by (apply (holds_find l (nstate_inv m j s)); now rewrite Kl).
  assert (Un : forall l', says w s j m l' -> l_type l' = t -> l' = l).
  { intros l' (_ & H' & O' & _) T'. apply (@holds_unique m j s l' l H' Hl). unfold l_key. congruence. }
  destruct (publishes (c_hyp (n_conf m)) t) eqn:Pb.
  2:{ apply Nil. intros n1 m1 l' _ (X & H & O & Pb') T _. cbn [fst snd] in *. assert (m1 = m) by congruence. subst m1. congruence. }
  assert (Sy : says w s j m l) by (split; [exact Em|]; split; [exact Hl|]; split; [exact Ol|]; now rewrite Tl).
  destruct (used (c_hyp (n_conf n)) t) eqn:Us.
  2:{ apply Nil. intros n1 m1 l' X _ T Us'. cbn [fst snd] in *. assert (n1 = n) by congruence. subst n1. congruence. }
  assert (One : forall xs, knows_of (s ++ xs) i n l -> possible (s ++ xs) -> Forall exchange xs -> goal (s ++ xs) (i, j, t)).
  { intros xs Kn P' F n1 m1 l' X Y T _. cbn [fst snd] in *. assert (n1 = n) by congruence. assert (m1 = m) by (destruct Y; congruence). subst n1 m1.
    apply (proj1 (@says_iff s xs _ _ _ P' C F)) in Y. now rewrite (Un _ Y T). }
  assert (Nil' : knows_of s i n l -> goal s (i, j, t)).
  { intros Kn. rewrite <- (app_nil_r s). apply One; rewrite ?app_nil_r; auto. }
  destruct (Nat.eq_dec i j) as [->|Nij].
  { assert (n = m) by congruence. subst n. apply Nil, Nil'. exact (@known_self _ _ _ _ P C Sy). }
  pose proof (codable_sendable P C) as Sd. destruct (C j m l) as [Ec Ft]; [split; [exact Em|]; split; [exact Ol|]; exists s, []; now rewrite app_nil_r|].
  assert (Cs : knows_of s i n l \/ forall l1, holds (nstate n i s) l1 -> l_key l1 = l_key l -> (l_seq l1 < l_seq l)%N).
  { destruct (find_lsa (l_key l) (nstate n i s)) as [l1|] eqn:F1.
    - pose proof (find_key (nstate_inv n i s) F1) as K1. assert (H1 : holds (nstate n i s) l1) by (apply (holds_find l1 (nstate_inv n i s)); now rewrite K1).
      pose proof (@stored_bound s i n l1 j m l P C En Sy H1 K1) as B. destruct (N.eq_dec (l_seq l1) (l_seq l)) as [Eq|Ne].
      + left. exists l1. split; [exact H1|]. split; [exact K1|]. exact (@C55_latest _ _ _ _ W s i n l1 j m l P Sd En (D _ Em) Hl Ol H1 K1 Eq).
      + right. intros l2 H2 K2. assert (l2 = l1) by (apply (@holds_unique n i s l2 l1 H2 H1); congruence). subst l2. lia.
    - right. intros l2 H2 K2. exfalso. apply (holds_find l2 (nstate_inv n i s)) in H2. congruence. }
  destruct Cs as [Kn|Low]; [apply Nil, Nil', Kn|].
  destruct (@says_number s j m l P C Sy) as [_ Q0]. rewrite <- Tl in Us, Pb.
  destruct (@reached_core _ _ _ _ W s i n j m l (n_env n) (n_env m) (n_env n) true 1%nat 0%N 0%N P Sd En (D _ Em) Nij (R _ _ En) (R _ _ Em) Us Hl Ol Pb Q0 Ec Ft (le_n 1) Low)
    as (P' & Kn & Dd & _).
  eexists. split; [|split; [|split; [exact P'|split]]].
  - cbn [length]. lia.
  - repeat constructor.
  - intros i' n' E'. rewrite Dd by exact E'. now apply R.
  - apply One; [exact Kn|exact P'|repeat constructor].
Qed.

Lemma reach_all gs : forall s, possible s -> codable s -> all_run w s ->
  exists xs, (length xs <= 3 * length gs)%nat /\ Forall exchange xs /\ possible (s ++ xs) /\ all_run w (s ++ xs) /\ forall g, In g gs -> goal (s ++ xs) g.
Proof using W D.
  induction gs as [|g gs IH]; intros s P C R.
  - exists []. rewrite app_nil_r. split; [cbn; lia|]. split; [constructor|]. split; [exact P|]. split; [exact R|]. intros g [].
  - destruct (@reach s g P C R) as (xs & L & F & P1 & R1 & G). destruct (@exchange_kept xs s P1 C F) as [C1 _].
    destruct (IH _ P1 C1 R1) as (ys & L2 & F2 & P2 & R2 & G2). exists (xs ++ ys). rewrite app_assoc. split; [rewrite app_length; cbn [length]; lia|].
    split; [apply Forall_app; auto|]. split; [exact P2|]. split; [exact R2|]. intros g' [<-|Hg]; [now apply goal_kept|now apply G2].
Qed.

(** Whatever happened before, if all routers run, at most nine events for every two routers make every router store
    what every router says of itself; they only exchange LSAs, and no router has to say anything new of itself. *)
Theorem C95_converges s : possible s -> codable s -> all_run w s ->
  exists xs, (length xs <= 9 * (length w * length w))%nat /\ Forall exchange xs /\ possible (s ++ xs) /\ all_run w (s ++ xs) /\
    (forall j m l, says w (s ++ xs) j m l <-> says w s j m l) /\ converged (s ++ xs).
Proof using W D.
  intros P C R. set (ns := seq 0 (length w)). destruct (@reach_all (list_prod (list_prod ns ns) [TName; TAdj; TCoord]) s P C R) as (xs & L & F & P' & R' & G).
  exists xs. rewrite !prod_length in L. unfold ns in L. rewrite seq_length in L. cbn [length] in L. split; [lia|]. split; [exact F|]. split; [exact P'|]. split; [exact R'|].
  split; [intros j m l; now apply says_iff|]. intros i n j m l En Sy Us. apply (G (i, j, l_type l)) with (m := m); [|exact En|exact Sy|reflexivity|exact Us].
  apply in_prod; [apply in_prod; apply in_seq; (split; [lia|]); cbn [Nat.add]|destruct (l_type l); cbn; auto].
  - apply nth_error_Some. congruence.
  - apply nth_error_Some. destruct Sy. congruence.
Qed.
(** And further exchanges leave it so. *)
Theorem C95_stable s xs : possible (s ++ xs) -> codable s -> Forall exchange xs -> converged s -> converged (s ++ xs).
Proof using W D.
  intros P C F Cv i n j m l En Sy Us. apply (proj1 (@says_iff s xs _ _ _ P C F)) in Sy. apply (@C95_stays s xs i n j m l P C F En Sy). exact (Cv _ _ _ _ _ En Sy Us).
Qed.
End Net.

(** C48: the names a running router announces under. *)
From Verif Require Import Base M_Nexthop M_Tlv M_Adj M_Lsa M_Lsdb S_Lsdb L_Lsdb L_Lsdb2 L_Lsdb3 L_Lsdb4 L_Lsdb5 L_Lsdb6 L_Lsdb7 L_Lsdb8 L_Lsdb9
  M_Sync P_Lsdb P_Lsdb2 P_Sync X_Lsdb.
Open Scope Z_scope.
Set Implicit Arguments.

(** The nodes registered with the sync protocol are those of the types of LSA that the routing mode uses. *)
Theorem C48_nodes h p u : In u (user_nodes h p) <-> exists t, used h t = true /\ u = p ++ [type_comp t].
Proof.
  unfold user_nodes, lsa_user_prefix. split.
  - destruct h; cbn; intros H; repeat (destruct H as [<-|H]); try destruct H;
      ((now exists TName) || (now exists TAdj) || (now exists TCoord)).
  - intros (t & U & ->). destruct h, t; cbn in *; try discriminate U; auto.
Qed.

(** What is stored of the router's own and what it announced is of a type in use. *)
Definition ownT (c : conf) (s : st) (o : list out) : Prop :=
  (forall k l, find_lsa k s = Some l -> l_origin l = c_self c -> used (c_hyp c) (l_type l) = true) /\
  forall t q, In (OPublish t q) o -> used (c_hyp c) t = true.

Lemma merged_key o y : l_key y = l_key o -> l_origin (merged o y) = l_origin o /\ l_type (merged o y) = l_type o.
Proof.
  intros K. injection K as K1 K2. unfold merged, l_type in *. cbn [l_origin l_body]. split; [reflexivity|].
  unfold update_body. destruct (l_body o), (l_body y); try discriminate K2; cbn; try reflexivity;
    repeat match goal with |- context [if ?b then _ else _] => destruct b end; reflexivity.
Qed.

Lemma ownT_eff c s x s' o o' : invS None s ->
  (forall tid, snd x = EFire tid -> c_hyp c = HOn -> forall due, ~ armed s tid due) -> ownT c s o -> eff c s x s' o' ->
  (forall fid l, snd x = EFetchDone fid (Some l) -> l_origin l <> c_self c) -> ownT c s' (o ++ o').
Proof.
  intros I B [H1 H2] E F.
  assert (OF : forall l, offered s l s' -> (l_origin l = c_self c -> used (c_hyp c) (l_type l) = true) ->
     (forall k l', find_lsa k s' = Some l' -> l_origin l' = c_self c -> used (c_hyp c) (l_type l') = true)).
  { intros l O U k l' Hl Ho. rewrite O in Hl. destruct (eqb k (l_key l)) eqn:K; [|exact (H1 _ _ Hl Ho)].
    apply (proj1 (eqb_eq _ _)) in K. injection Hl as <-. unfold offer in *. destruct (find_lsa (l_key l) s) as [o1|] eqn:E1; [|now apply U].
    pose proof (find_key I E1) as K1. destruct (_ <? _)%N; [|exact (H1 _ _ E1 Ho)].
    destruct (merged_key (o := o1) (y := l)) as [M1 M2]; [congruence|]. rewrite M1 in Ho. rewrite M2. exact (H1 _ _ E1 Ho). }
  assert (AP : (forall t q, In (OPublish t q) o' -> used (c_hyp c) t = true) -> forall t q, In (OPublish t q) (o ++ o') -> used (c_hyp c) t = true).
  { intros A t q H. apply in_app_or in H as [H|H]; [exact (H2 _ _ H)|exact (A _ _ H)]. }
  assert (NO : forall l1 l2 t q, In (OPublish t q) (offer_outs l1 l2) -> False).
  { intros l1 l2 t q H. apply in_split in H as (a & b & H). exact (@offer_no_pub _ _ _ _ _ _ H). }
  destruct E as [E1 E2|fid f cq q origin ct t' l Ex Ef _ _ _ _ _ _ _ _ Eo Es|t' q0 b Q Eb _ _ _ Es Eo|l tid Ex El Eo Ef Es|l tid Ex El Eo Ef Es|l tid Ex El Ea Ef Es].
  - split; [intros k l; rewrite E1; apply H1|]. apply AP. intros t q [].
  - split; [apply (OF l Eo); intros X; now destruct (F _ _ Ex)|]. apply AP. intros t q1 H. now apply NO in H.
  - assert (U : used (c_hyp c) t' = true).
    { destruct Q as [[_ Q]|(u & q & g & _ & _ & _ & _ & _ & A1 & A2)].
      - unfold own_build in Q. destruct (snd x) as [| |tid| | | | | |]; try destruct Q; clear F.
        + subst t'. destruct H0 as [due Ht]. destruct (c_hyp c) eqn:Eh; try reflexivity. now destruct (B _ eq_refl eq_refl _ Ht).
        + now subst t'.
        + destruct H as [-> N]. destruct (c_hyp c); [contradiction|reflexivity|reflexivity].
      - destruct t'; [rewrite (A1 eq_refl)|rewrite (A2 eq_refl)|]; reflexivity. }
    split; [apply (OF _ Eo); intros _; unfold l_type, own; cbn [l_body]; now rewrite Eb|].
    apply AP. intros t q H. apply in_app_or in H as [[H|[H|[]]]|H]; [discriminate H|discriminate H|].
    apply in_app_or in H as [H|H]; [|now apply NO in H]. destruct (publishes _ _); [|destruct H]. destruct H as [H|[]]. injection H as <- _. exact U.
  - split.
    + intros k l' Hl Ho. rewrite Ef in Hl. destruct (eqb k (l_key l)); [|exact (H1 _ _ Hl Ho)]. injection Hl as <-. exact (H1 _ _ El Eo).
    + apply AP. intros t q [H|[H|[H|[]]]]; try discriminate H. injection H as <- _. exact (H1 _ _ El Eo).
  - split; [|apply AP; intros t q [H|[]]; discriminate H].
    intros k l' Hl Ho. rewrite Ef in Hl. destruct (eqb k (l_key l)); [discriminate Hl|exact (H1 _ _ Hl Ho)].
  - split; [|apply AP; intros t q [H|[]]; discriminate H].
    intros k l' Hl Ho. rewrite Ef in Hl. destruct (eqb k _); [discriminate Hl|exact (H1 _ _ Hl Ho)].
Qed.

(** No fetched LSA claims to be this router's. *)
Definition foreign (c : conf) (evs : list (env * ev)) : Prop :=
  forall e fid l, In (e, EFetchDone fid (Some l)) evs -> l_origin l <> c_self c.

Lemma ownT_exec c f now e0 evs : foreign c evs -> ownT c (fst (exec c f now e0 evs)) (filter rel (snd (exec c f now e0 evs))).
Proof.
  revert evs. apply (@exec_eff_ind c f now e0 (fun evs s o => foreign c evs -> ownT c s o)).
  - intros _. split; [discriminate|intros t q []].
  - intros s o s' o' I H E _ _. assert (F0 : foreign c []) by (intros ? ? ? []).
    refine (@ownT_eff c s (e0, EBuildName) s' o o' I _ (H F0) E _); discriminate.
  - intros evs s o x s' o' Es _ I H E F. refine (@ownT_eff c s x s' o o' I _ (H _) E _).
    + intros tid _ Hh due. subst s. intros A. exact (iB_on (invB_exec c f now e0 evs) Hh A).
    + intros e fid l X. apply (F e fid). apply in_or_app. now left.
    + intros fid l X. destruct x as [e v]. cbn [snd] in X. subst v. apply (F e fid). apply in_or_app. right. now left.
Qed.

(** Every announcement of a run is made under a name that is registered, provided that no LSA that was
    fetched from others claims to be this router's. *)
Theorem C48_registered c f now e0 evs p t q : foreign c evs ->
  In (OPublish t q) (snd (exec c f now e0 evs)) -> In (p ++ [type_comp t]) (user_nodes (c_hyp c) p).
Proof.
  intros F H. apply C48_nodes. exists t. split; [|reflexivity].
  apply (proj2 (@ownT_exec c f now e0 evs F) t q). apply filter_In. split; [exact H|reflexivity].
Qed.

(** What a sync protocol reports of an announcement (the name of the node, the number) reaches the other
    routers' databases as the update name and number of the announcement, with any of the protocols. *)
Theorem C48_delivered proto u q face : exists face',
  adapter_update proto (session proto u) q face = (u, q, face') /\ (proto <> ChronoSync -> face' = face).
Proof.
  destruct proto; cbn [adapter_update session].
  - exists 0%N. rewrite drop_last_snoc. split; [reflexivity|congruence].
  - now exists face.
  - now exists face.
Qed.

(** From a router's decision to announce number [q] of its LSA of type [t] to the update that another router's database is
    given: one update, from which it recovers this router, this type and this number. *)
Theorem C48_published net site router t q proto face : clean net -> sane (lsa_user_prefix (sync_user_prefix net site router) t) ->
  exists u n face' ct, M_Sync.announced (sync_user_prefix net site router) (OPublish t q) = [(u, n)] /\
    adapter_update proto (session proto u) n face = (u, q, face') /\
    update_origin u = Some (net ++ site ++ router) /\ back 1 u = Some ct /\ comp_type ct = Some t.
Proof.
  intros Cl Sn. destruct (@C48_update_partial net site router t Cl Sn) as (A & ct & B & C).
  destruct (C48_delivered proto (lsa_user_prefix (sync_user_prefix net site router) t) q face) as (face' & D & _). do 4 eexists. split; [reflexivity|]. split; [exact D|]. split; [exact A|]. split; [exact B|exact C].
Qed.
(** Nothing else is announced. *)
Theorem C48_published_only p o u n : In (u, n) (M_Sync.announced p o) -> exists t, o = OPublish t n /\ u = p ++ [type_comp t].
Proof. destruct o; cbn; intros H; try (destruct H; fail). destruct H as [[= <- <-]|[]]. eauto. Qed.
Example C48_published_example : clean (nm ["ndn"]%string) /\ sane (lsa_user_prefix (sync_user_prefix (nm ["ndn"]%string) (nm ["site"]%string) (nm ["r1"]%string)) TAdj).
Proof. split; [split; intros [H|[]]; discriminate H|vm_compute; reflexivity]. Qed.

(** A run in dry-run mode that makes all three kinds of announcement. *)
Definition buildX : list (env * ev) := [(envX, EScheduleBuild); (envX, ETick (10 * SEC)); (envX, EFire 2)].
Example C48_registered_example : foreign (confX HDry) buildX /\
  forall t, exists q, In (OPublish t q) (snd (exec (confX HDry) None 0 envX buildX)).
Proof.
  split.
  - intros e fid l [H|[H|[H|[]]]]; discriminate H.
  - intros t. exists 1%N. destruct t; vm_compute; tauto.
Qed.

Print Assumptions C48_nodes.
Print Assumptions C48_registered.
Print Assumptions C48_delivered.
Print Assumptions C48_published.
Print Assumptions C48_published_only.

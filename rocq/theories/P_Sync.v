(** C48: names of sync updates; C66: what an update leads to. *)
From Verif Require Import Base M_Nexthop M_Tlv M_Adj M_Lsa M_Lsdb S_Lsdb L_Lsdb L_Lsdb2 L_Lsdb3 L_Lsdb4 L_Lsdb5 L_Lsdb6 L_Lsdb7 L_Lsdb8 M_Sync
  P_Lsdb P_Lsdb2 X_Lsdb.
Open Scope Z_scope.

Lemma comp_type_comp t : comp_type (type_comp t) = Some t.
Proof. now apply comp_type_inv. Qed.

Set Implicit Arguments.
(** ** C48 *)

Definition net_conf (net : name) : conf := Conf net net (lsa_prefix net) 1800 3600 3 1 10 HOff 0 [] 4.
Definition clean (net : name) : Prop := ~ In (gen "nlsr"%string) net /\ ~ In (gen "LSA"%string) net.

(** The router and the type that any router recovers from the name under which a router announces an LSA
    are the ones of that router and LSA, provided the network name contains neither "nlsr" nor "LSA". *)
Theorem C48_update_partial net site router t : clean net ->
  let u := lsa_user_prefix (sync_user_prefix net site router) t in sane u ->
  update_origin u = Some (net ++ site ++ router) /\
  exists ct, back 1 u = Some ct /\ comp_type ct = Some t.
Proof.
  intros [Hn Hl] u Hs. assert (E : u = c_lsaprefix (net_conf net) ++ (site ++ router) ++ [type_comp t]).
  { unfold u, lsa_user_prefix, sync_user_prefix. cbn [c_lsaprefix net_conf]. now rewrite <- !app_assoc. }
  rewrite E in *. split.
  - rewrite update_origin_own; [reflexivity|split; [reflexivity|exact Hl]|exact Hn|exact Hs].
  - exists (type_comp t). split; [|apply comp_type_comp]. rewrite app_assoc. apply back1_snoc.
Qed.

(** So do routers that recover it from the name of an Interest for the LSA; here the network of the
    router that looks need only have no "LSA" in its name. *)
Theorem C48_interest_partial c net site router t q : clean net -> c_network c = net ->
  let i := lsa_user_prefix (sync_user_prefix net site router) t ++ [number_comp q] in sane i ->
  name_origin c i = Some (net ++ site ++ router) /\
  (exists ct, back 2 i = Some ct /\ comp_type ct = Some t) /\
  ((q < 2 ^ 64)%N -> exists cq, back 1 i = Some cq /\ to_number cq = Some q).
Proof.
  intros [Hn Hl] Ec i Hs. assert (E : i = lsa_prefix net ++ (site ++ router) ++ [type_comp t; number_comp q]).
  { unfold i, lsa_user_prefix, sync_user_prefix. now rewrite <- !app_assoc. }
  rewrite E in *. clear E i. split; [|split].
  - set (c' := net_conf net). pose proof (@name_origin_app c' (site ++ router) (type_comp t) (number_comp q)) as H.
    cbn [c_lsaprefix c' net_conf c_network] in H. unfold name_origin in *. rewrite Ec. apply H; [|exact Hs].
    split; [reflexivity|exact Hl].
  - exists (type_comp t). split; [|apply comp_type_comp]. rewrite app_assoc. apply back2_app2.
  - intros Hq. exists (number_comp q). split; [|now apply to_number_comp]. rewrite app_assoc. apply back1_app2.
Qed.

(** Different routers or types of one network announce under different names. *)
Theorem C48_injective net p1 p2 t1 t2 :
  lsa_user_prefix (lsa_prefix net ++ p1) t1 = lsa_user_prefix (lsa_prefix net ++ p2) t2 -> p1 = p2 /\ t1 = t2.
Proof.
  unfold lsa_user_prefix. intros H. apply app_inj_tail in H as [H1 H2]. apply app_inv_head in H1. split; [exact H1|].
  destruct t1, t2; try reflexivity; discriminate.
Qed.

(** With a network named /ndn/nlsr, another router is recovered. *)
Theorem C48_nlsr_refuted : exists net site router t,
  let u := lsa_user_prefix (sync_user_prefix net site router) t in
  sane u /\ ~ In (gen "LSA"%string) net /\ update_origin u <> Some (router_prefix net site router).
Proof.
  exists (nm ["ndn"; "nlsr"]%string), (nm ["site"]%string), (nm ["r1"]%string), TName. cbv zeta.
  split; [vm_compute; reflexivity|]. split; [intros [H|[H|[]]]; discriminate|]. vm_compute. discriminate.
Qed.
(** The same for a network named /ndn/LSA. *)
Theorem C48_lsa_refuted : exists net site router t,
  let u := lsa_user_prefix (sync_user_prefix net site router) t in
  sane u /\ ~ In (gen "nlsr"%string) net /\ update_origin u <> Some (router_prefix net site router).
Proof.
  exists (nm ["ndn"; "LSA"]%string), (nm ["site"]%string), (nm ["r1"]%string), TName. cbv zeta.
  split; [vm_compute; reflexivity|]. split; [intros [H|[H|[]]]; discriminate|]. vm_compute. discriminate.
Qed.

(** Site and router names may contain the markers. *)
Example C48_example : let net := nm ["ndn"]%string in let site := nm ["nlsr"; "LSA"]%string in let router := nm ["NAME"]%string in
  clean net /\ sane (lsa_user_prefix (sync_user_prefix net site router) TAdj) /\
  update_origin (lsa_user_prefix (sync_user_prefix net site router) TAdj) = Some (nm ["ndn"; "nlsr"; "LSA"; "NAME"]%string).
Proof.
  cbv zeta. split; [split; intros [H|[]]; discriminate|]. split; vm_compute; reflexivity.
Qed.

(** ** C66 *)

(** The types of LSA that the routing mode uses. *)
Definition used (h : hyp) (t : ltype) : bool :=
  match t with TName => true | TAdj => negb (eqb h HOn) | TCoord => negb (eqb h HOff) end.
(** The newest number known for a name that is fetched (m_highestSeqNo). *)
Definition newest (s : st) (u : name) : N := match get u (s_high s) with Some h => h | None => 0%N end.

Lemma is_new_true (s : st) (o : name) t q : invS None s ->
  (forall l, holds s l -> l_key l = (o, t) -> (l_seq l < q)%N) -> is_new o (Some t) q s = true.
Proof.
  intros I H. unfold is_new. destruct (find_lsa (o, t) s) as [l|] eqn:F; [|reflexivity]. apply N.ltb_lt.
  pose proof (find_key I F) as K. apply H; [|exact K]. apply (holds_find l I). now rewrite K.
Qed.
Lemma is_new_false (s : st) (o : name) t q l : invS None s -> holds s l -> l_key l = (o, t) -> (q <= l_seq l)%N ->
  is_new o (Some t) q s = false.
Proof.
  intros I H K L. apply (holds_find l I) in H. unfold is_new. rewrite <- K, H. apply N.ltb_ge. lia.
Qed.

Lemma express_new (s : st) (u : name) t q face : back 1 u = Some (type_comp t) -> (q < 2 ^ 64)%N -> (newest s u <= q)%N ->
  let r := express (u ++ [number_comp q]) 0 face None s in
  filter is_fetch (snd r) = [OFetch (u ++ [number_comp q]) face] /\ newest (fst r) u = q /\
  contents (fst r) = contents s /\ s_dead (fst r) = s_dead s.
Proof.
  intros B Q W. cbv zeta. unfold express. rewrite drop_last_snoc, back1_snoc, back2_snoc, B, to_number_comp by exact Q.
  cbv beta iota. rewrite comp_type_comp. unfold note_high, newest in *. destruct (get u (s_high s)) as [h|] eqn:Eh.
  - destruct (N.ltb_spec h q) as [L|L]; [|destruct (N.ltb_spec q h); [lia|]].
    + cbn. rewrite get_set_eq. auto.
    + assert (h = q) by lia. subst h. cbn. rewrite Eh. auto.
  - cbn. rewrite get_set_eq. auto.
Qed.
Lemma express_old (s : st) (u : name) q face : (q < 2 ^ 64)%N -> (q < newest s u)%N ->
  express (u ++ [number_comp q]) 0 face None s = (s, [OStat SentInt]).
Proof.
  intros Q W. unfold express. rewrite drop_last_snoc, back1_snoc, to_number_comp by exact Q.
  unfold note_high, newest in *. destruct (get u (s_high s)) as [h|]; [|lia].
  destruct (N.ltb_spec h q); [lia|]. destruct (N.ltb_spec q h); [reflexivity|lia].
Qed.

Section C66.
Variables (c : conf) (site : name) (t : ltype).
Notation o := (c_network c ++ site).
Notation u := (c_lsaprefix c ++ site ++ [type_comp t]).
Hypothesis (Hc : lsa_conf c) (Hn : ~ In (gen "nlsr"%string) (c_network c)) (Hs : sane u) (Ho : o <> c_self c).

Lemma sync_step s e q face : s_dead s = false -> (0 < q < 2 ^ 64)%N ->
  step c s (e, ESync u q face) =
    if is_new o (Some t) q s && used (c_hyp c) t
    then (emit (ONewLsa u q o face) ;; express (u ++ [number_comp q]) 0 face None) s
    else (s, []).
Proof using Hc Hn Hs Ho.
  intros D Q. unfold step. rewrite D. cbn [step_live]. rewrite N.mod_small by lia. unfold on_sync.
  rewrite update_origin_own by assumption. unfold process_update. rewrite (app_assoc (c_lsaprefix c)), back1_snoc, <- app_assoc, comp_type_comp.
  match goal with |- context [@eqb ?A ?I ?x (c_self c)] => destruct (@eqb A I x (c_self c)) eqn:E end; [apply eqb_eq in E; contradiction|].
  destruct (is_new o (Some t) q s); [|reflexivity]. cbn [andb].
  assert (Z : (q =? 0)%N = false) by (apply N.eqb_neq; lia). rewrite Z. cbn [negb].
  destruct t, (c_hyp c); reflexivity.
Qed.

(** In the state after any run: *)
Variables (f : option seqs) (now : Z) (e0 : env) (evs : list (env * ev)).
Notation s := (fst (exec c f now e0 evs)).
Notation outs := (snd (exec c f now e0 evs)).

Lemma newest_le q : (forall q', In q' (fetched u outs) -> (q' <= q)%N) -> (newest s u <= q)%N.
Proof using.
  intros H. unfold newest. destruct (get _ (s_high s)) as [h|] eqn:E; [|lia]. apply H. exact (iF_known (invF_exec c f now e0 evs) _ E).
Qed.
Lemma newest_gt q q' : In q' (fetched u outs) -> (q < q')%N -> (q < newest s u)%N.
Proof using.
  intros H L. destruct (iF_high (invF_exec c f now e0 evs) _ _ H) as (h & E & Lh). unfold newest. rewrite E. lia.
Qed.
Lemma exec_reachable : reachable c s.
Proof using. unfold reachable. eauto. Qed.

(** sync reports a number for an LSA of another router.  If the LSA is of a type in use, the database
    holds none of that origin and type with this or a higher number, and no higher number was ever asked
    for, the LSA is fetched under its name from the face that reported it, once. *)
Theorem C66_fetched e q face : s_dead s = false -> (0 < q < 2 ^ 64)%N ->
  used (c_hyp c) t = true -> (forall l, holds s l -> l_key l = (o, t) -> (l_seq l < q)%N) ->
  (forall q', In q' (fetched u outs) -> (q' <= q)%N) ->
  let r := step c s (e, ESync u q face) in
  In (ONewLsa u q o face) (snd r) /\ filter is_fetch (snd r) = [OFetch (u ++ [number_comp q]) face] /\
  contents (fst r) = contents s /\ s_dead (fst r) = false.
Proof using Hc Hn Hs Ho.
  intros D Q U N W r. unfold r. clear r. rewrite sync_step by assumption. rewrite U. apply newest_le in W.
  rewrite is_new_true; [|exact (reachable_inv exec_reachable)|exact N]. cbn [andb].
  assert (B : back 1 u = Some (type_comp t)) by (rewrite app_assoc; apply back1_snoc).
  pose proof (@express_new s u t q face B (proj2 Q) W) as X. cbv zeta in X. revert X.
  unfold andthen, emit. destruct (express _ _ _ _ s) as [s' o']. cbn [fst snd app filter is_fetch].
  intros (X1 & X2 & X3 & X4). rewrite X4. cbn [In]. auto 6.
Qed.

(** If the type is not in use, or the number is not newer than that of the LSA in the database, the report
    has no effect. *)
Theorem C66_ignored e q face : s_dead s = false -> (0 < q < 2 ^ 64)%N ->
  used (c_hyp c) t = false \/ (exists l, holds s l /\ l_key l = (o, t) /\ (q <= l_seq l)%N) ->
  step c s (e, ESync u q face) = (s, []).
Proof using Hc Hn Hs Ho.
  intros D Q [U|(l & H & K & L)]; rewrite sync_step by assumption.
  - rewrite U, Bool.andb_false_r. reflexivity.
  - now rewrite (is_new_false (reachable_inv exec_reachable) H K L).
Qed.

(** If a higher number was asked for before, nothing is fetched. *)
Theorem C66_outdated e q q' face : s_dead s = false -> (0 < q < 2 ^ 64)%N -> In q' (fetched u outs) -> (q < q')%N ->
  let r := step c s (e, ESync u q face) in
  filter is_fetch (snd r) = [] /\ contents (fst r) = contents s.
Proof using Hc Hn Hs Ho.
  intros D Q Hf W r. unfold r. clear r. rewrite sync_step by assumption. destruct (_ && _); [|auto].
  pose proof (newest_gt Hf W) as W'.
  unfold andthen, emit. rewrite (@express_old s u q face (proj2 Q) W'). cbn. auto.
Qed.
End C66.

(** r2's Name LSA in the example run. *)
Example C66_example : let c := confX HOff in let s := fst (exec c None 0 envX evsX) in
  lsa_conf c /\ ~ In (gen "nlsr"%string) (c_network c) /\ sane (syncX "r2" TName) /\ s_dead s = false /\
  syncX "r2" TName = c_lsaprefix c ++ nm ["site"; "r2"]%string ++ [type_comp TName] /\
  fetched (syncX "r2" TName) (snd (exec c None 0 envX evsX)) = [5; 6]%N /\
  snd (step c s (envX, ESync (syncX "r2" TName) 7 300)) =
    [ONewLsa (syncX "r2" TName) 7 farX 300; OStat SentInt; OFetch (syncX "r2" TName ++ [number_comp 7]) 300; OStat (SentIntT TName)] /\
  snd (step c s (envX, ESync (syncX "r2" TName) 6 300)) = [] /\ snd (step c s (envX, ESync (syncX "r2" TCoord) 6 300)) = [].
Proof.
  cbv zeta. split; [split; [reflexivity|intros [H|[]]; discriminate]|]. split; [intros [H|[]]; discriminate|].
  split; [vm_compute; reflexivity|]. split; [vm_compute; reflexivity|]. split; [reflexivity|]. split; [vm_compute; reflexivity|].
  split; [vm_compute; reflexivity|]. split; vm_compute; reflexivity.
Qed.

Print Assumptions C48_update_partial.
Print Assumptions C48_interest_partial.
Print Assumptions C48_injective.
Print Assumptions C48_nlsr_refuted.
Print Assumptions C48_lsa_refuted.
Print Assumptions C66_fetched.
Print Assumptions C66_ignored.
Print Assumptions C66_outdated.

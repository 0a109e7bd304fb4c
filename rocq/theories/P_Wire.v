(** C81: the encoding an LSA is served with is that of its current content. *)
From Verif Require Import Base M_Nexthop M_Tlv M_Adj M_Lsa M_Lsdb M_Codec S_Lsdb S_Codec M_Wire X_Lsdb
  L_Lsdb L_Lsdb2 L_Lsdb3 P_Lsdb P_Lsdb2 L_Codec P_Codec.
Open Scope Z_scope.
Set Implicit Arguments.

Section Coherence.
Variables (ts : Z -> string) (tp : string -> option Z) (up : string -> option uri).

(** What is fetched was decoded from the received octets. *)
Definition received (y : wev) : Prop :=
  match y with
  | WEv (_, EFetchDone _ (Some l)) b => dec_lsa tp up (l_type l) b = Some l
  | _ => True
  end.

(** Text forms of times and URIs are stable: reading one and printing it again loses nothing. *)
Definition stable_text : Prop :=
  (forall s x, tp s = Some x -> tp (ts x) = Some x) /\ (forall s u, up s = Some u -> up u = Some u).

Definition coherent (sw : st * wires) : Prop :=
  forall k b, snd sw k = Some b -> exists l, find_lsa k (fst sw) = Some l /\
    (b = enc_lsa ts l \/ dec_lsa tp up (l_type l) b = Some (advertised l)).

Lemma drops_same l l' : drops_wire l l' = false -> l_seq l = l_seq l' /\ l_exp l = l_exp l' /\
  (l_body l = l_body l' \/ exists r an, l_body l' = BCoord r an).
Proof.
  unfold drops_wire. intros H. apply Bool.orb_false_elim in H. destruct H as [H1 H2].
  apply Bool.orb_false_elim in H1. destruct H1 as [H0 H1]. apply Bool.negb_false_iff in H0, H1.
  apply N.eqb_eq in H0. apply Z.eqb_eq in H1. split; [exact H0|]. split; [exact H1|].
  destruct (l_body l') as [a|r an|n]; [left|right; eauto|left];
    apply Bool.negb_false_iff in H2; apply (proj1 (eqb_eq _ _)) in H2; exact H2.
Qed.

Lemma lsa_eta l : l = Lsa (l_origin l) (l_seq l) (l_exp l) (l_body l). Proof. now destruct l. Qed.

(** What an offered LSA leaves under its key, when its wire is kept, is what was there. *)
Lemma offer_keeps o l : drops_wire o (offer (Some o) l) = false -> offer (Some o) l = o.
Proof.
  unfold offer. destruct (l_seq o <? l_seq l)%N eqn:E; [|reflexivity]. intros D. apply drops_same in D.
  destruct D as (D & _). unfold merged in D. cbn [l_seq] in D. apply N.ltb_lt in E. lia.
Qed.

Lemma fetch_seqs c sys fid l s : s_seqs (fst (fetch_done c sys fid l s)) = s_seqs s.
Proof.
  unfold fetch_done. destruct (get fid (s_fetch s)) as [f|]; [|reflexivity]. cbv zeta.
  rewrite !andthen_fst. cbn [upd fst]. cbn [w_fetch s_seqs]. unfold after_fetch.
  destruct (back 1 _) as [cq|]; [|reflexivity].
  destruct (to_number cq) as [q|]; [|rewrite andthen_fst; reflexivity].
  match goal with |- context [note_high ?n q ?s1] => destruct (note_high n q s1) as [s2|] eqn:En end; [|reflexivity].
  apply note_high_seqs in En. rewrite andthen_fst. cbn [emit fst].
  destruct (name_origin c _) as [origin|]; [|exact En]. destruct (back 2 _) as [ct|]; [|exact En].
  destruct (comp_type ct) as [t|]; [|exact En]. rewrite andthen_fst. cbn [emit fst].
  destruct (is_new _ _ _ _); [|exact En]. destruct l as [l|]; [|exact En]. destruct (eqb _ _); [|exact En].
  now rewrite install_seqs.
Qed.

Lemma coherent_step c s w x b : stable_text -> invS None s -> received (WEv x b) ->
  coherent (s, w) -> coherent (wstep ts c (s, w) (WEv x b)).
Proof.
  intros [Ht Hu] I R H k b'. cbn [wstep fst snd]. unfold wires_after.
  pose proof (step_eff c x I) as E. assert (Sf : forall fid l, snd x = EFetchDone fid l -> s_seqs (fst (step c s x)) = s_seqs s).
  { destruct x as [e v]. cbn [snd]. intros fid l ->. unfold step. destruct (s_dead s); [reflexivity|]. apply fetch_seqs. }
  remember (fst (step c s x)) as s' eqn:Es. clear Es.
  remember (filter rel _) as os eqn:Eo in E. clear Eo.
  assert (Keep : forall l, find_lsa k s = Some l -> find_lsa k s' = Some l ->
     w k = Some b' -> exists l0, find_lsa k s' = Some l0 /\
       (b' = enc_lsa ts l0 \/ dec_lsa tp up (l_type l0) b' = Some (advertised l0))).
  { intros l F F' W. destruct (H k b' W) as (l0 & F0 & C). cbn [fst] in F0. exists l. split; [exact F'|].
    rewrite F in F0. injection F0 as <-. exact C. }
  destruct (find_lsa k s) as [l|] eqn:F; destruct (find_lsa k s') as [l'|] eqn:F'; try discriminate.
  - destruct (drops_wire l l') eqn:D; [discriminate|]. apply (Keep l); [reflexivity|]. f_equal.
    assert (Same : find_lsa k s' = find_lsa k s -> l' = l) by (intros Q; congruence).
    inversion E as [Q _|fid f cq q origin ct t y _ _ _ _ _ _ _ _ _ _ Q _|t q0 bd _ _ _ _ _ _ Q
      |y tid _ Y _ Q _|y tid _ _ _ Q _|y tid _ _ _ Q _]; subst; try (apply Same; now rewrite Q).
    + specialize (Q k). rewrite F' in Q. destruct (eqb k (l_key y)) eqn:K; [apply (proj1 (eqb_eq _ _)) in K; subst k|]; [|now apply Same; rewrite F'].
      rewrite F in Q. assert (X : l' = offer (Some l) y) by congruence. clear - X D. subst l'. now apply offer_keeps.
    + specialize (Q k). rewrite F' in Q. revert Q. set (y := own _ _ _ _ _). clearbody y. intros Q.
      destruct (eqb k (l_key y)) eqn:K; [apply (proj1 (eqb_eq _ _)) in K; subst k|]; [|now apply Same; rewrite F'].
      rewrite F in Q. assert (X : l' = offer (Some l) y) by congruence. clear - X D. subst l'. now apply offer_keeps.
    + specialize (Q k). rewrite F' in Q. destruct (eqb k (l_key y)) eqn:K; [apply (proj1 (eqb_eq _ _)) in K; subst k|]; [|now apply Same; rewrite F'].
      injection Q as ->. apply drops_same in D. destruct D as (D & _).
      rewrite F in Y. injection Y as ->. unfold refreshed in D. cbn [l_seq] in D. lia.
    + specialize (Q k). rewrite F' in Q. destruct (eqb k (l_key y)); [discriminate|]. now apply Same; rewrite F'.
    + specialize (Q k). rewrite F' in Q. destruct (eqb k _); [discriminate|]. now apply Same; rewrite F'.
  - destruct x as [e v]. cbn [snd] in *. destruct v; try discriminate. intros [= <-].
    exists l'. split; [reflexivity|right].
    inversion E as [Q _|fid' f cq q origin ct t y Ev _ _ _ _ _ _ Ty _ _ Q _|t q0 bd Q0 _ _ _ _ Sq Q
      |y tid Ev Y _ Q _|y tid Ev _ _ Q _|y tid Ev _ _ Q _]; subst; try discriminate.
    + rewrite (Q k), F in F'. discriminate.
    + cbn [snd] in Ev. injection Ev as -> ->. specialize (Q k). rewrite F' in Q.
      destruct (eqb k (l_key y)) eqn:K; [|rewrite F in Q; discriminate]. apply (proj1 (eqb_eq _ _)) in K. subst k.
      rewrite F in Q. cbn [offer] in Q. injection Q as ->. cbn [received] in R.
      destruct (@C42_faithful ts tp up _ _ _ Ht Hu R) as (_ & _ & A & _). now rewrite A.
    + exfalso. destruct Q0 as [[-> _]|(u & q & face & Ev & _)]; [|discriminate Ev].
      rewrite (Sf _ _ eq_refl) in Sq. apply (f_equal (seq_get t)) in Sq. rewrite seq_get_set in Sq. lia.
Qed.

Lemma coherent_encode c s w k : coherent (s, w) -> coherent (wstep ts c (s, w) (WEncode k)).
Proof.
  intros H k' b. cbn [wstep fst snd]. destruct (eqb k' k) eqn:K; [|apply H].
  apply (proj1 (eqb_eq _ _)) in K. subst k'. unfold wire_of. destruct (find_lsa k s) as [l|] eqn:F; [|discriminate].
  intros [= <-]. exists l. split; [reflexivity|]. destruct (w k) as [b|] eqn:W; [|now left].
  destruct (H k b W) as (l0 & F0 & C). cbn [fst] in F0. rewrite F in F0. now injection F0 as <-.
Qed.

(** The database of a history is that of its events: encoding changes nothing in it. *)
Definition events (ys : list wev) : list (env * ev) :=
  flat_map (fun y => match y with WEv x _ => [x] | WEncode _ => [] end) ys.

Lemma wexec_fst c f now e0 ys : fst (wexec ts c f now e0 ys) = fst (exec c f now e0 (events ys)).
Proof.
  rewrite exec_fst. unfold wexec. generalize (fst (init c f now e0)) as s. generalize (fun _ : name * ltype => @None string) as w.
  induction ys as [|y ys IH]; intros w s; [reflexivity|]. cbn [fold_left events flat_map].
  destruct y as [x b|k]; cbn [wstep app]; [|apply IH].
  rewrite IH. cbn [run]. unfold events. destruct (step c s x) as [s1 o1]. cbn [fst].
  destruct (run (step c) s1 _). reflexivity.
Qed.

Lemma coherent_exec c f now e0 ys : stable_text -> Forall received ys -> coherent (wexec ts c f now e0 ys).
Proof.
  intros T. induction ys as [|y ys IH] using rev_ind; intros R.
  - intros k b. discriminate.
  - apply Forall_app in R. destruct R as [R1 R2]. apply Forall_inv in R2. specialize (IH R1).
    unfold wexec. rewrite fold_left_app. cbn [fold_left]. fold (wexec ts c f now e0 ys).
    pose proof (wexec_fst c f now e0 ys) as E. destruct (wexec ts c f now e0 ys) as [s w]. cbn [fst] in E.
    destruct y as [x b|k]; [|now apply coherent_encode]. apply coherent_step; trivial. rewrite E. apply invS_exec.
Qed.

(** Whatever the router has received, built, refreshed, updated and encoded before, the octets it now
    gives out for a stored LSA (as answer to an Interest or in a dataset) decode to that LSA as it is
    stored now. *)
Theorem C81_current c f now e0 ys k l : stable_text -> Forall received ys ->
  let '(s, w) := wexec ts c f now e0 ys in
  find_lsa k s = Some l -> encodable ts tp up l -> fits (enc_lsa ts l) ->
  exists b, wire_of ts s w k = Some b /\ dec_lsa tp up (l_type l) b = Some (advertised l).
Proof.
  intros T R. pose proof (@coherent_exec c f now e0 ys T R) as H. destruct (wexec ts c f now e0 ys) as [s w].
  intros F En Fi. unfold wire_of. rewrite F. eexists. split; [reflexivity|].
  destruct (w k) as [b|] eqn:W; [|now apply C41_roundtrip].
  destruct (H k b W) as (l0 & F0 & C). cbn [fst] in F0. rewrite F in F0. injection F0 as <-.
  destruct C as [->|C]; [now apply C41_roundtrip|exact C].
Qed.

Lemma dec_dataset_cons t b l bs : dec_lsa tp up t b = Some l ->
  dec_dataset tp up t (b ++ bs)%string = match dec_dataset tp up t bs with Some r => Some (l :: r) | None => None end.
Proof.
  unfold dec_lsa, dec_block. destruct (read_elt b) as [[e r]|] eqn:E; [|discriminate].
  destruct r as [|? ?]; [|discriminate]. cbn [obind]. intros D. unfold dec_dataset.
  rewrite (dec_elts_cons (read_more bs E)). cbn [append]. destruct (dec_elts bs) as [es|]; [|reflexivity].
  cbn [option_map obind fold_right]. rewrite D. cbn [obind].
  destruct (fold_right _ _ es); reflexivity.
Qed.

(** The LSDB dataset put together from these octets decodes to the stored LSAs of the requested type. *)
Theorem C81_dataset c f now e0 ys t ks : stable_text -> Forall received ys ->
  let '(s, w) := wexec ts c f now e0 ys in
  (forall k, In k ks -> exists l, find_lsa k s = Some l /\ encodable ts tp up l /\ fits (enc_lsa ts l)) ->
  exists ls, dec_dataset tp up t (dataset_wires ts t (s, w) ks) = Some ls /\
    Forall2 (fun k a => exists l, find_lsa k s = Some l /\ a = advertised l) (filter (fun k => eqb (snd k) t) ks) ls.
Proof.
  intros T R. pose proof (@C81_current c f now e0 ys) as H. pose proof (wexec_fst c f now e0 ys) as Ef.
  destruct (wexec ts c f now e0 ys) as [s w]. cbn [fst] in Ef.
  assert (I : invS None s) by (rewrite Ef; apply invS_exec). clear Ef.
  unfold dataset_wires. cbn [fst snd]. induction ks as [|k ks IH]; intros Hk; cbn [filter map cat].
  - exists []. split; [reflexivity|constructor].
  - destruct IH as (ls & D & F2); [intros k' Hk'; apply Hk; now right|].
    destruct (eqb (snd k) t) eqn:Et; [|now exists ls]. cbn [map cat].
    destruct (Hk k (or_introl eq_refl)) as (l & Fl & En & Fi).
    destruct (H k l T R Fl En Fi) as (b & Wb & Db). rewrite Wb.
    assert (K : l_type l = t).
    { apply (proj1 (eqb_eq _ _)) in Et. rewrite <- Et. now rewrite <- (find_key I Fl). }
    rewrite K in Db. rewrite (@dec_dataset_cons t b _ _ Db), D. exists (advertised l :: ls). split; [reflexivity|].
    constructor; [now exists l|exact F2].
Qed.
End Coherence.

(** ** A case *)

(** r2's coordinates with number 5 are fetched and encoded, then new coordinates with number 6 arrive:
    what is served then decodes to the new ones. *)
Definition clsaX (q : N) (r : Z) : lsa := Lsa farX q (T0 + 3600 * SEC) (BCoord (of_int r) [of_int 1; of_int 2]).
Definition wevX (x : env * ev) : wev := WEv x EmptyString.
Definition wgotX (fid : nat) (l : lsa) : wev := WEv (envX, EFetchDone fid (Some l)) (enc_lsa ts8 l).
Definition wevsX : list wev :=
  [wevX (envX, ESync (syncX "r2" TCoord) 5 300); wgotX 0 (clsaX 5 3); WEncode (farX, TCoord);
   WEncode (selfX, TName); wevX (envX, ESync (syncX "r2" TCoord) 6 300); wgotX 1 (clsaX 6 4)].

Example C81_case : stable_text ts8 tp8 Some /\ Forall (received tp8 Some) wevsX /\
  let '(s, w) := wexec ts8 (confX HOn) None 0 envX wevsX in
  find_lsa (farX, TCoord) s = Some (clsaX 6 4) /\ fits (enc_lsa ts8 (clsaX 6 4)) /\
  w (selfX, TName) <> None /\
  dec_lsa tp8 Some TCoord (match wire_of ts8 s w (farX, TCoord) with Some b => b | None => EmptyString end) = Some (clsaX 6 4).
Proof.
  split; [split; [exact (proj1 C42_example)|intros s u [= <-]; reflexivity]|]. split.
  - repeat (constructor; [vm_compute; first [exact I|reflexivity]|]). constructor.
  - vm_compute. repeat split; discriminate.
Qed.

(** Changing the coordinates of a stored object does not drop its wire by itself: the new number that
    comes with them does. *)
Example C81_coordinates :
  drops_wire (clsaX 5 3) (clsaX 5 4) = false /\ drops_wire (clsaX 5 3) (clsaX 6 4) = true /\
  drops_wire (nlsaX 5 [(pX, 0)]) (nlsaX 5 []) = true.
Proof. vm_compute. repeat split. Qed.

Print Assumptions C81_current.
Print Assumptions C81_dataset.

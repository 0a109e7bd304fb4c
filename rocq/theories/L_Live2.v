(** Lemmas for C91: a route of the forwarder over a face that stays is wanted by the FIB. *)
From Verif Require Import Base M_Nexthop L_Nexthop M_Tlv M_Adj M_Lsa M_Lsdb L_Lsdb M_LinkState M_Hyperbolic M_RoutingTable
  M_Npt M_Fib S_Fib L_Fib M_Prefix M_Hello L_Hello M_Router S_Router S_Live L_Router L_Router5 L_Router6 P_Fib4 L_Live P_Router P_Router2.
Open Scope Z_scope.
Set Implicit Arguments.
Local Opaque wholes. (* [injection] would evaluate it *)

(** *** What the hello protocol registers *)

Section H.
Variable c : hconf.
Definition regname (l : adl) (p : name) : Prop := p = hc_sync c \/ p = hc_lsap c \/ In p (map a_name l).
Definition regs_ok (l : adl) (o : list hout) : Prop := forall p u z, In (HRegister p u z) o -> regname l p.
Lemma regs_nil l : regs_ok l []. Proof. intros p u z []. Qed.
Lemma regs_app l a b : regs_ok l a -> regs_ok l b -> regs_ok l (a ++ b).
Proof. intros A B p u z H. apply in_app_or in H as [H|H]; eauto. Qed.
Lemma regs_free l o : (forall p u z, ~ In (HRegister p u z) o) -> regs_ok l o.
Proof. intros H p u z X. destruct (H _ _ _ X). Qed.
Lemma regs_adj l a : In (a_name a) (map a_name l) -> regs_ok l (register_adj c a).
Proof. intros H p u z [[= <- <- <-]|[[= <- <- <-]|[]]]; unfold regname; auto. Qed.
Lemma match_faces_regs l faces : forall a, In (a_name a) (map a_name l) -> regs_ok l (snd (match_faces c faces a)).
Proof.
  induction faces as [|[f u] faces IH]; intros a H; cbn [match_faces]; [apply regs_nil|].
  destruct ((a_face a =? 0)%N && eqb (a_uri a) u); [|now apply IH].
  specialize (IH (set_face f a) H). destruct (match_faces c faces (set_face f a)). cbn [snd] in *. apply regs_app; [now apply regs_adj|exact IH].
Qed.
Lemma match_all_regs l faces : forall k, (forall a, In a k -> In (a_name a) (map a_name l)) -> regs_ok l (snd (match_all c faces k)).
Proof.
  induction k as [|a k IH]; intros H; cbn [match_all]; [apply regs_nil|].
  pose proof (@match_faces_regs l faces a (H a (or_introl eq_refl))) as A. destruct (match_faces c faces a) as [a' o].
  specialize (IH (fun b Hb => H b (or_intror Hb))). destruct (match_all c faces k) as [k' o']. cbn [snd] in *. now apply regs_app.
Qed.
Lemma find_uri_name u (l : adl) a : adl_find_uri u l = Some a -> In (a_name a) (map a_name l).
Proof.
  induction l as [|b l IH]; cbn [adl_find_uri]; [discriminate|]. destruct (eqb (a_uri b) u); [intros [= <-]; now left|]. intros H. right. auto.
Qed.
Ltac free := apply regs_free; intros p' u' z' Hx; cbn in Hx;
  repeat match goal with H : _ \/ _ |- _ => destruct H as [H|H] end; try discriminate; try contradiction.
Lemma changed_regs l s : regs_ok l (snd (changed c s)).
Proof. unfold changed. repeat match goal with |- context [if ?b then _ else _] => destruct b end; free. Qed.
Lemma express_regs l p s : regs_ok l (snd (express p s)).
Proof. unfold express, hemit, hseq. free. Qed.
Lemma hseq_regs l f g s : (forall s, regs_ok l (snd (f s))) -> (forall s, regs_ok l (snd (g s))) -> regs_ok l (snd (hseq f g s)).
Proof. intros F G. unfold hseq. specialize (F s). destruct (f s) as [s1 o1]. specialize (G s1). destruct (g s1) as [s2 o2]. cbn [snd] in *. now apply regs_app. Qed.

Lemma hstep_regs s e : regs_ok (h_adl s) (snd (hstep c s e)).
Proof.
  unfold hstep. destruct (h_dead s); [apply regs_nil|].
  assert (T : forall p s', regs_ok (h_adl s) (snd (timed_out c p s'))).
  { intros p s'. unfold timed_out. destruct (negb (info_at 2 p)); [apply regs_nil|]. cbv zeta.
    match goal with |- context [if ?b then _ else _] => destruct b end; [apply express_regs|].
    match goal with |- context [if ?b then _ else _] => destruct b end; [apply changed_regs|apply regs_nil]. }
  assert (Sh : forall n s', regs_ok (h_adl s) (snd (send_hello c n s'))).
  { intros n s'. unfold send_hello. 
    repeat match goal with |- context [match ?b with Some _ => _ | None => _ end] => destruct b | |- context [if ?b then _ else _] => destruct b end; free. }
  destruct e as [n|t|i d|i|i|t|i|iname|f|f u|fs| | |u f].
  - apply Sh.
  - destruct get; [apply Sh|apply regs_nil].
  - destruct get; [|apply regs_nil]. destruct prefix_of; [|apply regs_nil].
    unfold content_validated, hseq. destruct (info_at 3 d).
    + cbn [h_adl hw_pend]. set (l := put_touts (drop_end 4 d) 0 (put_status (drop_end 4 d) SActive (h_adl s))).
      destruct (eqb (get_status (drop_end 4 d) (h_adl s)) (get_status (drop_end 4 d) l)); [free|].
      set (s1 := hw_adl l _). pose proof (@changed_regs (h_adl s) s1) as A. destruct (changed c s1) as [s2 o2]. unfold initial_data.
      destruct (adl_find (drop_end 4 d) (h_adl s2)); cbn [snd app hemit] in *.
      * apply regs_app; [apply regs_app; [exact A|]|free]. intros p' u' z' [[= <- <- <-]|[]]. now left.
      * apply regs_app; [rewrite app_nil_r; exact A|free].
    + free.
  - apply regs_nil.
  - destruct get; apply regs_nil.
  - destruct get; [apply T|apply regs_nil].
  - destruct get; [apply T|apply regs_nil].
  - destruct prefix_of; [|apply regs_nil]. unfold process_interest. apply hseq_regs; [intros; free|]. intros s1.
    destruct (negb (info_at 2 iname)); [apply regs_nil|]. destruct (from_end 1 iname) as [v|]; [|free].
    destruct (decode_neighbor _) as [m|]; [|free]. destruct (adl_find m (h_adl s1)) as [a|]; [|apply regs_nil].
    repeat (apply hseq_regs; [intros; free|intros ?]).
    match goal with |- context [if ?b then _ else _] => destruct b end; [apply express_regs|free].
  - unfold face_destroyed. destruct adl_find_face; [|apply regs_nil]. cbv zeta. destruct (eqb _ SActive); [apply changed_regs|apply regs_nil].
  - unfold face_created. destruct adl_find_uri as [a|] eqn:E; [|apply regs_nil]. destruct (_ || _); [|apply regs_nil].
    apply regs_adj. exact (@find_uri_name u (h_adl s) a E).
  - unfold face_dataset. pose proof (@match_all_regs (h_adl s) fs (h_adl s) (fun a H => in_map a_name _ _ H)) as A.
    destruct (match_all c fs (h_adl s)). exact A.
  - destruct (h_ds s); [|apply regs_nil]. unfold dataset_failed. destruct N.ltb; free.
  - destruct (h_ds s); free.
  - apply regs_nil.
Qed.
Lemma regname_same l l' p : map a_name l' = map a_name l -> regname l' p -> regname l p.
Proof. unfold regname. now intros ->. Qed.
Lemma hrun_regs evs : forall s, hinv c s -> regs_ok (h_adl s) (snd (run (hstep c) s evs)).
Proof.
  induction evs as [|e evs IH]; intros s I; [apply regs_nil|]. cbn [run]. pose proof (@hstep_regs s e) as A. destruct (hstep_inv e I) as [St I'].
  destruct (hstep c s e) as [s1 o1]. cbn [fst snd] in *. specialize (IH s1 I'). destruct (run (hstep c) s1 evs) as [s2 o2]. cbn [snd] in *.
  apply regs_app; [exact A|]. intros p u z H. eapply regname_same; [|exact (IH p u z H)]. symmetry. apply stat_name. now symmetry.
Qed.
End H.

(** *** The FIB *)

Lemma unregs_sub n l t us : forall (r : lives) m f,
  get (m, f) (fold_left (lives_do t) (unregs n l us) r) <> None -> get (m, f) r <> None.
Proof.
  induction us as [|u us IH]; intros r m f H; [exact H|]. unfold unregs in H. cbn [flat_map] in H. rewrite fold_left_app in H. fold (unregs n l us) in H.
  apply IH in H. destruct (0 <? get_face_id u l)%N; [|exact H]. cbn [fold_left lives_do] in H.
  destruct (eq_dec (m, f) (n, get_face_id u l)) as [E|E]; [rewrite E, get_del_eq in H; contradiction|]. now rewrite get_del_ne in H.
Qed.
Lemma unregs_gone n l t us : forall (r : lives) u, In u us -> (0 < get_face_id u l)%N ->
  get (n, get_face_id u l) (fold_left (lives_do t) (unregs n l us) r) = None.
Proof.
  induction us as [|v us IH]; intros r u Hu Hf; [destruct Hu|]. unfold unregs. cbn [flat_map]. rewrite fold_left_app. fold (unregs n l us).
  destruct Hu as [->|Hu]; [|now apply IH]. destruct (N.ltb_spec 0 (get_face_id u l)); [|lia]. cbn [fold_left lives_do].
  destruct (get (n, get_face_id u l) (fold_left (lives_do t) (unregs n l us) (del (n, get_face_id u l) r))) eqn:E; [|reflexivity].
  exfalso. assert (X : get (n, get_face_id u l) (fold_left (lives_do t) (unregs n l us) (del (n, get_face_id u l) r)) <> None) by congruence.
  apply unregs_sub in X. rewrite get_del_eq in X. contradiction.
Qed.

Section F.
Variables (c : fconf) (names : list name) (n : name) (u : uri) (f : N).
Hypothesis Hn : ~ In n names.
Notation fs := (fstep c).
Notation s' s e := (fst (fstep c s e)).
Notation after s e r := (fold_left (lives_do (f_now s)) (snd (fs s e)) r).

Record WV (s : fib) (r : lives) : Prop :=
  { w_base : base_inv names s; w_has : get (n, f) r <> None -> In u (fib_faces s n) }.
Definition apart (e : fev) : Prop := match e with FvRegister m _ _ _ _ => m <> n | _ => True end.

Lemma not_about o : forall t (r : lives), (forall x, In x o -> ~ about x n) -> get (n, f) (fold_left (lives_do t) o r) = get (n, f) r.
Proof using.
  induction o as [|x o IH]; intros t r Ab; [reflexivity|]. cbn [fold_left]. rewrite IH by (intros y Hy; apply Ab; now right).
  specialize (Ab x (or_introl eq_refl)). destruct x; cbn [lives_do about] in *; try reflexivity.
  - apply get_set_ne. congruence.
  - apply get_del_ne. congruence.
Qed.

Lemma wv_step s r e : plain_ev c e -> apart e -> sole_face (f_adl s) u f -> WV s r -> WV (s' s e) (after s e r).
Proof using Hn.
  intros P Ap (Hf & Hu & So) [B W]. pose proof B as (Hok & Hnm & Hnb).
  split; [apply base_inv_step; [destruct e; try exact I; contradiction|exact B]|].
  assert (Nn : not_neighbor n s = true) by (apply not_neighbor_spec; unfold neighbour; now rewrite Hnm).
  assert (Same : get n (f_tab (s' s e)) = get n (f_tab s) -> (forall x, In x (snd (fs s e)) -> ~ about x n) ->
    get (n, f) (after s e r) <> None -> In u (fib_faces (s' s e) n)).
  { intros E Ab. destruct (@faces_get n _ _ E) as [-> _]. rewrite not_about by exact Ab. exact W. }
  assert (Ab : forall m o, (forall x, In x (map anon o) -> exists v, x = FUnreg m v \/ exists k ttl fl, x = FReg 0 m v k ttl fl) ->
     n <> m -> forall x, In x o -> ~ about x n).
  { intros m o H Hm x Hx. apply in_anon in Hx. destruct (H _ Hx) as (v & [E|(k & ttl & fl & E)]); destruct x; cbn in *; try discriminate E; congruence. }
  assert (Rm : forall m, e = FvRemove m \/ fs s e = fib_remove m s -> get (n, f) (after s e r) <> None -> In u (fib_faces (s' s e) n)).
  { intros m Em. assert (E : fs s e = fib_remove m s) by (destruct Em as [->|]; auto). clear Em.
    destruct (remove_spec m s) as (_ & Rn & _ & R1 & R2 & R3). destruct (eq_dec n m) as [<-|Hm].
    - rewrite E. destruct (R2 Nn) as [_ ->]. intros G. exfalso. pose proof (@unregs_sub _ _ _ _ _ _ _ G) as G0. apply W in G0.
      apply G. rewrite <- Hu. apply unregs_gone; [|now rewrite Hu]. unfold fib_faces in G0. unfold entry_hops. destruct (get n (f_tab s)); [exact G0|destruct G0].
    - apply Same; rewrite E; [now apply R1|]. destruct (not_neighbor m s).
      + rewrite (proj2 (R2 eq_refl)). intros x Hx. apply in_unregs_iff in Hx as (v & _ & _ & ->). cbn. congruence.
      + rewrite (proj2 (R3 eq_refl)). intros x []. }
  pose proof (other_tab c s e) as Ho.
  destruct e; try contradiction; cbn [fstep] in *.
  - pose proof (@fib_update_spec c n0 hops flags s Hok) as (U1 & U2 & U3 & U4 & U5).
    destruct (hops_to_add c hops) as [|x new] eqn:En.
    { specialize (U5 eq_refl). rewrite <- surjective_pairing in U5. apply (Rm n0). now right. }
    rewrite <- En in *. clear U5. destruct (U4 ltac:(congruence)) as (e' & E1 & E2 & E3 & Er & E4). clear U4.
    destruct (eq_dec n n0) as [<-|Hm].
    + rewrite Nn in *. intros G.
      assert (Hne : hops <> []) by (intros H; apply (hops_to_add_nil c) in H; congruence).
      destruct (@update_hops c n hops flags s Hok Hne) as (e2 & F1 & F2 & F3 & _).
      unfold fib_faces in *. rewrite F1 in E1. injection E1 as ->. rewrite F1 in *. apply F3.
      rewrite <- lives_from_anon, E4, fold_left_app in G.
      destruct (@In_dec _ eq_dec u (map nh_uri (hops_to_add c hops))) as [H|H]; [exact H|exfalso].
      assert (Rg : forall r', get (n, f) (fold_left (lives_do (f_now s)) (regs n (fib_ttl c) flags (f_adl s) (hops_to_add c hops)) r') = get (n, f) r').
      { intros r'. apply regs_lives. intros (_ & h & Hh & Eh & _). apply H. rewrite <- (So _ Eh). now apply in_map. }
      destruct (get n (f_tab s)) as [eo|] eqn:Eo.
      * pose proof (@unregs_sub _ _ _ _ _ _ _ G) as G0. rewrite Rg in G0. apply W in G0. apply G. rewrite <- Hu. apply unregs_gone; [|now rewrite Hu].
        destruct (Hok n eo Eo) as [V _]. unfold entry_hops. rewrite Eo.
        apply (@merge_spec (fe_hops eo) _ V (hops_to_add_valid c hops)). auto.
      * cbn [fold_left] in G. rewrite Rg in G. exact (W G).
    + apply Same; [now apply U3|]. apply (Ab n0); [|exact Hm]. intros y Hy. rewrite E4 in Hy. destruct (not_neighbor n0 s); [|destruct Hy].
      apply in_app_or in Hy as [Hy|Hy].
      * apply in_regs_iff in Hy as (h & _ & _ & ->). eexists. right. eauto.
      * destruct (get n0 (f_tab s)); [|destruct Hy]. apply in_unregs_iff in Hy as (v & _ & _ & ->). eauto.
  - apply (Rm n0). now left.
  - destruct (register_spec n0 u0 cost ttl flags 0 s) as [Sm An].
    apply Same; [now rewrite Ho|]. apply (Ab n0); [|cbn in Ap; congruence]. rewrite An. unfold reg_cmds. destruct N.ltb; intros x Hx; [|destruct Hx].
    destruct Hx as [<-|[]]. eexists. right. eauto.
  - apply Same; [now rewrite Ho|]. intros x [<-|[]] H. exact H.
  - destruct (refresh_spec c n0 s) as (_ & Rn & Bo & [(B1 & B2 & _)|(e & due & flags & B1 & B2 & B3 & B4 & B5)]).
    + apply Same; [now rewrite B1|]. rewrite B2. intros x [].
    + destruct (eq_dec n n0) as [<-|Hm].
      * unfold fib_faces in *. rewrite B4, B1 in *. cbn [fe_hops]. rewrite <- lives_from_anon, B5. intros G.
        destruct (@In_dec _ eq_dec u (map nh_uri (fe_hops e))) as [H|H]; [exact H|]. apply W.
        rewrite (proj2 (@regs_lives n _ _ _ _ _ _ n f)) in G; [exact G|]. intros (_ & h & Hh & Eh & _). apply H. rewrite <- (So _ Eh). now apply in_map.
      * apply Same; [now apply Bo|]. apply (Ab n0); [|exact Hm]. rewrite B5. intros x Hx. apply in_regs_iff in Hx as (h & _ & _ & ->).
        eexists. right. eauto.
  - apply Same; [now rewrite Ho|]. intros x [].
  - apply Same; [now rewrite Ho|]. unfold on_strat_fail. destruct (get id (f_scmds s)) as [rc|]; [|intros x []]. destruct (sc_count rc <? 3)%N; [|intros x []].
    intros x [<-|[]] H. exact H.
Qed.
Lemma wv_quiet s r e : quiet_ev names e -> WV s r -> WV (s' s e) (after s e r).
Proof using.
  intros Q [B W]. split; [apply base_inv_step; [destruct e; try exact I; exact Q|exact B]|].
  pose proof (other_tab c s e) as Ho.
  assert (E : get n (f_tab (s' s e)) = get n (f_tab s)) by (destruct e; try contradiction; now rewrite Ho).
  destruct (@faces_get n _ _ E) as [-> _]. replace (after s e r) with r; [exact W|].
  destruct e; try contradiction; try reflexivity. cbn [fstep]. unfold on_reg_ok. now destruct (get id (f_cmds s)).
Qed.
Lemma wv_plain evs : forall s r, Forall (plain_ev c) evs -> Forall apart evs -> (evs = [] \/ sole_face (f_adl s) u f) -> WV s r ->
  WV (fst (run fs s evs)) (lives_from c s r evs).
Proof using Hn.
  induction evs as [|e evs IH]; intros s r F A So V; [exact V|].
  destruct So as [So|So]; [discriminate|]. inversion F as [|? ? P F']; subst. inversion A as [|? ? P2 A']; subst. cbn [run lives_from].
  pose proof (@plain_adl c s e P) as Ad. pose proof (@wv_step s r e P P2 So V) as V1. destruct (fs s e) as [s1 o1]. cbn [fst snd] in *.
  assert (So1 : sole_face (f_adl s1) u f) by (rewrite Ad; exact So). specialize (IH s1 _ F' A' (or_intror So1) V1). now destruct (run fs s1 evs).
Qed.
Lemma wv_quiets evs : forall s r, Forall (quiet_ev names) evs -> WV s r -> WV (fst (run fs s evs)) (lives_from c s r evs).
Proof using.
  induction evs as [|e evs IH]; intros s r F V; [exact V|].
  inversion F as [|? ? P F']; subst. cbn [run lives_from]. pose proof (@wv_quiet s r e P V) as V1.
  destruct (fs s e) as [s1 o1]. cbn [fst snd] in *. specialize (IH s1 _ F' V1). now destruct (run fs s1 evs).
Qed.
End F.

(** *** The router *)

Section R.
Variables (c : gconf) (uri_of : name -> string) (ang : list Z -> list Z -> Z) (dst : Z -> Z -> Z -> Z).
Notation fc := (fconf_of c).
Notation gstep := (gstep c uri_of ang dst).
Notation gstate := (gstate c uri_of ang dst).
Hypothesis Hms : fib_ttl fc <= MS_MAX.
Notation frun s evs := (run (fstep fc) s evs).

Lemma granted_in t m v k ttl fl : In (FvRegister m v k ttl fl) (fibs t) -> In (QReg m v k) (granted t).
Proof.
  unfold fibs, granted. rewrite !in_flat_map. intros (x & Hx & H). exists x. split; [exact Hx|]. destruct x; try contradiction. destruct H as [->|[]]. now left.
Qed.
Lemma step_apart r x names n : K c names (gstate r) -> g_dead (gstate (extend r [x])) = false -> ~ In n names ->
  n <> c_lsaprefix (gc c) -> n <> gc_sync c -> Forall (apart n) (fibs (snd (gstep (gstate r) x))).
Proof.
  intros I U Hn Hl Hs. apply Forall_forall. intros e He. destruct e; try exact Logic.I. cbn [apart]. intros ->.
  apply granted_in in He. pose proof (@C70_passed c uri_of ang dst r x U) as (_ & _ & _ & _ & G). cbv zeta in G. rewrite G in He.
  unfold asked in He. apply in_flat_map in He as (o & Ho & He). destruct o; try contradiction He; try (destruct He as [He|[]]; discriminate He).
  destruct He as [He|[]]. injection He as -> _ _.
  pose proof (good_step c uri_of ang dst x (gstate r)) as T. pose proof (t_h T) as Th.
  pose proof (@hrun_regs (hconf_of c) (hellos (snd (gstep (gstate r) x))) (g_h (gstate r)) (k_h I)) as R. rewrite Th in R. cbn [snd] in R.
  destruct (R _ _ _ Ho) as [E|[E|E]]; [exact (Hs E)|exact (Hl E)|]. apply Hn. rewrite <- (k_names I). exact E.
Qed.

Lemma WV_step r x names n u f lv : ~ In n names -> n <> c_lsaprefix (gc c) -> n <> gc_sync c -> K c names (gstate r) -> g_dead (gstate (extend r [x])) = false ->
  (forall id, snd x <> GvFib (FvRegFail id)) ->
  sole_face (h_adl (g_h (gstate r))) u f -> sole_face (h_adl (g_h (gstate (extend r [x])))) u f -> WV names n u f (g_fib (gstate r)) lv ->
  WV names n u f (g_fib (gstate (extend r [x]))) (lives_from fc (g_fib (gstate r)) lv (fibs (snd (gstep (gstate r) x)))).
Proof.
  intros Hn Hl Hs I U Nf S1 S2 V. pose proof (@step_apart r x names n I U Hn Hl Hs) as Ap.
  destruct (extend_one c uri_of ang dst r x) as [E _]. rewrite E in *. clear E. set (g := gstate r) in *. pose proof U as D'.
  pose proof (@K_step c uri_of ang dst Hms names g x I D') as I'. pose proof (good_step c uri_of ang dst x g) as T.
  pose proof (@step_shape c uri_of ang dst Hms g x (k_h I) D') as S. destruct (gstep g x) as [g' t]. cbn [fst snd] in *.
  pose proof (t_fib T) as Tf.
  assert (Go : WV names n u f (fst (frun (g_fib g) (fibs t))) (lives_from fc (g_fib g) lv (fibs t)) ->
     WV names n u f (g_fib g') (lives_from fc (g_fib g) lv (fibs t))) by (rewrite Tf; exact (fun H => H)).
  apply Go. clear Go Tf.
  destruct S as [(A1 & A2 & A3)|[(d & evs & sys & _ & A1 & A2 & A3 & A4)|[(q & evs & A1 & A2 & A3 & A4)|(id & X & _)]]].
  - apply wv_plain; auto. right. rewrite (k_same I). exact S1.
  - rewrite A1 in *. apply Forall_app in Ap as [Ap _]. rewrite lives_app, frun_app.
    apply wv_quiets; [constructor; [exact Logic.I|constructor]|]. apply wv_plain; auto. right. rewrite (k_same I). exact S1.
  - assert (Q : Forall (quiet_ev names) (q ++ [FvAdl (h_adl (g_h g'))])).
    { apply Forall_app. split; [|constructor; [exact (k_names I')|constructor]].
      destruct A4 as [->|(id & l & -> & E)]; [constructor|]. repeat constructor. cbn [quiet_ev]. rewrite E. exact (k_names I). }
    replace (fibs t) with ((q ++ [FvAdl (h_adl (g_h g'))]) ++ evs) in * by (rewrite A1, <- app_assoc; reflexivity).
    apply Forall_app in Ap as [_ Ap]. rewrite lives_app, frun_app. apply wv_plain; auto.
    + right. rewrite frun_app. exact S2.
    + now apply wv_quiets.
  - exfalso. exact (Nf id X).
Qed.
End R.

(** The router's trace contains a run of every module, and the runs fit together. *)
From Verif Require Import Base M_Nexthop M_Tlv M_Adj M_Lsa M_Lsdb S_Lsdb M_LinkState M_Hyperbolic M_RoutingTable
  M_Npt S_Npt M_Fib S_Pipe M_Prefix M_Hello M_Router S_Router.
Open Scope Z_scope.
Set Implicit Arguments.

Section L.
Variables (c : gconf) (uri_of : name -> string) (ang : list Z -> list Z -> Z) (dst : Z -> Z -> Z -> Z).
Notation self := (c_self (gc c)).
Notation pstep' := (pstep uri_of (gc c)).
Notation hstep' := (hstep (hconf_of c)).
Notation fstep' := (fstep (fconf_of c)).
Notation rt_run' := (rt_run self (gc_max c) (c_hyp (gc c)) (gc_calc c) ang dst).
Notation rt_step' := (rt_step self (gc_max c) (c_hyp (gc c)) (gc_calc c) ang dst).

(** *** Every module sees a run of its own *)

Record tracks (g g' : router) (t : list glog) : Prop :=
  { t_pre : run pstep' (g_pre g) (pres t) = (g_pre g', pouts t);
    t_h : run hstep' (g_h g) (hellos t) = (g_h g', houts t);
    t_rt : rt_run' (rtevs t) (g_rt g) = Ok (g_rt g', rtouts t);
    t_npt : neach (nstep self) (npts t) (g_npt g) = Ok (g_npt g', nouts t);
    t_fib : run fstep' (g_fib g) (fibs t) = (g_fib g', fouts t);
    t_dead : g_dead g = true -> g_dead g' = true }.

Lemma tracks_refl g : tracks g g [].
Proof. split; try reflexivity. auto. Qed.

Lemma rt_run_app a b s : rt_run' (a ++ b) s = rbind (rt_run' a s) (rt_run' b).
Proof.
  revert s. induction a as [|e a IH]; intros s; cbn [app rt_run].
  - cbn. destruct (rt_run' b s) as [[s' o]| |]; reflexivity.
  - destruct (rt_step' e s) as [[s1 o1]| |]; [|reflexivity|reflexivity]. cbn [rbind]. rewrite IH.
    destruct (rt_run' a s1) as [[s2 o2]| |]; [|reflexivity|reflexivity]. cbn [rbind].
    destruct (rt_run' b s2) as [[s3 o3]| |]; [|reflexivity|reflexivity]. now rewrite app_assoc.
Qed.
Lemma neach_app {A} (f : A -> npt -> nres) a b s : neach f (a ++ b) s = nbind (neach f a s) (neach f b).
Proof.
  revert s. induction a as [|e a IH]; intros s; cbn [app neach].
  - cbn. destruct (neach f b s) as [[s' o]| |]; reflexivity.
  - destruct (f e s) as [[s1 o1]| |]; [|reflexivity|reflexivity]. cbn [nbind]. rewrite IH.
    destruct (neach f a s1) as [[s2 o2]| |]; [|reflexivity|reflexivity]. cbn [nbind].
    destruct (neach f b s2) as [[s3 o3]| |]; [|reflexivity|reflexivity]. now rewrite app_assoc.
Qed.

Lemma tracks_app g1 g2 g3 a b : tracks g1 g2 a -> tracks g2 g3 b -> tracks g1 g3 (a ++ b).
Proof.
  intros [A1 A2 A3 A4 A5 A6] [B1 B2 B3 B4 B5 B6].
  split; unfold pres, pouts, hellos, houts, rtevs, rtouts, npts, nouts, fibs, fouts in *; rewrite ?flat_map_app.
  - now rewrite run_app, A1, B1.
  - now rewrite run_app, A2, B2.
  - now rewrite rt_run_app, A3; cbn; rewrite B3.
  - now rewrite neach_app, A4; cbn; rewrite B4.
  - now rewrite run_app, A5, B5.
  - auto.
Qed.

Definition good (f : gact) : Prop := forall g, tracks g (fst (f g)) (snd (f g)).
Lemma good_ret : good gret. Proof. intros g. apply tracks_refl. Qed.
Lemma good_seq f h : good f -> good h -> good (gseq f h).
Proof.
  intros F H g. unfold gseq. specialize (F g). destruct (f g) as [g1 o1]. specialize (H g1).
  destruct (h g1) as [g2 o2]. cbn [fst snd] in *. eapply tracks_app; eauto.
Qed.
Lemma good_each {A} (f : A -> gact) l : (forall x, good (f x)) -> good (geach f l).
Proof. intros F. induction l; [apply good_ret|]. now apply good_seq. Qed.
Lemma good_live f : (forall g, g_dead g = false -> tracks g (fst (f g)) (snd (f g))) -> good (live f).
Proof. intros F g. unfold live. destruct (g_dead g) eqn:E; [apply tracks_refl|now apply F]. Qed.
Lemma good_dead : good (fun g => (gw_dead g, [])).
Proof. intros g. split; reflexivity. Qed.

Lemma map_flat {A B} (f : A -> glog) (p : glog -> list B) (l : list A) r :
  (forall x, p (f x) = r x) -> flat_map p (map f l) = flat_map r l.
Proof. intros H. induction l as [|x l IH]; [reflexivity|]. cbn. now rewrite H, IH. Qed.
Lemma flat_none {A B} (l : list A) : flat_map (fun _ => @nil B) l = [].
Proof. now induction l. Qed.
Lemma flat_one {A} (l : list A) : flat_map (fun x => [x]) l = l.
Proof. induction l as [|x l IH]; [reflexivity|]. cbn. now rewrite IH. Qed.

Ltac logs := unfold pres, pouts, hellos, houts, rtevs, rtouts, npts, nouts, fibs, fouts; cbn [flat_map app];
  repeat (erewrite map_flat; [|intros; reflexivity]); rewrite ?flat_none, ?flat_one; cbn [app].

Lemma good_fib e : good (call_fib c e).
Proof.
  apply good_live. intros g _. destruct (fstep' (g_fib g) e) as [f o] eqn:E. cbn [fst snd].
  split; logs; try reflexivity.
  - cbn [run]. rewrite E. now rewrite app_nil_r.
  - auto.
Qed.

Lemma seq_tracks (f h : gact) g : tracks g (fst (f g)) (snd (f g)) -> good h -> tracks g (fst (gseq f h g)) (snd (gseq f h g)).
Proof.
  intros F H. unfold gseq. destruct (f g) as [g1 o1]. specialize (H g1).
  destruct (h g1) as [g2 o2]. cbn [fst snd] in *. eapply tracks_app; eauto.
Qed.

Lemma good_npt_out o : good (npt_out c o).
Proof. destruct o; apply good_fib. Qed.

Lemma tracks_ub g : tracks g (gw_dead g) [XUb].
Proof. split; reflexivity. Qed.

Lemma good_npt e : good (call_npt c e).
Proof.
  apply good_live. intros g _. destruct (nstep self e (g_npt g)) as [[n o]| |] eqn:E; try apply tracks_ub.
  apply seq_tracks; [|apply good_each; intros; apply good_npt_out].
  cbn [fst snd]. split; logs; try reflexivity.
  - cbn [neach]. rewrite E. cbn. now rewrite app_nil_r.
  - auto.
Qed.

Lemma good_rt i e : good (call_rt c ang dst i e).
Proof.
  apply good_live. intros g _. destruct (rt_step' e (g_rt g)) as [[n o]| |] eqn:E; try apply tracks_ub.
  apply seq_tracks; [|apply good_each; intros []; apply good_npt].
  cbn [fst snd]. split; logs; try reflexivity.
  - cbn [rt_run]. rewrite E. cbn. now rewrite app_nil_r.
  - auto.
Qed.

Lemma good_strategy o : good (register_strategy c o).
Proof.
  apply good_live. intros g _. destruct existsb; [apply tracks_refl|].
  pose proof (good_each (fun n => call_fib c (FvSetStrategy n BEST_ROUTE))
    [o ++ [KEY]; o ++ [gen "nlsr"%string; KEY]; site_of o ++ [KEY]; site_of o ++ [C1_OPERATOR]]
    (fun _ => good_fib _) (gw_strat (g_strat g ++ [o]) g)) as T.
  destruct T as [T1 T2 T3 T4 T5 T6]. split; assumption.
Qed.

Lemma good_pre_out i o : good (pre_out c ang dst i o).
Proof.
  destruct o as [[]|]; cbn [pre_out]; try apply good_ret; try apply good_dead; try apply good_strategy.
  apply good_live. intros g _. apply (good_seq (good_rt i _) (good_npt _)).
Qed.

Lemma good_pre i x : good (call_pre c uri_of ang dst i x).
Proof.
  apply good_live. intros g _. destruct (pstep' (g_pre g) x) as [p o] eqn:E.
  apply seq_tracks; [|apply good_each; intros; apply good_pre_out].
  cbn [fst snd]. split; logs; try reflexivity.
  - cbn [run]. rewrite E. now rewrite app_nil_r.
  - auto.
Qed.

Lemma good_hello_out i o : good (hello_out c uri_of ang dst i o).
Proof.
  destruct o; cbn [hello_out]; try apply good_ret; try apply good_dead; try apply good_fib.
  all: apply good_live; intros g _; first [apply good_pre | apply good_rt].
Qed.

Lemma good_hello i x : good (call_hello c uri_of ang dst i x).
Proof.
  apply good_live. intros g _. destruct (hstep' (g_h g) x) as [p o] eqn:E.
  apply seq_tracks; [|apply good_seq; [apply good_fib|apply good_each; intros; apply good_hello_out]].
  cbn [fst snd]. split; logs; try reflexivity.
  - cbn [run]. rewrite E. now rewrite app_nil_r.
  - auto.
Qed.

Lemma good_now_fib : good (fun g => call_fib c (FvTime (g_now g)) g).
Proof. intros g. apply good_fib. Qed.

Lemma good_step_live i v : good (gstep_live c uri_of ang dst i v).
Proof.
  intros g. destruct v as [d|x|m w|x|x|k]; cbn [gstep_live].
  - apply good_seq; [apply good_pre|apply good_now_fib].
  - destruct x; first [apply tracks_refl | apply good_pre].
  - apply good_pre.
  - destruct x; first [apply tracks_refl | apply good_hello].
  - destruct x; try apply tracks_refl; try apply good_fib.
    destruct get; [|apply tracks_refl]. apply good_seq; [apply good_fib|].
    apply good_seq; apply good_hello.
  - destruct nth_error; [|apply tracks_refl]. destruct Z.leb; [apply good_rt|apply tracks_refl].
Qed.

Lemma good_step x : forall g, tracks g (fst (gstep c uri_of ang dst g x)) (snd (gstep c uri_of ang dst g x)).
Proof. intros g. apply good_live. intros. apply good_step_live. Qed.

Lemma good_run evs g :
  tracks g (fst (run (gstep c uri_of ang dst) g evs)) (snd (run (gstep c uri_of ang dst) g evs)).
Proof.
  revert g. induction evs as [|x evs IH]; intros g; [apply tracks_refl|].
  cbn [run]. pose proof (good_step x g) as T. destruct (gstep c uri_of ang dst g x) as [g1 o1].
  specialize (IH g1). destruct (run (gstep c uri_of ang dst) g1 evs) as [g2 o2]. cbn [fst snd] in *.
  eapply tracks_app; eauto.
Qed.
End L.

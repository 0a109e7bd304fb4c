(** Strategy choices of the whole router. *)
From Verif Require Import Base M_Nexthop M_Tlv M_Adj M_Lsa M_Lsdb S_Lsdb L_Lsdb L_Lsdb2 L_Lsdb3 M_LinkState M_Hyperbolic M_RoutingTable
  M_Npt S_Npt M_Fib S_Pipe M_Prefix M_Hello M_Router S_Router L_Router L_Router2 L_Router5 L_Router6.
Open Scope Z_scope.
Set Implicit Arguments.

(** The strategy choices requested of the FIB, and the routers of which the database reported a new LSA. *)
Definition sets (t : list glog) : list (name * name) :=
  flat_map (fun x => match x with CFib (FvSetStrategy n s) => [(n, s)] | _ => [] end) t.
Definition ann_of (o : pout) : list name := match o with PDb (ONewLsa _ _ r _) => [r] | _ => [] end.
Definition anns (t : list glog) : list name :=
  flat_map (fun x => match x with XPre o => ann_of o | _ => [] end) t.

Definition four (o : name) : list (name * name) :=
  map (fun n => (n, BEST_ROUTE))
      [o ++ [KEY]; o ++ [gen "nlsr"%string; KEY]; site_of o ++ [KEY]; site_of o ++ [C1_OPERATOR]].
Fixpoint process (l seen : list name) : list name * list (name * name) :=
  match l with
  | [] => (seen, [])
  | o :: l' => if existsb (eqb o) seen then process l' seen
               else let (s, r) := process l' (seen ++ [o]) in (s, four o ++ r)
  end.
Lemma process_app a b s : process (a ++ b) s = let (s1, x) := process a s in let (s2, y) := process b s1 in (s2, x ++ y).
Proof.
  revert s. induction a as [|o a IH]; intros s; cbn [app process]; [now destruct (process b s)|].
  destruct existsb; [apply IH|]. rewrite IH. destruct (process a (s ++ [o])) as [s1 x]. destruct (process b s1) as [s2 y]. now rewrite app_assoc.
Qed.

Section L.
Variables (c : gconf) (uri_of : name -> string) (ang : list Z -> list Z -> Z) (dst : Z -> Z -> Z -> Z).
Notation stays := (L_Router2.stays).

Definition st1 (f : gact) (l : list name) : Prop := forall g, g_dead (fst (f g)) = false ->
  anns (snd (f g)) = [] /\ (g_strat (fst (f g)), sets (snd (f g))) = process l (g_strat g).
Definition st2 (f : gact) : Prop := forall g, g_dead (fst (f g)) = false ->
  (g_strat (fst (f g)), sets (snd (f g))) = process (anns (snd (f g))) (g_strat g).

Lemma sets_app a b : sets (a ++ b) = sets a ++ sets b. Proof. apply flat_map_app. Qed.
Lemma anns_app a b : anns (a ++ b) = anns a ++ anns b. Proof. apply flat_map_app. Qed.
Lemma st1_2 f : st1 f [] -> st2 f.
Proof. intros H g D. destruct (H g D) as [-> H2]. exact H2. Qed.
Lemma st1_ret : st1 gret []. Proof. intros g _. now split. Qed.
Lemma st1_dead l : st1 (fun g => (gw_dead g, [])) l. Proof. intros g H. discriminate H. Qed.

Lemma st1_seq f h a b : st1 f a -> st1 h b -> stays h -> st1 (gseq f h) (a ++ b).
Proof.
  intros F H S g D. specialize (F g). unfold gseq in *. destruct (f g) as [g1 o1]. specialize (H g1). specialize (S g1).
  destruct (h g1) as [g2 o2]. cbn [fst snd] in *. assert (D1 : g_dead g1 = false) by (destruct (g_dead g1); [now rewrite S in D|reflexivity]).
  destruct (F D1) as [F1 F2]. destruct (H D) as [H1 H2]. rewrite anns_app, F1, H1. split; [reflexivity|].
  rewrite process_app, <- F2. cbn iota beta. rewrite <- H2, sets_app. reflexivity.
Qed.
Lemma st2_seq f h : st2 f -> st2 h -> stays h -> st2 (gseq f h).
Proof.
  intros F H S g D. specialize (F g). unfold gseq in *. destruct (f g) as [g1 o1]. specialize (H g1). specialize (S g1).
  destruct (h g1) as [g2 o2]. cbn [fst snd] in *. assert (D1 : g_dead g1 = false) by (destruct (g_dead g1); [now rewrite S in D|reflexivity]).
  rewrite anns_app, process_app, <- (F D1). cbn iota beta. rewrite <- (H D), sets_app. reflexivity.
Qed.
Lemma st1_each {A} (f : A -> gact) (q : A -> list name) l : (forall x, st1 (f x) (q x)) -> (forall x, stays (f x)) -> st1 (geach f l) (flat_map q l).
Proof.
  intros F S. induction l as [|x l IH]; [apply st1_ret|]. cbn [geach flat_map]. apply st1_seq; [apply F|exact IH|].
  clear - S. induction l as [|y l IH]; [now intros g D|]. cbn [geach]. intros g D. unfold gseq. specialize (S y g D).
  destruct (f y g) as [g1 o1]. specialize (IH g1 S). now destruct (geach f l g1).
Qed.
Lemma st1_none {A} (f : A -> gact) l : (forall x, st1 (f x) []) -> (forall x, stays (f x)) -> st1 (geach f l) [].
Proof. intros F S. rewrite <- (flat_none (B := name) l). exact (@st1_each A f (fun _ => []) l F S). Qed.
Lemma st1_live f l : (forall g, g_dead g = false -> g_dead (fst (f g)) = false ->
  anns (snd (f g)) = [] /\ (g_strat (fst (f g)), sets (snd (f g))) = process l (g_strat g)) -> st1 (live f) l.
Proof. intros F g. unfold live. destruct (g_dead g) eqn:E; [cbn [fst]; congruence|now apply F]. Qed.
Lemma st2_live f : (forall g, g_dead g = false -> g_dead (fst (f g)) = false ->
  (g_strat (fst (f g)), sets (snd (f g))) = process (anns (snd (f g))) (g_strat g)) -> st2 (live f).
Proof. intros F g. unfold live. destruct (g_dead g) eqn:E; [cbn [fst]; congruence|now apply F]. Qed.

Lemma flat_map_nil {A B} (p : A -> list B) (l : list A) : (forall x, p x = []) -> flat_map p l = [].
Proof. intros H. induction l as [|x l IH]; [reflexivity|]. cbn. now rewrite H. Qed.
Lemma anns_map {A} (f : A -> glog) l : (forall x, match f x with XPre _ => False | _ => True end) -> anns (map f l) = [].
Proof. intros H. unfold anns. rewrite (map_flat f _ l (fun _ => [])); [apply flat_none|]. intros x. specialize (H x). destruct (f x); try reflexivity; contradiction. Qed.
Lemma sets_map {A} (f : A -> glog) l : (forall x, match f x with CFib _ => False | _ => True end) -> sets (map f l) = [].
Proof. intros H. unfold sets. rewrite (map_flat f _ l (fun _ => [])); [apply flat_none|]. intros x. specialize (H x). destruct (f x); try reflexivity; contradiction. Qed.

Lemma fib_log e g : g_dead g = false -> let r := call_fib c e g in
  g_dead (fst r) = false /\ g_strat (fst r) = g_strat g /\ anns (snd r) = [] /\
  sets (snd r) = match e with FvSetStrategy n s => [(n, s)] | _ => [] end.
Proof.
  intros D. unfold call_fib, live. rewrite D. destruct fstep as [f o]. cbn [fst snd]. repeat split; try exact D.
  - change (CFib e :: map XFib o) with ([CFib e] ++ map XFib o). rewrite anns_app. now apply anns_map.
  - change (CFib e :: map XFib o) with ([CFib e] ++ map XFib o). rewrite sets_app, sets_map, app_nil_r by (intros; exact I). cbn. now rewrite app_nil_r.
Qed.
Lemma st1_fib e : (match e with FvSetStrategy _ _ => False | _ => True end) -> st1 (call_fib c e) [].
Proof.
  intros N. apply st1_live. intros g D _. pose proof (@fib_log e _ D) as (_ & L2 & L3 & L4). unfold call_fib, live in *. rewrite D in *.
  cbv zeta in *. destruct fstep as [f o]. cbn [fst snd process] in *. rewrite L3, L4. destruct e; (contradiction || auto).
Qed.
Ltac sgood := eapply good_stays; first [apply good_fib|apply good_npt|apply good_rt|apply good_hello|apply good_pre|apply good_pre_out|apply good_hello_out|apply good_strategy].
Lemma seq_st1 (f h : gact) g a b : g_dead (fst (gseq f h g)) = false ->
  (g_dead (fst (f g)) = false -> anns (snd (f g)) = [] /\ (g_strat (fst (f g)), sets (snd (f g))) = process a (g_strat g)) ->
  st1 h b -> stays h -> anns (snd (gseq f h g)) = [] /\ (g_strat (fst (gseq f h g)), sets (snd (gseq f h g))) = process (a ++ b) (g_strat g).
Proof.
  intros D F H S. unfold gseq in *. destruct (f g) as [g1 o1]. specialize (H g1). specialize (S g1).
  destruct (h g1) as [g2 o2]. cbn [fst snd] in *. assert (D1 : g_dead g1 = false) by (destruct (g_dead g1); [now rewrite S in D|reflexivity]).
  destruct (F D1) as [F1 F2]. destruct (H D) as [H1 H2]. rewrite anns_app, F1, H1. split; [reflexivity|].
  rewrite process_app, <- F2. cbn iota beta. rewrite <- H2, sets_app. reflexivity.
Qed.
Lemma log_st1 {A} (k : glog) (f : A -> glog) (l : list A) : (match k with XPre _ | CFib _ => False | _ => True end) ->
  (forall x, match f x with XPre _ | CFib _ => False | _ => True end) -> anns (k :: map f l) = [] /\ sets (k :: map f l) = [].
Proof.
  intros K F. change (k :: map f l) with ([k] ++ map f l). rewrite anns_app, sets_app, anns_map, sets_map.
  - destruct k; cbn; auto; contradiction.
  - intros x. specialize (F x). destruct (f x); auto.
  - intros x. specialize (F x). destruct (f x); auto.
Qed.
Lemma st1_npt e : st1 (call_npt c e) [].
Proof.
  apply st1_live. intros g D. destruct nstep as [[n o]| |]; try (intros X; discriminate X). intros D2.
  apply (@seq_st1 _ _ _ [] []); [exact D2| | |].
  - intros _. cbn [fst snd process g_strat gw_npt]. destruct (@log_st1 _ (CNpt e) XNpt o) as [-> ->]; auto.
  - apply st1_none; [intros []; now apply st1_fib|intros []; sgood].
  - eapply good_stays, good_each. apply good_npt_out.
  Unshelve. all: assumption.
Qed.
Lemma st1_rt i e : st1 (call_rt c ang dst i e) [].
Proof.
  apply st1_live. intros g D. destruct rt_step as [[n o]| |]; try (intros X; discriminate X). intros D2.
  apply (@seq_st1 _ _ _ [] []); [exact D2| | |].
  - intros _. cbn [fst snd process g_strat gw_rt]. destruct (@log_st1 _ (CRt e) XRt o) as [-> ->]; auto.
  - apply st1_none; [intros []; apply st1_npt|intros []; sgood].
  - eapply good_stays, good_each. intros []. apply good_npt.
  Unshelve. all: assumption.
Qed.
Lemma st1_strategy o : st1 (register_strategy c o) [o].
Proof.
  apply st1_live. intros g D. cbn [process]. destruct existsb; [now intros _|]. intros _.
  set (g' := gw_strat _ g). assert (D' : g_dead g' = false) by exact D. change (g_strat g ++ [o]) with (g_strat g').
  cbn [geach]. clearbody g'. clear D g.
  unfold four, gseq.
  pose proof (@fib_log (FvSetStrategy (o ++ [KEY]) BEST_ROUTE) _ D') as (A1 & A2 & A3 & A4). destruct (call_fib c _ g') as [g1 o1]. cbn [fst snd] in *.
  pose proof (@fib_log (FvSetStrategy (o ++ [gen "nlsr"%string; KEY]) BEST_ROUTE) _ A1) as (B1 & B2 & B3 & B4). destruct (call_fib c _ g1) as [g2 o2]. cbn [fst snd] in *.
  pose proof (@fib_log (FvSetStrategy (site_of o ++ [KEY]) BEST_ROUTE) _ B1) as (C1 & C2 & C3 & C4). destruct (call_fib c _ g2) as [g3 o3]. cbn [fst snd] in *.
  pose proof (@fib_log (FvSetStrategy (site_of o ++ [C1_OPERATOR]) BEST_ROUTE) _ C1) as (E1 & E2 & E3 & E4). destruct (call_fib c _ g3) as [g4 o4]. cbn [fst snd] in *.
  cbn [gret fst snd]. rewrite !anns_app, !sets_app, A3, B3, C3, E3, A4, B4, C4, E4. split; [reflexivity|]. cbn [map app]. rewrite E2, C2, B2, A2. reflexivity.
Qed.
Lemma st1_pre_out i o : st1 (pre_out c ang dst i o) (ann_of o).
Proof.
  destruct o as [[]|]; cbn [pre_out ann_of]; try apply st1_ret; try apply st1_dead; [|apply st1_strategy].
  apply st1_live. intros g D D2. apply (@seq_st1 _ _ _ [] []); [exact D2|apply st1_rt|apply st1_npt|sgood].
  Unshelve. all: assumption.
Qed.
Lemma st2_pre i x : st2 (call_pre c uri_of ang dst i x).
Proof.
  apply st2_live. intros g D. destruct pstep as [p o]. intros D2.
  pose proof (@st1_each _ (pre_out c ang dst i) ann_of o) as E. specialize (E (st1_pre_out i)).
  assert (S : forall x, stays (pre_out c ang dst i x)) by (intros; sgood).
  specialize (E S (gw_pre p g)). unfold gseq in *. destruct (geach (pre_out c ang dst i) o (gw_pre p g)) as [g2 o2]. cbn [fst snd] in *.
  destruct (E D2) as [E1 E2]. rewrite anns_app, sets_app, E1, app_nil_r.
  change (CPre x :: map XPre o) with ([CPre x] ++ map XPre o). rewrite anns_app, sets_app, sets_map by (intros; exact I). change (anns [CPre x]) with (@nil name). change (sets [CPre x]) with (@nil (name * name)). cbn [app].
  assert (A : anns (map XPre o) = flat_map ann_of o) by (apply map_flat; reflexivity).
  rewrite A. exact E2.
  Unshelve. all: assumption.
Qed.
Lemma st2_hello_out i o : st2 (hello_out c uri_of ang dst i o).
Proof.
  destruct o; cbn [hello_out]; try (apply st1_2, st1_ret); try (apply st1_2, st1_dead).
  - apply st2_live. intros g D. apply st2_pre.
  - apply st1_2, st1_live. intros g D. apply st1_rt.
  - now apply st1_2, st1_fib.
Qed.
Lemma st2_each {A} (f : A -> gact) l : (forall x, st2 (f x)) -> (forall x, stays (f x)) -> st2 (geach f l).
Proof.
  intros F S. induction l as [|x l IH]; [apply st1_2, st1_ret|]. cbn [geach]. apply st2_seq; [apply F|exact IH|].
  clear - S. induction l as [|y l IH]; [now intros g D|]. cbn [geach]. intros g D. unfold gseq. specialize (S y g D).
  destruct (f y g) as [g1 o1]. specialize (IH g1 S). now destruct (geach f l g1).
Qed.
Lemma st2_hello i x : st2 (call_hello c uri_of ang dst i x).
Proof.
  apply st2_live. intros g D. destruct hstep as [h o]. intros D2.
  set (f := fun g0 : router => (gw_h h g0, CHello x :: map XHello o)).
  assert (F : st2 f).
  { intros g0 _. unfold f. cbn [fst snd g_strat gw_h]. destruct (@log_st1 _ (CHello x) XHello o) as [-> ->]; auto. }
  refine (st2_seq F _ _ g D2).
  - apply st2_seq; [now apply st1_2, st1_fib|apply st2_each; [apply st2_hello_out|intros; sgood]|].
    eapply good_stays, good_each. intros. apply good_hello_out.
  - eapply good_stays, good_seq; [apply good_fib|apply good_each; intros; apply good_hello_out].
  Unshelve. all: assumption.
Qed.
Lemma st2_step x : st2 (fun g => M_Router.gstep c uri_of ang dst g x).
Proof.
  apply st2_live. intros g D. destruct x as [i v]. cbn [fst snd].
  assert (N : g_dead (fst (g, @nil glog)) = false -> (g_strat (fst (g, @nil glog)), sets (snd (g, @nil glog))) = process (anns (snd (g, @nil glog))) (g_strat g)) by reflexivity.
  destruct v as [d|y|m w|y|y|k]; cbn [gstep_live].
  - refine (@st2_seq (call_pre c uri_of ang dst i (PvDb (i_sys i) (h_adl (g_h g)) (ETick d))) (fun g => call_fib c (FvTime (g_now g)) g) _ _ _ g).
    + apply st2_pre.
    + intros g1. now apply st1_2, st1_fib.
    + eapply good_stays, good_now_fib.
  - destruct y; try exact N; apply st2_pre.
  - apply st2_pre.
  - destruct y; try exact N; apply st2_hello.
  - destruct y; try exact N; try (now apply st1_2, st1_fib).
    destruct get; [|exact N]. refine (@st2_seq (call_fib c (FvRegOk id)) (gseq (call_hello c uri_of ang dst i _) (call_hello c uri_of ang dst i _)) _ _ _ g).
    + now apply st1_2, st1_fib.
    + apply st2_seq; [apply st2_hello|apply st2_hello|sgood].
    + eapply good_stays, good_seq; apply good_hello.
  - destruct nth_error; [|exact N]. destruct Z.leb; [|exact N]. apply st1_2, st1_rt.
  Unshelve. all: assumption.
Qed.
Lemma st2_run evs g : g_dead (fst (run (M_Router.gstep c uri_of ang dst) g evs)) = false ->
  let r := run (M_Router.gstep c uri_of ang dst) g evs in (g_strat (fst r), sets (snd r)) = process (anns (snd r)) (g_strat g).
Proof.
  revert g. induction evs as [|x evs IH]; intros g; [reflexivity|]. cbn [run]. pose proof (@st2_step x g) as F.
  pose proof (t_dead (good_run c uri_of ang dst evs (fst (M_Router.gstep c uri_of ang dst g x)))) as S.
  destruct (M_Router.gstep c uri_of ang dst g x) as [g1 o1]. specialize (IH g1). cbn [fst snd] in *. destruct (run _ g1 evs) as [g2 o2]. cbn [fst snd] in *. intros D.
  assert (D1 : g_dead g1 = false) by (destruct (g_dead g1); [now rewrite S in D|reflexivity]).
  rewrite anns_app, process_app, <- (F D1). cbn iota beta. rewrite <- (IH D), sets_app. reflexivity.
Qed.

(** The start *)
Lemma build_no_new e t s : invS None s -> flat_map (fun o => ann_of (PDb o)) (snd (build (gc c) e t s)) = [].
Proof.
  intros Hs. unfold build. rewrite (@build_outs _ _ _ _ _ _ Hs). cbv zeta. rewrite !flat_map_app. cbn [flat_map ann_of app].
  destruct (publishes _ _); cbn [flat_map ann_of app]; (destruct find_lsa as [o|]; [destruct (_ <? _)%N; [unfold upd_notify; destruct update_body as [[[u b] ad] rm]; destruct u|]|]; reflexivity).
Qed.
Lemma start_no_new r : flat_map (fun o => ann_of (PDb o)) (start_outs c r) = [].
Proof.
  unfold start_outs, init. match goal with |- context [St ?a [] [] 0 [] 0 false 0 None [] [] 0 [] [] ?n false] => change (St a [] [] 0 [] 0 false 0 None [] [] 0 [] [] n false) with (blank a n) end.
  set (b := blank _ _). assert (H0 : invS None b) by apply invS_blank. rewrite andthen_snd, flat_map_app, build_name_build, build_no_new by exact H0.
  destruct (eqb (c_hyp (gc c)) HOff); [reflexivity|]. rewrite build_coord_build. apply build_no_new. rewrite <- build_name_build. now apply pres_build_name.
Qed.

Lemma run_strat r : g_dead (S_Router.gstate c uri_of ang dst r) = false ->
  sets (S_Router.gtrace c uri_of ang dst r) =
    [(c_lsaprefix (gc c), MULTICAST); (gc_sync c, MULTICAST)] ++ snd (process (anns (S_Router.gtrace c uri_of ang dst r)) []).
Proof.
  destruct (gexec_shape c uri_of ang dst r) as [-> ->]. intros D. rewrite !sets_app, !anns_app.
  pose proof (st2_run _ _ D) as R. cbv zeta in R. fold (later c uri_of ang dst r) in R.
  assert (S : g_strat (g1 c r) = [] /\ sets (snd (start c (g0 c r))) = [(c_lsaprefix (gc c), MULTICAST); (gc_sync c, MULTICAST)] /\ anns (snd (start c (g0 c r))) = []).
  { unfold g1, start. cbn [geach]. unfold gseq. assert (D0 : g_dead (g0 c r) = false) by reflexivity.
    assert (S0 : g_strat (g0 c r) = []) by reflexivity. set (g := g0 c r) in *. clearbody g.
    pose proof (@fib_log (FvSetStrategy (c_lsaprefix (gc c)) MULTICAST) _ D0) as (A1 & A2 & A3 & A4). destruct (call_fib c _ g) as [ga o1]. cbn [fst snd] in *.
    pose proof (@fib_log (FvSetStrategy (gc_sync c) MULTICAST) _ A1) as (B1 & B2 & B3 & B4). destruct (call_fib c _ ga) as [gb o2]. cbn [fst snd gret] in *.
    rewrite !sets_app, !anns_app, A3, B3, A4, B4. cbn. split; [congruence|auto]. }
  destruct S as (S1 & S2 & S3). rewrite S1 in R. rewrite S2, S3, sets_map by (intros; exact I). cbn [sets flat_map app].
  assert (A : anns (map XPre (map PDb (start_outs c r))) = []).
  { transitivity (flat_map (fun o => ann_of (PDb o)) (start_outs c r)); [|apply start_no_new]. unfold anns. rewrite map_map. apply (@map_flat out name (fun x => XPre (PDb x))). reflexivity. }
  rewrite A. cbn [app anns flat_map]. f_equal. f_equal. fold (anns (later c uri_of ang dst r)). fold (sets (later c uri_of ang dst r)). now rewrite <- R.
Qed.
End L.

(** What [process] does. *)
Lemma process_In l seen x : In x (snd (process l seen)) <-> exists o, In o l /\ ~ In o seen /\ In x (four o).
Proof.
  revert seen. induction l as [|o l IH]; intros seen; cbn [process].
  - split; [intros []|intros (o & [] & _)].
  - destruct (existsb (eqb o) seen) eqn:E.
    + rewrite IH. split; [intros (o' & H & H2); exists o'; split; [now right|exact H2]|].
      intros (o' & [<-|H] & N & F); [|now exists o']. exfalso. apply N. apply existsb_exists in E as (y & Hy & E). apply (proj1 (eqb_eq _ _)) in E. now subst.
    + specialize (IH (seen ++ [o])). destruct (process l (seen ++ [o])) as [s r]. cbn [snd] in *. rewrite in_app_iff, IH.
      assert (No : ~ In o seen). { intros H. assert (X : existsb (eqb o) seen = true); [|congruence]. apply existsb_exists. exists o. split; [exact H|apply eqb_refl]. }
      split.
      * intros [H|(o' & H & N & F)]; [exists o; split; [now left|now split]|]. exists o'. split; [now right|]. split; [|exact F]. intros X. apply N, in_or_app. now left.
      * intros (o' & [<-|H] & N & F); [now left|]. destruct (eq_dec o' o) as [->|D]; [now left|]. right. exists o'. split; [exact H|]. split; [|exact F].
        intros X. apply in_app_or in X as [X|[X|[]]]; [contradiction|congruence].
Qed.
(** Distinct elements of a list, in the order of their first occurrence. *)
Lemma process_length l seen d : NoDup d -> (forall o, In o d <-> In o l /\ ~ In o seen) -> length (snd (process l seen)) = (4 * length d)%nat.
Proof.
  revert seen d. induction l as [|o l IH]; intros seen d N H; cbn [process].
  - destruct d as [|x d]; [reflexivity|]. destruct (proj1 (H x) (or_introl eq_refl)) as [[] _].
  - destruct (existsb (eqb o) seen) eqn:E.
    + apply IH; [exact N|]. intros o'. rewrite H. cbn [In]. apply existsb_exists in E as (y & Hy & E). apply (proj1 (eqb_eq _ _)) in E. subst y.
      split; [intros [[<-|X] Y]; [contradiction|now split]|intros [X Y]; split; [now right|exact Y]].
    + assert (No : ~ In o seen). { intros X. assert (Y : existsb (eqb o) seen = true); [|congruence]. apply existsb_exists. exists o. split; [exact X|apply eqb_refl]. }
      assert (Ho : In o d) by (apply H; split; [now left|exact No]).
      apply in_split in Ho as (d1 & d2 & ->). specialize (IH (seen ++ [o]) (d1 ++ d2)).
      destruct (process l (seen ++ [o])) as [s r]. cbn [snd] in *. rewrite !app_length in *. cbn [length] in *.
      apply NoDup_remove in N as [N1 N2]. rewrite IH; [change (length (four o)) with 4%nat; lia|exact N1|].
      intros o'. pose proof (H o') as Ho'. rewrite in_app_iff in *. cbn [In] in *. split.
      * intros X. assert (D : o <> o') by (intros <-; exact (N2 X)). destruct (proj1 Ho') as [[Y|Y] Z]; [destruct X; auto|contradiction|].
        split; [exact Y|]. intros W. apply in_app_or in W as [W|[W|[]]]; auto.
      * intros [X Y]. assert (D : o <> o') by (intros W; apply Y, in_or_app; right; now left).
        destruct (proj2 Ho') as [W|[W|W]]; [split; [now right|intros W; apply Y, in_or_app; now left]|now left|contradiction|now right].
Qed.

(** While the router is alive, every output of a module reaches the modules it is meant for, once and
    in order. *)
From Verif Require Import Base M_Nexthop M_Tlv M_Adj M_Lsa M_Lsdb S_Lsdb M_LinkState M_Hyperbolic M_RoutingTable
  M_Npt S_Npt M_Fib S_Pipe M_Prefix M_Hello M_Router S_Router L_Router.
Open Scope Z_scope.
Set Implicit Arguments.

(** Outputs not delivered yet. *)
Record qs := Qs
  { q_n : list (kind * lsa * npl * npl); q_r : list (kind * lsa); q_t : list rtable; q_o : list nout; q_h : list hreq }.
Definition two (x : kind * lsa * npl * npl) : kind * lsa := fst (fst x).

Record fifo (q q' : qs) (t : list glog) : Prop :=
  { y_n : q_n q ++ out_notes (db_outs t) = in_notes (npts t) ++ q_n q';
    y_r : q_r q ++ map two (out_notes (db_outs t)) = rt_notes (rtevs t) ++ q_r q';
    y_t : q_t q ++ tables (rtouts t) = routes_in (npts t) ++ q_t q';
    y_o : q_o q ++ nouts t = fib_calls (fibs t) ++ q_o q';
    y_h : q_h q ++ asked (houts t) = granted t ++ q_h q' }.

Lemma fifo_nil q : fifo q q [].
Proof. split; cbn; now rewrite ?app_nil_r. Qed.

Lemma chain {A} (q q1 q2 a b a' b' : list A) : q ++ a = b ++ q1 -> q1 ++ a' = b' ++ q2 -> q ++ a ++ a' = (b ++ b') ++ q2.
Proof. intros E1 E2. rewrite app_assoc, E1, <- !app_assoc. now rewrite E2. Qed.

Lemma fifo_app q q1 q2 a b : fifo q q1 a -> fifo q1 q2 b -> fifo q q2 (a ++ b).
Proof.
  intros [A1 A2 A3 A4 A5] [B1 B2 B3 B4 B5].
  split; unfold db_outs, out_notes, in_notes, rt_notes, tables, routes_in, fib_calls, asked, granted,
    pres, pouts, hellos, houts, rtevs, rtouts, npts, nouts, fibs, fouts in *;
    rewrite ?flat_map_app, ?map_app; eapply chain; eassumption.
Qed.

Section L.
Variables (c : gconf) (uri_of : name -> string) (ang : list Z -> list Z -> Z) (dst : Z -> Z -> Z -> Z).
Notation self := (c_self (gc c)).

Definition conn (f : gact) (q q' : qs) : Prop := forall g, g_dead (fst (f g)) = false -> fifo q q' (snd (f g)).
Definition stays (f : gact) : Prop := forall g, g_dead g = true -> g_dead (fst (f g)) = true.
Lemma good_stays f : good c uri_of ang dst f -> stays f.
Proof. intros G g. apply (t_dead (G g)). Qed.

Lemma seq_fifo (f h : gact) q q1 q2 g : (g_dead (fst (f g)) = false -> fifo q q1 (snd (f g))) -> conn h q1 q2 -> stays h ->
  g_dead (fst (gseq f h g)) = false -> fifo q q2 (snd (gseq f h g)).
Proof.
  intros F H S. unfold gseq. destruct (f g) as [g1 o1]. specialize (H g1). specialize (S g1).
  destruct (h g1) as [g2 o2]. cbn [fst snd] in *. intros D. eapply fifo_app; [apply F|now apply H].
  destruct (g_dead g1); [|reflexivity]. now rewrite S in D.
Qed.
Lemma conn_seq f h q q1 q2 : conn f q q1 -> conn h q1 q2 -> stays h -> conn (gseq f h) q q2.
Proof. intros F H S g. eapply seq_fifo; eauto. Qed.
Lemma conn_live f q q' : (forall g, g_dead g = false -> g_dead (fst (f g)) = false -> fifo q q' (snd (f g))) -> conn (live f) q q'.
Proof. intros F g. unfold live. destruct (g_dead g) eqn:E; [cbn; congruence|now apply F]. Qed.
Lemma conn_ret q : conn gret q q.
Proof. intros g _. apply fifo_nil. Qed.
Lemma conn_dead q q' : conn (fun g => (gw_dead g, [])) q q'.
Proof. intros g. discriminate. Qed.

Lemma conn_each {A} (f : A -> gact) (Q : list A -> qs) l : (forall x l', conn (f x) (Q (x :: l')) (Q l')) ->
  (forall x, stays (f x)) -> conn (geach f l) (Q l) (Q []).
Proof.
  intros F S. assert (St : forall l, stays (geach f l)).
  { clear - S. induction l as [|x l IH]; [intros g H; exact H|]. intros g H. cbn [geach]. unfold gseq.
    specialize (S x g H). destruct (f x g) as [g1 o1]. specialize (IH g1 S). destruct (geach f l g1). exact IH. }
  induction l as [|x l IH]; [apply conn_ret|]. cbn [geach]. eapply conn_seq; [apply F|exact IH|apply St].
Qed.

Ltac logs := unfold db_outs, out_notes, in_notes, rt_notes, tables, routes_in, fib_calls, asked, granted,
    pres, pouts, hellos, houts, rtevs, rtouts, npts, nouts, fibs, fouts; cbn [flat_map app];
  repeat (erewrite map_flat; [|intros; reflexivity]); rewrite ?flat_none, ?flat_one; cbn [app map flat_map].

Definition call_of (e : fev) : list nout :=
  match e with FvUpdate n h f => [NUpdate n h f] | FvRemove n => [NRemove n] | _ => [] end.
Definition reg_of (e : fev) : list hreq := match e with FvRegister n u k _ _ => [QReg n u k] | _ => [] end.

Lemma conn_fib e n r t o h : conn (call_fib c e) (Qs n r t (call_of e ++ o) (reg_of e ++ h)) (Qs n r t o h).
Proof.
  apply conn_live. intros g _. destruct (fstep (fconf_of c) (g_fib g) e) as [f x]. intros _. cbn [fst snd].
  split; cbn [q_n q_r q_t q_o q_h]; logs; rewrite ?app_nil_r; try reflexivity.
Qed.

Definition note_of (e : nev) : list (kind * lsa * npl * npl) := match e with NvNotify k l a r => [(k, l, a, r)] | _ => [] end.
Definition table_of (e : nev) : list rtable := match e with NvRoutes t _ _ => [t] | _ => [] end.

Lemma conn_npt_out x n r t o h : conn (npt_out c x) (Qs n r t (x :: o) h) (Qs n r t o h).
Proof.
  destruct x; cbn [npt_out]; match goal with |- conn (call_fib c ?e) _ _ => exact (@conn_fib e n r t o h) end.
Qed.

Lemma conn_npt e n r t h : conn (call_npt c e) (Qs (note_of e ++ n) r (table_of e ++ t) [] h) (Qs n r t [] h).
Proof.
  apply conn_live. intros g _. destruct (nstep self e (g_npt g)) as [[s x]| |]; try discriminate.
  eapply seq_fifo with (q1 := Qs n r t x h).
  - intros _. cbn [fst snd]. split; cbn [q_n q_r q_t q_o q_h]; logs; rewrite ?app_nil_r; try reflexivity.
  - apply (@conn_each _ (npt_out c) (fun x => Qs n r t x h)); intros.
    + apply conn_npt_out.
    + eapply good_stays, good_npt_out.
  - eapply good_stays, good_each. intros. apply good_npt_out.
Qed.

Definition rnote_of (e : rtev) : list (kind * lsa) := match e with RvNotify k l _ => [(k, l)] | _ => [] end.
Definition recalc_of (e : rtev) : list hreq := match e with RvSchedule _ => [QRecalc] | _ => [] end.

Lemma conn_rt i e n r h : conn (call_rt c ang dst i e) (Qs n (rnote_of e ++ r) [] [] (recalc_of e ++ h)) (Qs n r [] [] h).
Proof.
  apply conn_live. intros g _. destruct (rt_step _ _ _ _ _ _ e (g_rt g)) as [[s x]| |]; try discriminate.
  eapply seq_fifo with (q1 := Qs n r (tables x) [] h).
  - intros _. cbn [fst snd]. split; cbn [q_n q_r q_t q_o q_h]; logs; rewrite ?app_nil_r; try reflexivity.
  - apply (@conn_each _ (rt_out c i) (fun x => Qs n r (tables x) [] h)); intros.
    + destruct x0 as [t]. cbn [rt_out tables map]. apply (@conn_npt (NvRoutes t (i_pord i) (i_nord i)) n r (tables l') h).
    + destruct x0 as [t]. eapply good_stays, good_npt.
  - eapply good_stays, good_each. intros []. apply good_npt.
Qed.

Lemma conn_strategy x n r h : conn (register_strategy c x) (Qs n r [] [] h) (Qs n r [] [] h).
Proof.
  apply conn_live. intros g _. destruct existsb; [intros _; apply fifo_nil|].
  apply (@conn_each _ (fun n => call_fib c (FvSetStrategy n BEST_ROUTE)) (fun _ => Qs n r [] [] h)); intros.
  - apply (@conn_fib (FvSetStrategy x0 BEST_ROUTE)).
  - eapply good_stays, good_fib.
Qed.

Definition dbo (o : list pout) : list out := flat_map (fun o => match o with PDb x => [x] | _ => [] end) o.

Lemma conn_pre_out i x n r h :
  conn (pre_out c ang dst i x) (Qs (out_notes (dbo [x]) ++ n) (map two (out_notes (dbo [x])) ++ r) [] [] h) (Qs n r [] [] h).
Proof.
  destruct x as [[]|]; cbn [pre_out dbo flat_map app out_notes map two fst]; try apply conn_ret; try apply conn_dead.
  - apply conn_live. intros g _. eapply seq_fifo.
    + apply (@conn_rt i (RvNotify k l (g_now g)) ((k, l, adds, rems) :: n) r h).
    + apply (@conn_npt (NvNotify k l adds rems) n r [] h).
    + eapply good_stays, good_npt.
  - apply conn_strategy.
Qed.

Definition build_of (x : pev) : list hreq := match x with PvDb _ _ EScheduleBuild => [QBuild] | _ => [] end.

Lemma conn_pre i x h : conn (call_pre c uri_of ang dst i x) (Qs [] [] [] [] (build_of x ++ h)) (Qs [] [] [] [] h).
Proof.
  apply conn_live. intros g _. destruct (pstep uri_of (gc c) (g_pre g) x) as [p o].
  eapply seq_fifo with (q1 := Qs (out_notes (dbo o)) (map two (out_notes (dbo o))) [] [] h).
  - intros _. cbn [fst snd]. split; cbn [q_n q_r q_t q_o q_h]; logs; rewrite ?app_nil_r; try reflexivity.
  - apply (@conn_each _ (pre_out c ang dst i) (fun o => Qs (out_notes (dbo o)) (map two (out_notes (dbo o))) [] [] h)); intros.
    + pose proof (@conn_pre_out i x0 (out_notes (dbo l')) (map two (out_notes (dbo l'))) h) as C.
      unfold dbo, out_notes in *. change (x0 :: l') with ([x0] ++ l'). rewrite !flat_map_app, map_app. exact C.
    + eapply good_stays, good_pre_out.
  - eapply good_stays, good_each. intros. apply good_pre_out.
Qed.

Lemma conn_hello_out i x h :
  conn (hello_out c uri_of ang dst i x) (Qs [] [] [] [] (asked [x] ++ h)) (Qs [] [] [] [] h).
Proof.
  destruct x as [| | | |p u k| | |]; cbn [hello_out asked flat_map app]; try apply conn_ret; try apply conn_dead.
  - apply conn_live. intros g _. apply (@conn_pre i (PvDb (i_sys i) (h_adl (g_h g)) EScheduleBuild)).
  - apply conn_live. intros g _. apply (@conn_rt i (RvSchedule (g_now g))).
  - rewrite <- wholes_eq. apply (@conn_fib (FvRegister p u (wholes k) MS_MAX CAPTURE)).
Qed.

Definition qnil : qs := Qs [] [] [] [] [].

Lemma conn_hello i x : conn (call_hello c uri_of ang dst i x) qnil qnil.
Proof.
  apply conn_live. intros g _. destruct (hstep (hconf_of c) (g_h g) x) as [p o].
  eapply seq_fifo with (q1 := Qs [] [] [] [] (asked o)).
  - intros _. cbn [fst snd]. split; cbn [q_n q_r q_t q_o q_h]; logs; rewrite ?app_nil_r; try reflexivity.
  - eapply conn_seq.
    + apply (@conn_fib (FvAdl (h_adl p))).
    + apply (@conn_each _ (hello_out c uri_of ang dst i) (fun o => Qs [] [] [] [] (asked o))); intros.
      * pose proof (@conn_hello_out i x0 (asked l')) as C. unfold asked in *.
        change (x0 :: l') with ([x0] ++ l'). rewrite flat_map_app. exact C.
      * eapply good_stays, good_hello_out.
    + eapply good_stays, good_each. intros. apply good_hello_out.
  - eapply good_stays, good_seq; [apply good_fib|apply good_each; intros; apply good_hello_out].
Qed.

Lemma conn_step_live i v : conn (gstep_live c uri_of ang dst i v) qnil qnil.
Proof.
  intros g. destruct v as [d|x|m w|x|x|k]; cbn [gstep_live].
  - eapply seq_fifo; [apply (@conn_pre i (PvDb (i_sys i) (h_adl (g_h g)) (ETick d)) [])| |].
    + intros g1. apply (@conn_fib (FvTime (g_now g1))).
    + eapply good_stays, good_now_fib.
  - destruct x; try (intros _; apply fifo_nil); match goal with |- context[PvDb ?a ?b ?v] => apply (@conn_pre i (PvDb a b v) []) end.
  - apply (@conn_pre i (PvCmd (i_sys i) (h_adl (g_h g)) m w) []).
  - destruct x; first [apply conn_hello | intros _; apply fifo_nil].
  - destruct x; try (intros _; apply fifo_nil); try (match goal with |- context[call_fib c ?x] => apply (@conn_fib x [] [] [] [] []) end).
    destruct get; [|intros _; apply fifo_nil].
    eapply seq_fifo; [apply (@conn_fib (FvRegOk id))|eapply conn_seq; [apply conn_hello|apply conn_hello|]|];
      eapply good_stays; first [apply good_hello | apply good_seq; apply good_hello].
  - destruct nth_error; [|intros _; apply fifo_nil]. destruct Z.leb; [|intros _; apply fifo_nil].
    apply (@conn_rt i (RvCalc k (g_now g) (calc_view i g)) [] [] []).
Qed.

Lemma conn_run evs g : g_dead (fst (run (gstep c uri_of ang dst) g evs)) = false ->
  fifo qnil qnil (snd (run (gstep c uri_of ang dst) g evs)).
Proof.
  revert g. induction evs as [|x evs IH]; intros g; [intros _; apply fifo_nil|].
  cbn [run]. pose proof (@conn_live _ qnil qnil (fun g _ => @conn_step_live (fst x) (snd x) g) g) as T.
  fold (gstep c uri_of ang dst g x) in T. destruct (gstep c uri_of ang dst g x) as [g1 o1] eqn:E1.
  specialize (IH g1). pose proof (t_dead (good_run c uri_of ang dst evs g1)) as St.
  destruct (run (gstep c uri_of ang dst) g1 evs) as [g2 o2]. cbn [fst snd] in *. intros D.
  assert (D1 : g_dead g1 = false) by (destruct (g_dead g1); [now rewrite St in D|reflexivity]).
  eapply fifo_app; [|now apply IH]. apply T. exact D1.
Qed.
End L.

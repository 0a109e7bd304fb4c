(** From the events of the router to the FIB: the pieces that join the theorems about its modules. *)
From Coq Require Import Sorting.Permutation Sorting.Sorted.
From Verif Require Import Base M_Nexthop L_Nexthop M_Tlv M_Adj M_Lsa M_Lsdb L_Lsdb S_Lsdb L_Lsdb2 L_Lsdb3 L_Lsdb4 L_Lsdb6 M_LinkState L_Vec L_LinkState L_LsTable
  M_Hyperbolic M_RoutingTable M_Npt S_Npt L_Npt4 M_Fib S_Fib S_Pipe M_Prefix M_Hello S_Hello L_Hello M_Router S_Router
  L_Router L_Router2 L_Router3 L_Router4 L_Router5 L_Router6.
Open Scope Z_scope.
Set Implicit Arguments.

(** *** Every link-state table has integral, non-negative costs and next hop lists *)

Definition nn (d : list Z) : Prop := forall i, 0 <= dget d i.

Lemma nn_vset d i z : nn d -> 0 <= z -> nn (vset d i z).
Proof.
  intros H Hz j. unfold dget. destruct (Nat.lt_ge_cases i (length d)) as [L|L].
  - rewrite nth_vset by exact L. destruct (Nat.eqb j i); [exact Hz|apply H].
  - rewrite vset_over by exact L. apply H.
Qed.

Lemma nn_relax m q h u p d v : nn d -> nn (snd (relax m q h u (p, d) v)).
Proof.
  intros H. unfold relax. destruct (Z.leb_spec 0 (mget m u v)) as [L|L]; [|exact H].
  destruct is_not_explored; [|exact H]. cbn [andb]. destruct (_ <? _); [|exact H]. cbn [snd].
  apply nn_vset; [exact H|]. pose proof (H u). lia.
Qed.

Lemma nn_relaxes m q h u l p d : nn d -> nn (snd (fold_left (relax m q h u) l (p, d))).
Proof.
  revert p d. induction l as [|v l IH]; intros p d H; [exact H|]. cbn [fold_left].
  pose proof (nn_relax m q h u p v H) as H1. destruct (relax m q h u (p, d) v) as [p1 d1]. now apply IH.
Qed.

Lemma nn_loop m n fuel head q p d : nn d -> nn (snd (dij_loop m n fuel head q p d)).
Proof.
  revert head q p d. induction fuel as [|f IH]; intros head q p d H; [exact H|]. cbn [dij_loop].
  destruct (_ =? _); [exact H|]. pose proof (nn_relaxes m q head (qget q head) (seq 0 n) p H) as H1.
  destruct (fold_left _ _ _) as [p1 d1]. now apply IH.
Qed.

Lemma nn_dijkstra m s : nn (snd (dijkstra m s)).
Proof.
  unfold dijkstra. apply nn_loop. apply nn_vset; [|lia]. intros i. unfold dget.
  destruct (nth_in_or_default i (repeat INF_DISTANCE (length m)) INF_DISTANCE) as [H|H].
  - apply repeat_spec in H. rewrite H. unfold INF_DISTANCE. lia.
  - rewrite H. unfold INF_DISTANCE. lia.
Qed.

Definition ls_hops (l : nhl) : Prop :=
  nhl_valid nh_ltb l /\ forall h, In h l -> nh_hyp h = false /\ exists c, nh_cost h = of_int c /\ 0 <= c.
Definition ls_list (t : rtable) : Prop := forall d l, In (d, l) t -> ls_hops l.

Lemma ls_addc u c l : ls_hops l -> 0 <= c -> ls_hops (nhl_addc (mk_nh u (of_int c)) l).
Proof.
  intros [V H] Hc. destruct (@nhl_addc_spec (mk_nh u (of_int c)) l V) as (V' & S & _). split; [exact V'|].
  intros h Hh. apply S in Hh as [->|Hh]; [|now apply H]. split; [reflexivity|]. exists c. split; [reflexivity|exact Hc].
Qed.

Lemma ls_add t dest u c : ls_list t -> 0 <= c -> ls_list (rt_add t dest (mk_nh u (of_int c))).
Proof.
  intros H Hc. induction t as [|[x l] t IH]; cbn [rt_add].
  - intros d l [E|[]]. injection E as <- <-. apply ls_addc; [|exact Hc]. split; [apply nhl_valid_nil|intros h []].
  - destruct (eqb x dest).
    + intros d l' [E|E]; [|apply (H d); now right]. injection E as <- <-. apply ls_addc; [|exact Hc]. apply (H x). now left.
    + intros d l' [E|E]; [|apply (IH ltac:(intros a b Q; apply (H a); now right) d l' E)]. injection E as <- <-. apply (H x). now left.
Qed.

Lemma ls_add_hops map src adjs pd t t' : nn (snd pd) -> ls_list t -> add_hops map src adjs pd t = Ok t' -> ls_list t'.
Proof.
  intros N. unfold add_hops. revert t. induction (seq 0 (length map)) as [|i l IH]; intros t H E; cbn [fold_left] in E; [now injection E as <-|].
  assert (Bad : forall o, (forall x, o <> Ok x) -> fold_left (add_hop map src adjs pd) l o <> Ok t').
  { clear. induction l as [|i l IH]; intros o H; [apply H|]. cbn [fold_left]. apply IH. intros x. destruct o; cbn; try discriminate. exfalso. eapply H. reflexivity. }
  unfold add_hop at 2 in E. destruct (Nat.eqb i src); [now apply (IH t)|].
  destruct get_next_hop as [[h|]|].
  - destruct (nm_name map h); [|exfalso; apply Bad in E; [exact E|discriminate]].
    destruct (nm_name map i); [|exfalso; apply Bad in E; [exact E|discriminate]].
    revert E. apply IH. apply ls_add; [exact H|apply N].
  - now apply (IH t).
  - exfalso. apply Bad in E; [exact E|discriminate].
Qed.

Lemma calc_ls self maxf adjs lsas t : calc_link_state self maxf adjs lsas = Ok t -> ls_list t.
Proof.
  unfold calc_link_state. destruct nm_num as [src|]; [|intros [= <-] d l []].
  assert (E0 : ls_list []) by (intros d l []).
  destruct (maxf =? 1)%N; [apply ls_add_hops; [apply nn_dijkstra|exact E0]|].
  set (m := make_matrix _ _). set (L := gather_links m src). clearbody L m. set (o := Ok []).
  assert (O : forall x, o = Ok x -> ls_list x) by (intros x [= <-]; exact E0). clearbody o. clear E0. revert m o O.
  induction L as [|y L IH]; intros m o O E; cbn [fold_left snd] in E; [now apply O|].
  unfold multi_step in E at 2. cbn [fst snd] in E. revert E. apply IH.
  intros x. destruct o as [t0| |]; try discriminate. apply ls_add_hops; [apply nn_dijkstra|now apply O].
Qed.

Lemma ls_list_table t : ls_list t -> ls_table t.
Proof.
  intros H. split; [|split].
  - intros d l h Hl Hh. destruct (H d l Hl) as [_ X]. destruct (X h Hh) as (X1 & c & X2 & _). split; [exact X1|now exists c].
  - intros d l h Hl Hh. destruct (H d l Hl) as [_ X]. destruct (X h Hh) as (_ & c & X2 & X3). rewrite X2. unfold of_int. pose proof UNIT_pos. nia.
  - intros d l Hl. destruct (H d l Hl) as [[S N] _]. split; [now apply sorted_addc_nondec|exact N].
Qed.

(** Every table that the routing table announces, unless routing is hyperbolic. *)
Section Rt.
Variables (self : name) (maxf : N) (hy : hyp) (interval : Z) (ang : list Z -> list Z -> Z) (dst : Z -> Z -> Z -> Z).
Hypothesis Hy : hy <> HOn.
Notation rstep := (rt_step self maxf hy interval ang dst).
Notation rrun := (rt_run self maxf hy interval ang dst).

Lemma calc_tables v s s' o : rt_calc_ls self maxf v s = Ok (s', o) -> forall t, In t (tables o) -> ls_list t.
Proof.
  unfold rt_calc_ls. destruct (v_build v); [intros [= <- <-] t []|]. destruct (negb _); [intros [= <- <-] t []|].
  destruct calc_link_state as [t0| |] eqn:E; try discriminate. intros [= <- <-] t [<-|[]]. eapply calc_ls. exact E.
Qed.

Lemma step_tables e s s' o : rstep e s = Ok (s', o) -> forall t, In t (tables o) -> ls_list t.
Proof.
  destruct e as [k l now|now|i now v]; cbn [rt_step].
  - intros [= E]. unfold rt_notify in E. intros t Ht.
    assert (X : tables o = [] \/ tables o = [[]]).
    { clear - E. destruct k; destruct (_ && _); cbn in E; try (destruct (_ || _) in E); injection E as _ <-; auto. }
    destruct X as [X|X]; rewrite X in Ht; [destruct Ht|]. destruct Ht as [<-|[]]. intros d l0 [].
  - intros [= <- <-] t [].
  - destruct nth_error as [due|]; [|intros [= <- <-] t []]. destruct (_ <=? _); [|intros [= <- <-] t []].
    unfold rt_calculate. cbn [rt_busy]. destruct (rt_busy s); [intros [= <- <-] t []|].
    unfold rbind at 1. destruct hy; [|contradiction|].
    + destruct rt_calc_ls as [[s2 o2]| |] eqn:E; try discriminate. intros [= <- <-] t. rewrite app_nil_r. eapply calc_tables. exact E.
    + unfold rbind. destruct rt_calc_ls as [[s2 o2]| |] eqn:E; try discriminate.
      destruct rt_calc_hyp as [[s3 o3]| |] eqn:E3; try discriminate. intros [= <- <-] t. rewrite app_nil_r.
      assert (o3 = []) as -> by (revert E3; unfold rt_calc_hyp; destruct calc_hyperbolic; try discriminate; now intros [= _ <-]).
      rewrite app_nil_r. eapply calc_tables. exact E.
Qed.

Lemma run_tables es s s' o : rrun es s = Ok (s', o) -> forall t, In t (tables o) -> ls_list t.
Proof.
  revert s s' o. induction es as [|e es IH]; intros s s' o; cbn [rt_run]; [intros [= <- <-] t []|].
  unfold rbind. destruct rt_step as [[s1 o1]| |] eqn:E; try discriminate.
  destruct rt_run as [[s2 o2]| |] eqn:E2; try discriminate. intros [= <- <-] t. unfold tables. rewrite map_app.
  intros Ht. apply in_app_or in Ht as [Ht|Ht]; [eapply step_tables; eassumption|eapply IH; eassumption].
Qed.
End Rt.

(** *** Where the notifications come from *)

Lemma update_adds old new u b ad rm : update_body old new = (u, b, ad, rm) -> forall x, In x ad -> In x (body_names new).
Proof.
  destruct old as [o|r a|o], new as [n|r' a'|n]; cbn [update_body]; try (intros [= <- <- <- <-] x []; fail).
  - destruct adl_eqb; intros [= <- <- <- <-] x [].
  - destruct (_ && _); intros [= <- <- <- <-] x [].
  - unfold update_name. intros [= <- <- <- <-] x H. apply filter_In in H as [H _]. exact H.
Qed.

Lemma offer_note s l k l0 a d : In (k, l0, a, d) (out_notes (offer_outs s l)) ->
  k <> KRemoved /\ l0 = l /\ forall x, In x (match k with KInstalled => body_names (l_body l0) | _ => a end) -> In x (body_names (l_body l)).
Proof.
  unfold offer_outs. destruct s as [o|].
  - destruct (_ <? _)%N; [|intros []]. unfold upd_notify. destruct update_body as [[[u b] ad] rm] eqn:E. destruct u; [|intros []].
    intros [H|[]]. injection H as <- <- <- <-. split; [discriminate|]. split; [reflexivity|]. eapply update_adds. exact E.
  - intros [H|[]]. injection H as <- <- <- <-. split; [discriminate|]. split; [reflexivity|]. auto.
Qed.

Lemma eff_note c s x s' o : eff c s x s' o -> forall k l a d, In (k, l, a, d) (out_notes o) -> k <> KRemoved -> l_origin l <> c_self c ->
  exists fid l0, snd x = EFetchDone fid (Some l0) /\
    forall y, In y (match k with KInstalled => body_names (l_body l) | _ => a end) -> In y (body_names (l_body l0)).
Proof.
  intros E k l a d. destruct E.
  - intros [].
  - intros Hn _ _. apply offer_note in Hn as (_ & -> & Hn). exists fid, l0. auto.
  - intros Hn Hk Ho. exfalso. apply Ho. unfold out_notes in Hn. rewrite !flat_map_app in Hn. cbn [flat_map app] in Hn.
    assert (X : In (k, l, a, d) (out_notes (offer_outs (find_lsa (c_self c, t) s) (own c t (q0 + 1) (e_sys (fst x)) b)))).
    { destruct (publishes _ _); exact Hn. }
    apply offer_note in X as (_ & -> & _). reflexivity.
  - intros [].
  - intros [Hn|[]]. injection Hn as <- <- <- <-. intros Z0. contradiction.
  - intros [Hn|[]]. injection Hn as <- <- <- <-. intros Z0. contradiction.
Qed.

Lemma eff_removed c s x s' o l a d : eff c s x s' o -> In (KRemoved, l, a, d) (out_notes o) -> exists tid, snd x = EFire tid.
Proof.
  intros E. destruct E; try (intros []; fail); try (intros _; eauto; fail).
  - intros Hn. apply offer_note in Hn as (X & _). now elim X.
  - intros Hn. unfold out_notes in Hn. rewrite !flat_map_app in Hn. cbn [flat_map app] in Hn.
    assert (X : In (KRemoved, l, a, d) (out_notes (offer_outs (find_lsa (c_self c, t) s) (own c t (q0 + 1) (e_sys (fst x)) b)))).
    { destruct (publishes _ _); exact Hn. }
    apply offer_note in X as (X & _). now elim X.
Qed.

Lemma exec_note c f now e0 levs k l a d : In (k, l, a, d) (out_notes (snd (exec c f now e0 levs))) -> k <> KRemoved -> l_origin l <> c_self c ->
  exists e fid l0, In (e, EFetchDone fid (Some l0)) levs /\
    forall y, In y (match k with KInstalled => body_names (l_body l) | _ => a end) -> In y (body_names (l_body l0)).
Proof.
  intros Hn Hk Ho. rewrite <- filter_rel_notes in Hn. revert Hn.
  apply (@exec_eff_ind c f now e0 (fun levs s o => In (k, l, a, d) (out_notes o) ->
    exists e fid l0, In (e, EFetchDone fid (Some l0)) levs /\
      forall y, In y (match k with KInstalled => body_names (l_body l) | _ => a end) -> In y (body_names (l_body l0)))).
  - intros [].
  - intros s o s' o' I H E _ Hn. unfold out_notes in Hn. rewrite flat_map_app in Hn. apply in_app_or in Hn as [Hn|Hn]; [now apply H|].
    destruct (@eff_note _ _ _ _ _ E _ _ _ _ Hn Hk Ho) as (fid & l0 & X & _). discriminate X.
  - intros evs s o x s' o' _ _ I H E Hn. unfold out_notes in Hn. rewrite flat_map_app in Hn. apply in_app_or in Hn as [Hn|Hn].
    + destruct (H Hn) as (e & fid & l0 & X & Y). exists e, fid, l0. split; [apply in_or_app; now left|exact Y].
    + destruct (@eff_note _ _ _ _ _ E _ _ _ _ Hn Hk Ho) as (fid & l0 & X & Y). destruct x as [e v]. cbn [snd] in X. subst v. exists e, fid, l0.
      split; [apply in_or_app; right; now left|exact Y].
Qed.

(** The constructor of the database only builds LSAs of this router. *)
Lemma init_note c f now e0 k l a d : In (k, l, a, d) (out_notes (snd (init c f now e0))) -> l_origin l = c_self c.
Proof.
  intros Hn. assert (Hx : In (k, l, a, d) (out_notes (snd (exec c f now e0 [])))).
  { rewrite exec_snd. cbn [run snd]. now rewrite app_nil_r. }
  rewrite <- filter_rel_notes in Hx. revert Hx.
  apply (@exec_eff_ind c f now e0 (fun levs s o => levs = [] -> In (k, l, a, d) (out_notes o) -> l_origin l = c_self c)); try reflexivity.
  - intros _ [].
  - intros s o s' o' I H E _ _ Hx. unfold out_notes in Hx. rewrite flat_map_app in Hx. apply in_app_or in Hx as [Hx|Hx]; [now apply H|].
    assert (Kd : k = KRemoved \/ k <> KRemoved) by (destruct k; [right; discriminate..|now left]). destruct Kd as [->|Hk].
    + destruct (@eff_removed _ _ _ _ _ _ _ _ E Hx) as (tid & X). discriminate X.
    + destruct (eq_dec (l_origin l) (c_self c)) as [Q|Q]; [exact Q|].
      destruct (@eff_note _ _ _ _ _ E _ _ _ _ Hx Hk Q) as (fid & l0 & X & _). discriminate X.
  - intros evs s o x s' o' _ _ _ _ _ Q. destruct evs; discriminate Q.
Qed.

(** *** The router *)

Section G.
Variables (c : gconf) (uri_of : name -> string) (ang : list Z -> list Z -> Z) (dst : Z -> Z -> Z -> Z).
Notation self := (c_self (gc c)).
Notation hy := (c_hyp (gc c)).
Notation gstep := (M_Router.gstep c uri_of ang dst).
Notation gstate := (S_Router.gstate c uri_of ang dst).
Notation gtrace := (S_Router.gtrace c uri_of ang dst).

(** LSAs enter the database from events only. *)
Definition noFetch (x : glog) : Prop := match x with CPre (PvDb _ _ (EFetchDone _ _)) => False | _ => True end.
Lemma fib_noFetch x : fibP x -> noFetch x. Proof. destruct x; cbn; auto; contradiction. Qed.
Lemma rt_noFetch i e : all noFetch (call_rt c ang dst i e).
Proof.
  apply all_live. intros g _. destruct rt_step as [[r o]| |]; [|intros y [<-|[]]; exact I|intros y [<-|[]]; exact I].
  apply seq_all; [apply in_cons_map; cbn; auto|]. apply all_each. intros []. eapply weaken; [apply fib_noFetch|apply npt_fibP].
Qed.
Lemma strategy_noFetch o : all noFetch (register_strategy c o).
Proof.
  apply all_live. intros g _. destruct existsb; [intros y []|]. eapply weaken; [apply fib_noFetch|].
  apply all_each. intros. apply fib_fibP.
Qed.
Lemma out_noFetch i o : all noFetch (geach (pre_out c ang dst i) o).
Proof.
  apply all_each. intros [[]|]; cbn [pre_out]; try apply all_ret; try apply all_dead; try apply strategy_noFetch.
  apply all_live. intros g1 _. apply seq_all; [apply rt_noFetch|]. eapply weaken; [apply fib_noFetch|apply npt_fibP].
Qed.
Lemma pre_noFetch i x : noFetch (CPre x) -> all noFetch (call_pre c uri_of ang dst i x).
Proof.
  intros N. apply all_live. intros g _. destruct pstep as [p o]. apply seq_all; [apply in_cons_map; cbn; auto|]. apply out_noFetch.
Qed.
Lemma hello_noFetch i x : all noFetch (call_hello c uri_of ang dst i x).
Proof.
  apply all_live. intros g _. destruct hstep as [h o]. apply seq_all; [apply in_cons_map; cbn; auto|].
  apply all_seq; [eapply weaken; [apply fib_noFetch|apply fib_fibP]|].
  apply all_each. intros []; cbn [hello_out]; try apply all_ret; try apply all_dead.
  - apply all_live. intros g1 _. apply pre_noFetch. exact I.
  - apply all_live. intros g1 _. apply rt_noFetch.
  - eapply weaken; [apply fib_noFetch|apply fib_fibP].
Qed.
Lemma step_fetch g x s a fid l : In (CPre (PvDb s a (EFetchDone fid l))) (snd (gstep g x)) -> snd x = GvDb (EFetchDone fid l).
Proof.
  assert (No : forall f : gact, all noFetch f -> ~ In (CPre (PvDb s a (EFetchDone fid l))) (snd (f g))) by (intros f F H; exact (F _ _ H)).
  unfold M_Router.gstep, live. destruct (g_dead g); [intros []|]. destruct x as [i v]. cbn [fst snd]. destruct v as [d|y|m w|y|y|k]; cbn [gstep_live].
  - intros H. exfalso. revert H. apply No. apply all_seq; [apply pre_noFetch; exact I|]. intros g1. eapply weaken; [apply fib_noFetch|apply fib_fibP].
  - destruct y; try (intros []; fail); try (intros H; exfalso; revert H; apply No, pre_noFetch; exact I).
    unfold call_pre, live. destruct (g_dead g); [intros []|]. destruct pstep as [p o].
    unfold gseq. pose proof (out_noFetch i o (gw_pre p g)) as O. destruct (geach (pre_out c ang dst i) o (gw_pre p g)) as [g2 o2]. cbn [snd] in *.
    intros H. apply in_app_or in H as [[H|H]|H].
    + injection H as _ _ -> ->. reflexivity.
    + apply in_map_iff in H as (z & H & _). discriminate H.
    + exfalso. exact (O _ H).
  - intros H. exfalso. revert H. apply No, pre_noFetch. exact I.
  - destruct y; try (intros []; fail); intros H; exfalso; revert H; apply No, hello_noFetch.
  - destruct y; try (intros []; fail); try (intros H; exfalso; revert H; apply No; eapply weaken; [apply fib_noFetch|apply fib_fibP]).
    destruct get; [|intros []]. intros H. exfalso. revert H. apply No. apply all_seq; [eapply weaken; [apply fib_noFetch|apply fib_fibP]|].
    apply all_seq; apply hello_noFetch.
  - destruct nth_error as [due|]; [|intros []]. destruct (_ <=? _); [|intros []].
    intros H. exfalso. revert H. apply No, rt_noFetch.
Qed.
Lemma run_fetch evs g s a fid l : In (CPre (PvDb s a (EFetchDone fid l))) (snd (run gstep g evs)) -> exists i, In (i, GvDb (EFetchDone fid l)) evs.
Proof.
  revert g. induction evs as [|x evs IH]; intros g; [intros []|]. cbn [run]. pose proof (@step_fetch g x s a fid l) as F.
  destruct (gstep g x) as [g1 o1]. specialize (IH g1). destruct (run gstep g1 evs) as [g2 o2]. cbn [snd] in *.
  intros H. apply in_app_or in H as [H|H].
  - specialize (F H). destruct x as [i v]. cbn [snd] in F. subst v. exists i. now left.
  - destruct (IH H) as (i & Hi). exists i. now right.
Qed.

(** The adjacency list that the FIB reads keeps its neighbours. *)
Definition adlP (S : list name) (x : glog) : Prop := match x with CFib (FvAdl l) => map a_name l = S | _ => True end.
Definition fibc (x : glog) : Prop := match x with CFib (FvAdl _) => False | _ => True end.
Lemma fibc_adlP S x : fibc x -> adlP S x. Proof. destruct x; cbn; auto. destruct x; cbn; auto; contradiction. Qed.
Lemma fib_fibc e : fibc (CFib e) -> all fibc (call_fib c e).
Proof. intros F. apply all_live. intros g _. destruct fstep. apply in_cons_map; cbn; auto. Qed.
Lemma npt_fibc e : all fibc (call_npt c e).
Proof.
  apply all_live. intros g _. destruct nstep as [[n o]| |]; try (intros x [<-|[]]; exact I).
  apply seq_all; [apply in_cons_map; cbn; auto|]. apply all_each. intros []; apply fib_fibc; exact I.
Qed.
Lemma rt_fibc i e : all fibc (call_rt c ang dst i e).
Proof.
  apply all_live. intros g _. destruct rt_step as [[r o]| |]; [|intros y [<-|[]]; exact I|intros y [<-|[]]; exact I].
  apply seq_all; [apply in_cons_map; cbn; auto|]. apply all_each. intros []. apply npt_fibc.
Qed.
Lemma strategy_fibc o : all fibc (register_strategy c o).
Proof. apply all_live. intros g _. destruct existsb; [intros y []|]. apply all_each. intros. apply fib_fibc. exact I. Qed.
Lemma pre_fibc i x : all fibc (call_pre c uri_of ang dst i x).
Proof.
  apply all_live. intros g _. destruct pstep as [p o]. apply seq_all; [apply in_cons_map; cbn; auto|].
  apply all_each. intros [[]|]; cbn [pre_out]; try apply all_ret; try apply all_dead; try apply strategy_fibc.
  apply all_live. intros g1 _. apply seq_all; [apply rt_fibc|]. apply npt_fibc.
Qed.
Lemma hello_adlP i x g S : hinv (hconf_of c) (g_h g) -> map a_name (h_adl (g_h g)) = S ->
  forall y, In y (snd (call_hello c uri_of ang dst i x g)) -> adlP S y.
Proof.
  intros Hi <-. unfold call_hello, live. destruct (g_dead g); [intros y []|].
  destruct (hstep_inv x Hi) as [E _]. destruct (hstep (hconf_of c) (g_h g) x) as [h o]. cbn [fst] in E.
  apply names_of_stat in E. apply seq_all; [apply in_cons_map; cbn; auto|]. apply all_seq.
  - apply all_live. intros g1 _. destruct fstep. apply in_cons_map; cbn; auto.
  - eapply weaken; [apply fibc_adlP|]. apply all_each. intros []; cbn [hello_out]; try apply all_ret; try apply all_dead.
    + apply all_live. intros g1 _. apply pre_fibc.
    + apply all_live. intros g1 _. apply rt_fibc.
    + apply fib_fibc. exact I.
Qed.
Lemma gseq_trace (f h : gact) g y : In y (snd (gseq f h g)) -> In y (snd (f g)) \/ In y (snd (h (fst (f g)))).
Proof. rewrite seq_trace. apply in_app_or. Qed.

Lemma hinv_tracks g g' t S : tracks c uri_of ang dst g g' t -> hinv (hconf_of c) (g_h g) -> map a_name (h_adl (g_h g)) = S ->
  hinv (hconf_of c) (g_h g') /\ map a_name (h_adl (g_h g')) = S.
Proof.
  intros T Hi <-. pose proof (t_h T) as E. destruct (@hrun_inv c (g_h g) (hellos t) Hi) as [H1 H2]. rewrite E in H1, H2. cbn [fst] in *.
  split; [exact H1|]. now apply names_of_stat.
Qed.

Lemma step_adl g x S : hinv (hconf_of c) (g_h g) -> map a_name (h_adl (g_h g)) = S ->
  forall y, In y (snd (gstep g x)) -> adlP S y.
Proof.
  intros Hi Hs. assert (No : forall f : gact, all fibc f -> forall y, In y (snd (f g)) -> adlP S y).
  { intros f F y H. apply fibc_adlP. exact (F _ _ H). }
  unfold M_Router.gstep, live. destruct (g_dead g) eqn:Dd; [intros y []|]. destruct x as [i v]. cbn [fst snd]. destruct v as [d|z|m w|z|z|k]; cbn [gstep_live].
  - apply No. apply all_seq; [apply pre_fibc|]. intros g1. apply fib_fibc. exact I.
  - destruct z; try (intros y []; fail); apply No, pre_fibc.
  - apply No, pre_fibc.
  - destruct z; try (intros y []; fail); now apply hello_adlP.
  - destruct z; try (intros y []; fail); try (apply No, fib_fibc; exact I).
    destruct get as [rc|]; [|intros y []]. intros y H. apply gseq_trace in H as [H|H]; [revert H; apply No, fib_fibc; exact I|].
    set (g1 := fst (call_fib c (FvRegOk id) g)) in *.
    assert (G1 : g_h g1 = g_h g). { unfold g1, call_fib, live. rewrite Dd. destruct fstep. reflexivity. }
    apply gseq_trace in H as [H|H].
    + revert H. apply hello_adlP; rewrite G1; assumption.
    + set (e := HvFace (rc_uri rc) (rc_face rc)) in *. set (g2 := fst (call_hello c uri_of ang dst i e g1)) in *.
      assert (G2 : hinv (hconf_of c) (g_h g2) /\ map a_name (h_adl (g_h g2)) = S).
      { eapply hinv_tracks; [apply good_hello|rewrite G1; exact Hi|rewrite G1; exact Hs]. }
      destruct G2 as [G3 G4]. revert H. now apply hello_adlP.
  - destruct nth_error as [due|]; [|intros y []]. destruct (_ <=? _); [|intros y []]. apply No, rt_fibc.
Qed.
Lemma run_adl evs g S : hinv (hconf_of c) (g_h g) -> map a_name (h_adl (g_h g)) = S ->
  forall y, In y (snd (run gstep g evs)) -> adlP S y.
Proof.
  revert g. induction evs as [|x evs IH]; intros g Hi Hs; [intros y []|]. cbn [run]. pose proof (@step_adl g x S Hi Hs) as F.
  destruct (hinv_tracks (good_step c uri_of ang dst x g) Hi Hs) as [Hi1 Hs1].
  destruct (gstep g x) as [g1 o1]. specialize (IH g1 Hi1 Hs1). destruct (run gstep g1 evs) as [g2 o2]. cbn [snd] in *.
  intros y H. apply in_app_or in H as [H|H]; [now apply F|now apply IH].
Qed.
End G.

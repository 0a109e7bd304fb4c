(** Name prefix table: effect of adding and removing an entry on the pointer-free views. *)
From Verif Require Import Base M_Nexthop M_Lsa M_Lsdb M_LinkState M_Npt L_Npt.
Open Scope Z_scope.
Set Implicit Arguments.

Tactic Notation "eqc" constr(x) constr(y) :=
  let E := fresh "E" in destruct (eqb x y) eqn:E;
  [apply eqb_eq in E; try subst x | apply eqb_neq in E].

(** ** A new reference from an entry to a router *)
Section NewRef.
Variables (s s' : npt) (d n : name) (o k : nat) (e : npte) (p : pent) (rtes0 : list nat).
Hypothesis I : pinv s.
Hypothesis Ht : n_table s' = set k e (n_table s).
Hypothesis Hn : ne_name e = n.
Hypothesis Hr : ne_rtes e = rtes0 ++ [o].
Hypothesis Hk : (exists e0, get k (n_table s) = Some e0 /\ ne_name e0 = n /\ ne_rtes e0 = rtes0) \/
                ((forall k' e', get k' (n_table s) = Some e' -> ne_name e' <> n) /\ get k (n_table s) = None /\ rtes0 = []).
Hypothesis Ho : ~ In o rtes0.
Hypothesis Hp : (get d (n_pool s) = Some o /\ n_pool s' = n_pool s /\
                 exists p0, get o (n_heap s) = Some p0 /\
                   p = PEnt d (pe_nhl p0) (pe_use p0 + 1) (set n k (pe_names p0))) \/
                (get d (n_pool s) = None /\ n_pool s' = set d o (n_pool s) /\ n_next s = o /\
                 exists hops, p = PEnt d hops 1 [(n, k)]).
Hypothesis Hh : forall o', get o' (n_heap s') = if eqb o' o then Some p else get o' (n_heap s).
Hypothesis Hx : (n_next s <= n_next s')%nat /\ (k < n_next s')%nat /\ (o < n_next s')%nat.

Lemma nr_other k' e' : k' <> k -> get k' (n_table s) = Some e' -> ne_name e' <> n.
Proof. intros Hne G. destruct Hk as [(e0 & G0 & N0 & _)|(H & _)]; [|eauto].
  intros E. apply Hne. eapply (pi_tn I); eauto. congruence. Qed.

Lemma nr_uniq : uniq (n_table s').
Proof. rewrite Ht. apply uniq_set; [now apply pinv_uniq|]. intros. rewrite Hn. eapply nr_other; eauto. Qed.

Lemma nr_pool d' : get d' (n_pool s') = if eqb d' d then Some o else get d' (n_pool s).
Proof. destruct Hp as [(G & -> & _)|(G & -> & _)]; [|apply get_set].
  eqc d' d; auto. Qed.

Lemma nr_old_not_fresh o' d' : get d' (n_pool s) = Some o' -> d' <> d -> o' <> o.
Proof. intros G Hd ->. destruct Hp as [(G2 & _)|(_ & _ & E & _)].
  - apply Hd. eapply (pi_pi I); eauto.
  - pose proof (pi_bp I _ G). lia. Qed.

Lemma nr_dest : pe_dest p = d.
Proof. destruct Hp as [(_ & _ & p0 & _ & ->)|(_ & _ & _ & h & ->)]; reflexivity. Qed.

Lemma nr_refs o' n' k' : refs (n_table s') o' n' k' <->
  (o' = o /\ n' = n /\ k' = k) \/ refs (n_table s) o' n' k'.
Proof. unfold refs. rewrite Ht. split.
  - intros (e1 & G & N1 & O1). rewrite get_set in G. eqc k' k.
    + injection G as <-. rewrite Hr, in_app_iff in O1. destruct O1 as [O1|[<-|[]]]; [|left; repeat split; congruence].
      right. destruct Hk as [(e0 & G0 & N0 & R0)|(_ & _ & R0)]; [|rewrite R0 in O1; destruct O1].
      exists e0. repeat split; [exact G0|congruence|now rewrite R0].
    + right. eauto.
  - intros [(-> & -> & ->)|(e1 & G & N1 & O1)].
    + exists e. rewrite get_set_eq, Hr, in_app_iff. simpl. auto.
    + rewrite get_set. eqc k' k; [|eauto].
      destruct Hk as [(e0 & G0 & N0 & R0)|(_ & G0 & _)]; [|congruence].
      assert (e1 = e0) by congruence. subst e1. exists e. rewrite Hr, in_app_iff, <- R0. repeat split; [congruence|auto]. Qed.

Lemma nr_no_old_ref k' : ~ refs (n_table s) o n k'.
Proof. intros (e1 & G & N1 & O1). destruct (Nat.eq_dec k' k) as [->|Hne]; [|exact (nr_other Hne G N1)].
  destruct Hk as [(e0 & G0 & N0 & R0)|(_ & G0 & _)]; [|congruence].
  assert (e1 = e0) by congruence. subst e1. apply Ho. now rewrite <- R0. Qed.

Lemma nr_pinv : pinv s'.
Proof. constructor.
  - exact (proj1 nr_uniq).
  - exact (proj2 nr_uniq).
  - destruct Hp as [(_ & -> & _)|(_ & -> & _)]; [exact (pi_pk I)|apply NoDup_set; exact (pi_pk I)].
  - intros d1 d2 o'. rewrite !nr_pool. eqc d1 d; eqc d2 d; auto.
    + intros [= <-] G. exfalso. eapply nr_old_not_fresh; eauto.
    + intros G [= <-]. exfalso. eapply nr_old_not_fresh; eauto.
    + apply (pi_pi I).
  - intros k' e'. rewrite Ht, get_set. eqc k' k; [intros _; apply Hx|].
    intros G. pose proof (pi_bt I _ G). lia.
  - intros d' o'. rewrite nr_pool. eqc d' d; [intros [= <-]; apply Hx|].
    intros G. pose proof (pi_bp I _ G). lia.
  - intros o' p'. rewrite Hh. eqc o' o; [intros _; apply Hx|].
    intros G. pose proof (pi_bh I _ G). lia.
  - intros d' o'. rewrite nr_pool, Hh. eqc d' d.
    + intros [= <-]. rewrite eqb_refl. exists p. split; [reflexivity|].
      destruct Hp as [(G & _ & p0 & G0 & ->)|(G & _ & E & hops & ->)]; cbn [pe_dest pe_names pe_use].
      * destruct (pi_pool I _ G) as (p1 & P1 & P2 & P3 & P4 & P5 & P6).
        assert (p1 = p0) by congruence. subst p1.
        assert (Fr : get n (pe_names p0) = None).
        { destruct (get n (pe_names p0)) as [k'|] eqn:Gn; [|reflexivity]. exfalso.
          apply P6 in Gn. exact (nr_no_old_ref Gn). }
        split; [reflexivity|]. split; [now apply NoDup_set|].
        pose proof Fr as Fr'. apply get_None_keys in Fr'.
        split; [rewrite keys_set_new by exact Fr'; destruct (pe_names p0); discriminate|].
        split; [rewrite keys_set_new by exact Fr'; rewrite app_length; simpl; lia|].
        intros n' k'. rewrite get_set, nr_refs. eqc n' n.
        -- split; [intros [= <-]; auto|]. intros [(_ & _ & ->)|R]; [reflexivity|]. exfalso. exact (nr_no_old_ref R).
        -- rewrite P6. split; [auto|]. intros [(_ & ? & _)|R]; [congruence|exact R].
      * split; [reflexivity|]. split; [repeat constructor; simpl; tauto|]. split; [discriminate|].
        split; [reflexivity|]. intros n' k'. rewrite nr_refs. cbn [get]. eqc n' n.
        -- split; [intros [= <-]; auto|]. intros [(_ & _ & ->)|R]; [reflexivity|]. exfalso. exact (nr_no_old_ref R).
        -- split; [discriminate|]. intros [(_ & ? & _)|(e1 & G1 & N1 & O1)]; [congruence|]. exfalso.
           destruct (pi_tab I _ G1) as (_ & _ & T). destruct (T _ O1) as [d1 D1].
           pose proof (pi_bp I _ D1). lia.
    + intros G. pose proof (nr_old_not_fresh G E) as Hne. eqc o' o; [congruence|].
      destruct (pi_pool I _ G) as (p1 & P1 & P2 & P3 & P4 & P5 & P6).
      exists p1. repeat (split; [assumption|]). intros n' k'. rewrite P6, nr_refs. split; [auto|].
      intros [(? & _)|R]; [congruence|exact R].
  - intros k' e'. rewrite Ht, get_set.
    assert (L : forall o', (exists d', get d' (n_pool s) = Some o') -> exists d', get d' (n_pool s') = Some o').
    { intros o' [d' G]. exists d'. rewrite nr_pool. eqc d' d; [|exact G].
      destruct Hp as [(G2 & _)|(G2 & _)]; congruence. }
    eqc k' k.
    + intros [= <-]. rewrite Hr. split; [|split].
      * apply NoDup_app_intro; [|repeat constructor; simpl; tauto|].
        -- destruct Hk as [(e0 & G0 & N0 & R0)|(_ & _ & R0)]; [|rewrite R0; constructor].
           destruct (pi_tab I _ G0) as (T & _). now rewrite <- R0.
        -- intros x Hx1 [<-|[]]. tauto.
      * destruct rtes0; discriminate.
      * intros o'. rewrite in_app_iff. intros [H|[<-|[]]].
        -- apply L. destruct Hk as [(e0 & G0 & N0 & R0)|(_ & _ & R0)]; [|rewrite R0 in H; destruct H].
           destruct (pi_tab I _ G0) as (_ & _ & T). apply T. now rewrite R0.
        -- exists d. rewrite nr_pool. now rewrite eqb_refl.
    + intros G. destruct (pi_tab I _ G) as (T1 & T2 & T3). repeat split; auto. Qed.

Lemma nr_dest_old k' e' o' : get k' (n_table s) = Some e' -> In o' (ne_rtes e') ->
  dest_of (n_heap s') o' = dest_of (n_heap s) o'.
Proof. intros G H. unfold dest_of. rewrite Hh. eqc o' o; [|reflexivity].
  destruct (pi_tab I _ G) as (_ & _ & T). destruct (T _ H) as [d' D'].
  destruct Hp as [(G2 & _ & p0 & G0 & ->)|(_ & _ & E & _)].
  - destruct (pi_pool I _ G2) as (p1 & P1 & P2 & _). rewrite P1. simpl. congruence.
  - pose proof (pi_bp I _ D'). lia. Qed.

Lemma nr_ent n' : ent s' n' = if eqb n' n then Some (ne_flags e, map (dest_of (n_heap s)) rtes0 ++ [d], ne_nhl e)
  else ent s n'.
Proof. unfold ent. rewrite Ht, find_set; [|now apply pinv_uniq|rewrite <- Ht; exact nr_uniq]. rewrite Hn.
  eqc n' n.
  - rewrite Hr, map_app. cbn [map]. do 4 f_equal.
    + apply map_ext_in. intros o' O'. destruct Hk as [(e0 & G0 & N0 & R0)|(_ & _ & R0)]; [|rewrite R0 in O'; destruct O'].
      eapply nr_dest_old; eauto. now rewrite R0.
    + f_equal. unfold dest_of. rewrite Hh, eqb_refl. apply nr_dest.
  - destruct (find_npte n' (n_table s)) as [[k' e']|] eqn:F; [|reflexivity].
    apply find_npte_Some in F as [F1 F2]; [|now apply pinv_uniq].
    assert (k' <> k). { intros ->. destruct Hk as [(e0 & G0 & N0 & R0)|(_ & G0 & _)]; congruence. }
    eqc k' k; [congruence|]. do 3 f_equal. apply map_ext_in. intros o' O'. eapply nr_dest_old; eauto. Qed.

Lemma nr_poolh d' : poolh s' d' = if eqb d' d then Some (pe_nhl p) else poolh s d'.
Proof. unfold poolh. rewrite nr_pool. eqc d' d.
  - unfold hops_of. now rewrite Hh, eqb_refl.
  - destruct (get d' (n_pool s)) as [o'|] eqn:G; [|reflexivity]. unfold hops_of. rewrite Hh.
    pose proof (nr_old_not_fresh G E). eqc o' o; [congruence|reflexivity]. Qed.
End NewRef.

(** ** The entry changes flags and cached hops only *)
Section Retouch.
Variables (s s' : npt) (k : nat) (e e0 : npte).
Hypothesis I : pinv s.
Hypothesis G0 : get k (n_table s) = Some e0.
Hypothesis Ht : n_table s' = set k e (n_table s).
Hypothesis Hn : ne_name e = ne_name e0.
Hypothesis Hr : ne_rtes e = ne_rtes e0.
Hypothesis Hp : n_pool s' = n_pool s.
Hypothesis Hh : n_heap s' = n_heap s.
Hypothesis Hx : n_next s' = n_next s.

Lemma rt_uniq : uniq (n_table s').
Proof. rewrite Ht. apply uniq_set; [now apply pinv_uniq|]. intros k' e' Hne G E. apply Hne.
  eapply (pi_tn I); eauto. congruence. Qed.

Lemma rt_refs o n' k' : refs (n_table s') o n' k' <-> refs (n_table s) o n' k'.
Proof. unfold refs. rewrite Ht. setoid_rewrite get_set. eqc k' k; [|tauto]. split.
  - intros (e1 & [= <-] & N1 & O1). exists e0. rewrite <- Hn, <- Hr. auto.
  - intros (e1 & G & N1 & O1). assert (e1 = e0) by congruence. subst e1. exists e. rewrite Hn, Hr. auto. Qed.

Lemma rt_pinv : pinv s'.
Proof. constructor; rewrite ?Hp, ?Hh, ?Hx.
  - exact (proj1 rt_uniq).
  - exact (proj2 rt_uniq).
  - exact (pi_pk I).
  - exact (pi_pi I).
  - intros k' e'. rewrite Ht, get_set. eqc k' k; [|apply (pi_bt I)]. intros _. exact (pi_bt I _ G0).
  - exact (pi_bp I).
  - exact (pi_bh I).
  - intros d o G. destruct (pi_pool I _ G) as (p1 & P1 & P2 & P3 & P4 & P5 & P6).
    exists p1. repeat (split; [assumption|]). intros n' k'. now rewrite P6, rt_refs.
  - intros k' e'. rewrite Ht, get_set. eqc k' k; [|apply (pi_tab I)].
    intros [= <-]. rewrite Hr. exact (pi_tab I _ G0). Qed.

Lemma rt_ent n' : ent s' n' = if eqb n' (ne_name e0) then Some (ne_flags e, map (dest_of (n_heap s)) (ne_rtes e0), ne_nhl e)
  else ent s n'.
Proof. unfold ent. rewrite Ht, find_set; [|now apply pinv_uniq|rewrite <- Ht; exact rt_uniq]. rewrite Hn, Hh.
  eqc n' (ne_name e0); [now rewrite Hr|].
  destruct (find_npte n' (n_table s)) as [[k' e']|] eqn:F; [|reflexivity].
  apply find_npte_Some in F as [F1 F2]; [|now apply pinv_uniq].
  assert (k' <> k) by (intros ->; congruence). eqc k' k; [congruence|reflexivity]. Qed.

Lemma rt_poolh d : poolh s' d = poolh s d.
Proof. unfold poolh. now rewrite Hp, Hh. Qed.
End Retouch.

(** ** adjust and tell_fib *)
Definition same_cost (s s' : npt) : Prop :=
  (forall a b, costof s' a b = costof s a b) /\
  (forall a b v, get (a, b) (n_cost s) = Some v -> get (a, b) (n_cost s') = Some v).

Lemma same_cost_refl s : same_cost s s.
Proof. split; auto. Qed.

Lemma adjust_eff hops n d s : exists c, adjust hops n d s = (wn_cost c s, shift (costof s d n) hops) /\
  same_cost s (wn_cost c s).
Proof. destruct hops as [|h hops].
  - exists (n_cost s). destruct s. split; [reflexivity|]. apply same_cost_refl.
  - unfold adjust. exists (set (d, n) (costof s d n) (n_cost s)). split; [reflexivity|]. split.
    + intros a b. unfold costof at 1. cbn [n_cost wn_cost]. rewrite get_set. eqc (a, b) (d, n); [|reflexivity].
      injection E as -> ->. reflexivity.
    + intros a b v G. cbn [n_cost wn_cost]. rewrite get_set. eqc (a, b) (d, n); [|exact G].
      injection E as -> ->. f_equal. unfold costof. now rewrite G. Qed.

Definition word (n : name) (k : Z) (f : N) (h : nhl) : nout :=
  match h with [] => NRemove n | _ => NUpdate n (shift k h) f end.

Lemma tell_fib_eff e d s : exists c, tell_fib e d s = (wn_cost c s, [word (ne_name e) (costof s d (ne_name e)) (ne_flags e) (ne_nhl e)]) /\
  same_cost s (wn_cost c s).
Proof. unfold tell_fib, word. destruct (ne_nhl e) as [|h l] eqn:En.
  - exists (n_cost s). destruct s. split; [reflexivity|apply same_cost_refl].
  - destruct (adjust_eff (h :: l) (ne_name e) d s) as (c & H & S). rewrite H. exists c. auto. Qed.

(** ** addEntry *)
Definition new_flags (old : option (N * list name * nhl)) (fl : N) : N :=
  match old with
  | None => CHILD_INHERIT
  | Some (f, _, h) => if negb (eqb f fl) && Nat.eqb (length h) 0 then fl else f
  end.
Definition add_dest (d : name) (ds : list name) : list name := if in_dec eq_dec d ds then ds else ds ++ [d].

Record added (n d : name) (fl : N) (s s' : npt) (out : list nout) : Prop := Added
  { ad_ent : forall n', ent s' n' =
      if eqb n' n then Some (new_flags (ent s n) fl, add_dest d (dests s n), agen (poolh s') (add_dest d (dests s n)))
      else ent s n';
    ad_pool : forall d', poolh s' d' =
      if eqb d' d then Some (match poolh s d with Some l => l | None => route d (n_rt s) end) else poolh s d';
    ad_cost : same_cost s s';
    ad_rt : n_rt s' = n_rt s;
    ad_out : out = [word n (costof s d n) (new_flags (ent s n) fl) (agen (poolh s') (add_dest d (dests s n)))];
    ad_again : In d (dests s n) -> n_pool s' = n_pool s /\ n_heap s' = n_heap s }.

Lemma in_dests s n k e d o : pinv s -> find_npte n (n_table s) = Some (k, e) -> get d (n_pool s) = Some o ->
  In d (dests s n) <-> In o (ne_rtes e).
Proof. intros I F G. unfold dests, ent. rewrite F. rewrite in_map_iff.
  apply find_npte_Some in F as [F1 F2]; [|now apply pinv_uniq]. split.
  - intros (o' & <- & O'). rewrite (@pinv_rte s k e o' I F1 O') in G. congruence.
  - intros O. exists o. split; [|exact O]. pose proof (@pinv_rte s k e o I F1 O) as H.
    exact (pi_pi I _ _ H G). Qed.

Lemma in_dests_pool s n d : pinv s -> In d (dests s n) -> exists o, get d (n_pool s) = Some o.
Proof. intros I H. destruct (get d (n_pool s)) as [o|] eqn:G; [eauto|]. exfalso.
  assert (poolh s d <> None). { apply pool_used; eauto. } apply H0. now apply poolh_None. Qed.

Lemma wn_cost_ent c s n : ent (wn_cost c s) n = ent s n.
Proof. reflexivity. Qed.
Lemma wn_cost_poolh c s d : poolh (wn_cost c s) d = poolh s d.
Proof. reflexivity. Qed.
Lemma pinv_wn_cost c s : pinv s -> pinv (wn_cost c s).
Proof. intros [? ? ? ? ? ? ? ? ?]. constructor; assumption. Qed.

Lemma agen_ext f g ds : (forall d, In d ds -> f d = g d) -> agen f ds = agen g ds.
Proof. intros H. unfold agen. f_equal. induction ds as [|d ds IH]; [reflexivity|]. cbn [flat_map].
  rewrite (H d) by now left. rewrite IH; [reflexivity|]. intros. apply H. now right. Qed.

Lemma add_entry_eff n d fl s : pinv s ->
  exists s' out, add_entry n d fl s = Ok (s', out) /\ pinv s' /\ added n d fl s s' out.
Proof. intros I. destruct (in_dec eq_dec d (dests s n)) as [Hin|Hnin].
  - (* the reference exists *)
    destruct (in_dests_pool _ _ I Hin) as [o G].
    destruct (find_npte n (n_table s)) as [[k e0]|] eqn:F; [|unfold dests, ent in Hin; rewrite F in Hin; destruct Hin].
    pose proof (proj1 (@in_dests s n k e0 d o I F G) Hin) as O.
    pose proof F as F'. apply find_npte_Some in F' as [F1 F2]; [|now apply pinv_uniq].
    unfold add_entry, pool_entry. rewrite G, F. unfold add_rte.
    destruct (in_dec eq_dec o (ne_rtes e0)) as [_|C]; [|contradiction].
    set (fl' := if negb (eqb (ne_flags e0) fl) && Nat.eqb (length (ne_nhl e0)) 0 then fl else ne_flags e0).
    set (e := Npte n fl' (ne_rtes e0) (gen_nhl (n_heap s) (ne_rtes e0))).
    set (s3 := wn_table (set k e (n_table s)) s).
    destruct (tell_fib_eff e d s3) as (c & -> & SC).
    set (s4 := wn_cost c s3).
    assert (I3 : pinv s3). { apply (@rt_pinv s s3 k e e0); auto. }
    assert (Ln : link o n k s4 = s4).
    { unfold link. change (n_heap s4) with (n_heap s). destruct (pi_pool I _ G) as (p & P1 & P2 & P3 & P4 & P5 & P6).
      rewrite P1. rewrite (proj2 (P6 n k)); [reflexivity|]. exists e0. auto. }
    rewrite Ln. exists s4, [word n (costof s d n) fl' (gen_nhl (n_heap s) (ne_rtes e0))].
    split; [reflexivity|]. split; [now apply pinv_wn_cost|].
    assert (Eg : gen_nhl (n_heap s) (ne_rtes e0) = agen (poolh s) (dests s n)).
    { rewrite gen_agen by (intros; eapply pinv_rte; eauto). unfold dests, ent. now rewrite F. }
    assert (Ed : add_dest d (dests s n) = dests s n) by (unfold add_dest; destruct (in_dec _ _ _); [reflexivity|contradiction]).
    assert (Ef : new_flags (ent s n) fl = fl') by (unfold new_flags, ent; rewrite F; reflexivity).
    constructor.
    + intros n'. rewrite Ed, Ef. change (ent s4 n') with (ent s3 n').
      rewrite (@rt_ent s s3 k e e0); auto. rewrite F2. eqc n' n; [|reflexivity].
      cbn [ne_flags ne_nhl e]. rewrite Eg. change (agen (poolh s4)) with (agen (poolh s)).
      assert (Edd : dests s n = map (dest_of (n_heap s)) (ne_rtes e0)) by (unfold dests, ent; now rewrite F).
      now rewrite <- Edd.
    + intros d'. change (poolh s4 d') with (poolh s d'). eqc d' d; [|reflexivity].
      unfold poolh. now rewrite G.
    + exact SC.
    + reflexivity.
    + rewrite Ed, Ef, Eg. reflexivity.
    + auto.
  - (* a new reference *)
    set (ds := dests s n) in *.
    assert (Ed : add_dest d ds = ds ++ [d]) by (unfold add_dest; destruct (in_dec _ _ _); [contradiction|reflexivity]).
    unfold add_entry.
    set (o := match get d (n_pool s) with Some o => o | None => n_next s end).
    set (h0 := match poolh s d with Some l => l | None => route d (n_rt s) end).
    assert (PE : exists s1, pool_entry d s = (o, s1) /\ n_table s1 = n_table s /\ n_cost s1 = n_cost s /\ n_rt s1 = n_rt s /\
      (n_next s <= n_next s1)%nat /\ (o < n_next s1)%nat /\
      (exists p1, (forall o', get o' (n_heap s1) = if eqb o' o then Some p1 else get o' (n_heap s)) /\
         pe_dest p1 = d /\ pe_nhl p1 = h0 /\
         ((get d (n_pool s) = Some o /\ n_pool s1 = n_pool s /\ get o (n_heap s) = Some p1) \/
          (get d (n_pool s) = None /\ n_pool s1 = set d o (n_pool s) /\ n_next s = o /\ pe_use p1 = 0%N /\ pe_names p1 = [])))).
    { unfold pool_entry, o, h0, poolh. destruct (get d (n_pool s)) as [o1|] eqn:G.
      - exists s. repeat (split; [reflexivity|]). split; [exact (pi_bp I _ G)|].
        destruct (pi_pool I _ G) as (p & P1 & P2 & _). exists p. split.
        + intros o'. eqc o' o1; auto.
        + split; [exact P2|]. split; [unfold hops_of; now rewrite P1|]. left. auto.
      - eexists. split; [reflexivity|]. cbn [n_table n_cost n_rt n_next n_heap n_pool wn_pool wn_heap wn_next].
        repeat (split; [reflexivity|]). split; [lia|]. split; [lia|].
        eexists. split; [intros o'; apply get_set|]. cbn [pe_dest pe_nhl pe_use pe_names].
        split; [reflexivity|]. split; [reflexivity|]. right. auto. }
    destruct PE as (s1 & -> & T1 & C1 & R1 & N1 & O1 & p1 & H1 & Pd & Ph & Pc).
    rewrite T1.
    (* common tail: the entry has key k, previous references rtes0 *)
    assert (TAIL : forall k rtes0 fl' nx,
      ((exists e0, get k (n_table s) = Some e0 /\ ne_name e0 = n /\ ne_rtes e0 = rtes0) \/
       ((forall k' e', get k' (n_table s) = Some e' -> ne_name e' <> n) /\ get k (n_table s) = None /\ rtes0 = [])) ->
      ~ In o rtes0 -> map (dest_of (n_heap s)) rtes0 = ds -> fl' = new_flags (ent s n) fl ->
      (n_next s1 <= nx)%nat -> (k < nx)%nat ->
      let s2 := use_add o s1 in
      let e := Npte n fl' (rtes0 ++ [o]) (gen_nhl (n_heap s2) (rtes0 ++ [o])) in
      let s3 := wn_table (set k e (n_table s2)) (wn_next nx s2) in
      exists s' out, (let (s4, out) := tell_fib e d s3 in Ok (link o n k s4, out)) = Ok (s', out) /\ pinv s' /\ added n d fl s s' out).
    { intros k rtes0 fl' nx Hk Ho Hd Hf Hn1 Hn2 s2 e s3.
      assert (G1 : get o (n_heap s1) = Some p1) by now rewrite H1, eqb_refl.
      destruct (tell_fib_eff e d s3) as (c & -> & SC).
      set (s4 := wn_cost c s3).
      set (p := PEnt d h0 (pe_use p1 + 1) (set n k (pe_names p1))).
      assert (H4 : forall o', get o' (n_heap s4) = if eqb o' o then Some (PEnt d h0 (pe_use p1 + 1) (pe_names p1)) else get o' (n_heap s)).
      { intros o'. change (n_heap s4) with (n_heap s2). unfold s2, use_add. rewrite G1. cbn [n_heap wn_heap].
        rewrite get_set, H1, Pd, Ph. eqc o' o; reflexivity. }
      assert (Fresh : get n (pe_names p1) = None).
      { destruct Pc as [(G & _ & Gh)|(_ & _ & _ & _ & ->)]; [|reflexivity].
        destruct (get n (pe_names p1)) as [k'|] eqn:Gn; [|reflexivity]. exfalso.
        destruct (pi_pool I _ G) as (p2 & P1 & _ & _ & _ & _ & P6). assert (p2 = p1) by congruence. subst p2.
        apply P6 in Gn as (e1 & E1 & E2 & E3). apply Ho.
        destruct Hk as [(e0 & G0 & N0 & R0)|(H & _)]; [|exfalso; eapply H; eauto].
        assert (k' = k) by (eapply (pi_tn I); eauto; congruence). subst k'. rewrite <- R0. congruence. }
      set (s5 := link o n k s4).
      assert (H5 : forall o', get o' (n_heap s5) = if eqb o' o then Some p else get o' (n_heap s)).
      { intros o'. unfold s5, link. rewrite H4, eqb_refl. cbn [pe_names]. rewrite Fresh. cbn [n_heap wn_heap pe_dest pe_nhl pe_use].
        rewrite get_set, H4. unfold p. eqc o' o; reflexivity. }
      assert (L5 : n_table s5 = set k e (n_table s) /\ n_pool s5 = n_pool s1 /\ n_cost s5 = c /\ n_rt s5 = n_rt s /\ n_next s5 = nx).
      { unfold s5, link. rewrite H4, eqb_refl. cbn [pe_names]. rewrite Fresh. cbn [n_table n_pool n_cost n_rt n_next wn_heap].
        unfold s4, s3, s2, use_add. rewrite G1. cbn. rewrite T1, R1. auto. }
      destruct L5 as (T5 & P5 & C5 & R5 & X5).
      assert (Hp : (get d (n_pool s) = Some o /\ n_pool s5 = n_pool s /\
                 exists p0, get o (n_heap s) = Some p0 /\
                   p = PEnt d (pe_nhl p0) (pe_use p0 + 1) (set n k (pe_names p0))) \/
                (get d (n_pool s) = None /\ n_pool s5 = set d o (n_pool s) /\ n_next s = o /\
                 exists hops, p = PEnt d hops 1 [(n, k)])).
      { destruct Pc as [(G & Ep & Gh)|(G & Ep & En & U0 & N0)].
        - left. split; [exact G|]. split; [congruence|]. exists p1. split; [exact Gh|]. unfold p. now rewrite Ph.
        - right. split; [exact G|]. split; [congruence|]. split; [exact En|]. exists h0. unfold p. now rewrite U0, N0. }
      assert (Hx : (n_next s <= n_next s5)%nat /\ (k < n_next s5)%nat /\ (o < n_next s5)%nat) by (rewrite X5; lia).
      assert (I5 : pinv s5) by (apply (@nr_pinv s s5 d n o k e p rtes0); auto).
      assert (E5 : forall n', ent s5 n' = if eqb n' n then Some (ne_flags e, map (dest_of (n_heap s)) rtes0 ++ [d], ne_nhl e) else ent s n').
      { intros n'. apply (@nr_ent s s5 d n o k e p rtes0); auto. }
      assert (Q5 : forall d', poolh s5 d' = if eqb d' d then Some h0 else poolh s d').
      { intros d'. rewrite (@nr_poolh s s5 d n o k p); auto. }
      assert (Gn : gen_nhl (n_heap s2) (rtes0 ++ [o]) = agen (poolh s5) (ds ++ [d])).
      { transitivity (gen_nhl (n_heap s5) (rtes0 ++ [o])).
        - unfold gen_nhl. f_equal. apply flat_map_ext. intros o'. unfold hops_of.
          change (n_heap s2) with (n_heap s4). rewrite H4, H5. eqc o' o; reflexivity.
        - assert (K5 : get k (n_table s5) = Some e) by (rewrite T5; apply get_set_eq).
          assert (X : forall o', In o' (rtes0 ++ [o]) -> get (dest_of (n_heap s5) o') (n_pool s5) = Some o')
            by (intros o' O'; apply (@pinv_rte s5 k e o' I5 K5); exact O').
          rewrite gen_agen by exact X. f_equal.
          assert (D5 : dests s5 n = map (dest_of (n_heap s5)) (rtes0 ++ [o])).
          { unfold dests, ent. rewrite (proj2 (find_npte_Some n k e (pinv_uniq I5))); [reflexivity|]. auto. }
          rewrite <- D5. unfold dests. rewrite E5, eqb_refl, Hd. reflexivity. }
      exists s5, [word n (costof s d n) fl' (agen (poolh s5) (ds ++ [d]))].
      split. { assert (Ec : costof s3 d n = costof s d n).
        { unfold costof. replace (n_cost s3) with (n_cost s); [reflexivity|].
          unfold s3, s2, use_add. rewrite G1. symmetry. exact C1. }
        cbn [ne_name ne_flags ne_nhl e]. rewrite Gn, Ec. reflexivity. }
      split; [exact I5|]. constructor.
      - intros n'. rewrite E5. eqc n' n; [|reflexivity]. fold ds. rewrite Ed, Hd. cbn [ne_flags ne_nhl e]. now rewrite Gn, Hf.
      - exact Q5.
      - assert (Ec : n_cost s3 = n_cost s). { unfold s3, s2, use_add. rewrite G1. exact C1. }
        destruct SC as [S1 S2]. split.
        + intros a b. transitivity (costof s4 a b); [unfold costof; now rewrite C5|]. rewrite S1. unfold costof. now rewrite Ec.
        + intros a b v G. rewrite C5. change c with (n_cost s4). apply S2. now rewrite Ec.
      - exact R5.
      - fold ds. rewrite Ed, Hf. reflexivity.
      - intros C. exfalso. tauto. }
    destruct (find_npte n (n_table s)) as [[k e0]|] eqn:F.
    + pose proof F as F'. apply find_npte_Some in F' as [F1 F2]; [|now apply pinv_uniq].
      assert (On : ~ In o (ne_rtes e0)).
      { intros C. destruct Pc as [(G & _)|(_ & _ & En & _)].
        - apply Hnin. now apply (proj2 (@in_dests s n k e0 d o I F G)).
        - destruct (pi_tab I _ F1) as (_ & _ & T). destruct (T _ C) as [d' D']. pose proof (pi_bp I _ D'). lia. }
      unfold add_rte. destruct (in_dec eq_dec o (ne_rtes e0)) as [C|_]; [contradiction|].
      specialize (TAIL k (ne_rtes e0)
        (if negb (eqb (ne_flags e0) fl) && Nat.eqb (length (ne_nhl e0)) 0 then fl else ne_flags e0) (n_next (use_add o s1))).
      cbn zeta in TAIL.
      replace (wn_next (n_next (use_add o s1)) (use_add o s1)) with (use_add o s1) in TAIL by (destruct (use_add o s1); reflexivity).
      assert (Xn : n_next (use_add o s1) = n_next s1) by (unfold use_add; rewrite H1, eqb_refl; reflexivity).
      apply TAIL; clear TAIL.
      * left. exists e0. auto.
      * exact On.
      * unfold ds, dests, ent. now rewrite F.
      * unfold new_flags, ent. now rewrite F.
      * lia.
      * rewrite Xn. pose proof (pi_bt I _ F1). lia.
    + unfold add_rte. destruct (in_dec eq_dec o []) as [[]|_].
      assert (Xn : n_next (use_add o s1) = n_next s1) by (unfold use_add; rewrite H1, eqb_refl; reflexivity).
      specialize (TAIL (n_next (use_add o s1)) [] CHILD_INHERIT (S (n_next (use_add o s1)))).
      cbn zeta in TAIL. apply TAIL; clear TAIL.
      * right. split; [|split; [|reflexivity]].
        -- apply find_npte_None; [now apply pinv_uniq|exact F].
        -- destruct (get (n_next (use_add o s1)) (n_table s)) as [e1|] eqn:G1; [|reflexivity].
           pose proof (pi_bt I _ G1). lia.
      * tauto.
      * unfold ds, dests, ent. now rewrite F.
      * unfold new_flags, ent. now rewrite F.
      * lia.
      * lia. Qed.

(** FIB properties C39 (refresh) and C65 (routes do not lapse). *)
From Coq Require Import Sorting.Permutation Sorting.Sorted.
From Verif Require Import Base M_Nexthop L_Nexthop M_Adj M_Fib S_Fib L_Fib L_Fib2 P_Fib.
Open Scope Z_scope.

(** ** C39 *)

Definition track (c : fconf) (s : fib) (n : name) (x : option (nhl * N)) : Prop :=
  match x with
  | None => get n (f_tab s) = None
  | Some (hops, _) => exists e, get n (f_tab s) = Some e /\
      forall u, In u (map nh_uri (fe_hops e)) <-> In u (map nh_uri (hops_to_add c hops))
  end.

Lemma track_tab c s s' n x : get n (f_tab s') = get n (f_tab s) -> track c s n x -> track c s' n x.
Proof. intros E. unfold track. now rewrite E. Qed.

Lemma track_run c l t0 evs n : Forall (keeps_names (map a_name l)) evs -> ~ neighbour l n ->
  track c (fstate c l t0 evs) n (latest n evs).
Proof. intros Hk Hn. induction evs as [|e evs IH] using rev_ind; [reflexivity|].
  apply Forall_app in Hk as [H1 H2]. specialize (IH H1).
  pose proof (@base_inv_fstate c l t0 evs H1) as (Hok & Hnm & Hnb).
  rewrite fstate_snoc. unfold latest in *. rewrite fold_left_app. cbn [fold_left].
  set (s := fstate c l t0 evs) in *. set (x := fold_left (latest1 n) evs None) in *.
  assert (Hnn : not_neighbor n s = true) by (apply not_neighbor_spec; unfold neighbour; now rewrite Hnm).
  assert (Rm : forall m, track c (fst (fib_remove m s)) n (if eqb m n then None else x)).
  { intros m. destruct (remove_spec m s) as (_ & _ & _ & R1 & R2 & R3). eqb_case m n.
    - exact (proj1 (R2 Hnn)).
    - eapply track_tab; [|exact IH]. now apply R1, not_eq_sym. }
  pose proof (other_tab c s e) as Ho.
  destruct e; cbn [latest1]; try (eapply track_tab; [|exact IH]; now rewrite Ho); clear Ho; cbn [fstep].
  - destruct (eq_dec n0 n) as [->|Hm].
    + rewrite eqb_refl. destruct hops as [|h hops].
      * pose proof (@fib_update_spec c n [] flags s Hok) as (_ & _ & _ & _ & A).
        specialize (A (proj2 (hops_to_add_nil c []) eq_refl)). apply (f_equal fst) in A. cbn [fst] in A. rewrite A.
        specialize (Rm n). now rewrite eqb_refl in Rm.
      * destruct (@update_hops c n (h :: hops) flags s Hok ltac:(discriminate)) as (e' & E & V & U & _).
        exists e'. auto.
    + replace (eqb n0 n) with false by (symmetry; now apply eqb_neq). eapply track_tab; [|exact IH].
      apply (@fib_update_spec c n0 hops flags s Hok). auto.
  - apply Rm.
  - destruct (refresh_spec c n0 s) as (_ & _ & B & [(B1 & B2 & _)|(e & due & fl & B1 & B2 & B3 & B4 & B5)]).
    + now rewrite B1.
    + destruct (eq_dec n0 n) as [->|Hm]; [|eapply track_tab; [|exact IH]; apply B; auto].
      unfold track in *. destruct x as [[hops fl']|]; [|congruence]. destruct IH as (e1 & E1 & E2).
      rewrite B1 in E1. injection E1 as <-. rewrite B4. eexists. split; [reflexivity|]. exact E2. Qed.

(** A refresh re-registers exactly the faces of the latest update's cheapest hops that exist, with the
    FIB's lifetime; a prefix with an update has a refresh pending.  Missing from the full claim: the
    costs and flags are those of the latest update only under the conditions of [C39_exact_partial]
    (see the two refutations). *)
Theorem C39_faces_partial c l t0 evs n hops flags :
  Forall (keeps_names (map a_name l)) evs -> ~ neighbour l n ->
  latest n evs = Some (hops, flags) -> is_nhl hops ->
  let s := fstate c l t0 evs in let o := fsent c l t0 evs (FvRefresh n) in
  exists due chosen, refresh_due s n = Some due /\ cheapest (fc_max c) hops chosen /\
    (f_now s < due -> o = []) /\
    (due <= f_now s ->
       (forall f, (exists id cost fl, In (FReg id n f cost ((2 * fc_refresh c + 10) * 1000) fl) o) <->
                  (0 < f)%N /\ exists h, In h chosen /\ get_face_id (nh_uri h) (f_adl s) = f) /\
       (forall x, In x o -> exists id f cost fl, x = FReg id n f cost ((2 * fc_refresh c + 10) * 1000) fl) /\
       refresh_due (fstate c l t0 (evs ++ [FvRefresh n])) n = Some (f_now s + 2 * fc_refresh c * 1000000000)).
Proof. intros Hk Hn Hl Hh s o. pose proof (@track_run c l t0 evs n Hk Hn) as T. rewrite Hl in T.
  destruct T as (e & E & U). fold s in E.
  pose proof (@base_inv_fstate c l t0 evs Hk) as (Hok & Hnm & Hnb). fold s in Hok, Hnm, Hnb.
  destruct (fe_refresh e) as [[due fl]|] eqn:Er.
  2:{ exfalso. apply Hn. unfold neighbour. apply (Hnb n e E). exact Er. }
  destruct (@hops_to_add_cheapest c hops Hh) as (chosen & C & P).
  exists due, chosen. split; [unfold refresh_due; now rewrite E, Er|]. split; [exact C|].
  assert (Hu : forall u, In u (map nh_uri (fe_hops e)) <-> In u (map nh_uri chosen)).
  { intros u. rewrite U. split; intros H; [now apply (Permutation_in u (Permutation_map nh_uri P))
                               |now apply (Permutation_in u (Permutation_map nh_uri (Permutation_sym P)))]. }
  unfold o, fsent. rewrite fstate_snoc. fold s. cbn [fstep].
  destruct (refresh_spec c n s) as (_ & _ & _ & [(B1 & B2 & B3)|(e1 & due1 & fl1 & B1 & B2 & B3 & B4 & B5)]).
  { specialize (B3 e due fl E Er). split; [auto|]. intros. lia. }
  rewrite E in B1. injection B1 as <-. rewrite Er in B2. injection B2 as <- <-. split; [intros; lia|]. intros _.
  split; [|split].
  - intros f. split.
    + intros (id & cost & fl' & H). apply in_anon in H. rewrite B5 in H. cbn [anon] in H.
      apply in_regs_iff in H as (h & Hh1 & Hf & [= -> _ _]). split; [exact Hf|].
      assert (Hi : In (nh_uri h) (map nh_uri chosen)) by (apply Hu; now apply in_map).
      apply in_map_iff in Hi as (g & Eg & Hg). exists g. split; [exact Hg|]. now rewrite Eg.
    + intros (Hf & g & Hg & <-). assert (Hi : In (nh_uri g) (map nh_uri (fe_hops e))) by (apply Hu; now apply in_map).
      apply in_map_iff in Hi as (h & Eh & Hh').
      assert (Q : In (FReg 0 n (get_face_id (nh_uri g) (f_adl s)) (adj_int h) (fib_ttl c) fl) (map anon (snd (fib_refresh c n s)))).
      { rewrite B5. apply in_regs_iff. exists h. rewrite Eh. auto. }
      apply in_map_iff in Q as (x & Ex & Hx). destruct x; try discriminate. cbn [anon] in Ex.
      injection Ex as -> -> -> -> ->. eauto.
  - intros x Hx. apply in_anon in Hx. rewrite B5 in Hx. apply in_regs_iff in Hx as (h & _ & _ & Ex).
    destruct x; try discriminate. cbn [anon] in Ex. injection Ex as -> -> -> -> ->. unfold fib_ttl, refresh_time, FIB_GRACE. eauto.
  - unfold refresh_due. rewrite B4. reflexivity. Qed.

Definition exact_entry (c : fconf) (s : fib) (n : name) (x : option (nhl * N)) : Prop :=
  match x with
  | None => True
  | Some (hops, flags) => forall e, get n (f_tab s) = Some e ->
      (forall h, In h (fe_hops e) -> In h (hops_to_add c hops)) /\
      (forall due fl, fe_refresh e = Some (due, fl) -> fl = flags)
  end.

Lemma latest_in n evs hops flags : latest n evs = Some (hops, flags) -> In (FvUpdate n hops flags) evs.
Proof. unfold latest. induction evs as [|e evs IH] using rev_ind; [discriminate|]. rewrite fold_left_app. cbn [fold_left].
  rewrite in_app_iff. intros H. destruct e; cbn [latest1] in H; try (left; now apply IH).
  - eqb_case n0 n; [|left; now apply IH]. destruct hops0; [discriminate|]. injection H as <- <-. right. now left.
  - eqb_case n0 n; [discriminate|]. left. now apply IH. Qed.

Lemma uvalid_uri l h g : uvalid l -> In h l -> In g l -> nh_uri h = nh_uri g -> h = g.
Proof. intros [_ Hn] Hh Hg E. induction l as [|x l IH]; [destruct Hh|]. simpl in Hn. inversion Hn as [|? ? Hx Hn']; subst.
  destruct Hh as [->|Hh], Hg as [->|Hg]; auto.
  - exfalso. apply Hx. rewrite E. now apply in_map.
  - exfalso. apply Hx. rewrite <- E. now apply in_map. Qed.

Lemma exact_run c l t0 evs n : Forall (keeps_names (map a_name l)) evs -> ~ neighbour l n ->
  improving n evs -> plain n evs -> exact_entry c (fstate c l t0 evs) n (latest n evs).
Proof. intros Hk Hn. induction evs as [|e evs IH] using rev_ind; [intros; exact I|]. intros Hi Hp.
  apply Forall_app in Hk as [H1 H2].
  assert (Hi' : improving n evs).
  { intros a b hops flags old oldf E L. apply (Hi a (b ++ [e]) hops flags old oldf); [|exact L]. rewrite E, <- app_assoc. reflexivity. }
  assert (Hp' : plain n evs).
  { intros hops flags H. apply (Hp hops flags). apply in_or_app. now left. }
  specialize (IH H1 Hi' Hp').
  pose proof (@track_run c l t0 evs n H1 Hn) as T.
  pose proof (@base_inv_fstate c l t0 evs H1) as (Hok & Hnm & Hnb).
  rewrite fstate_snoc. unfold latest. rewrite fold_left_app. cbn [fold_left]. fold (latest n evs).
  set (s := fstate c l t0 evs) in *. set (x := latest n evs) in *.
  assert (Tb : forall s', get n (f_tab s') = get n (f_tab s) -> exact_entry c s' n x).
  { intros s' E. unfold exact_entry in *. rewrite E. exact IH. }
  assert (Hnn : not_neighbor n s = true) by (apply not_neighbor_spec; unfold neighbour; now rewrite Hnm).
  pose proof (other_tab c s e) as Ho.
  destruct e; cbn [latest1]; try (apply Tb; now rewrite Ho); clear Ho; cbn [fstep].
  - destruct (eq_dec n0 n) as [->|Hm].
    2:{ replace (eqb n0 n) with false by (symmetry; now apply eqb_neq). apply Tb.
        apply (@fib_update_spec c n0 hops flags s Hok). auto. }
    rewrite eqb_refl. destruct hops as [|h0 hops0] eqn:Eh; [exact I|]. rewrite <- Eh in *.
    assert (Hne : hops <> []) by congruence.
    destruct (@update_hops c n hops flags s Hok Hne) as (e' & E & V & U & A & B).
    intros e1 E1. rewrite E in E1. injection E1 as <-.
    pose proof (@fib_update_spec c n hops flags s Hok) as (_ & _ & _ & U4 & _).
    destruct (U4 ltac:(intros Hz; apply hops_to_add_nil in Hz; contradiction)) as (e2 & E2 & _ & _ & Er & _).
    rewrite E in E2. injection E2 as <-. rewrite Hnn in Er.
    assert (Hyp : Forall (fun h => nh_hyp h = false) hops).
    { apply (Hp hops flags). apply in_or_app. right. now left. }
    rewrite Forall_forall in Hyp.
    destruct (get n (f_tab s)) as [eo|] eqn:Eo.
    + destruct x as [[oh of]|] eqn:Ex; [|unfold track in T; congruence].
      destruct (Hi evs [] hops flags oh of eq_refl Ex) as [-> Hc].
      destruct (IH eo Eo) as [I1 I2].
      assert (Hypo : Forall (fun h => nh_hyp h = false) oh) by (apply (Hp' oh of); apply latest_in; exact Ex).
      rewrite Forall_forall in Hypo.
      split.
      * intros h Hh. destruct (A h Hh) as [Ha|Ha]; [|exact Ha].
        assert (Hu : In (nh_uri h) (map nh_uri (hops_to_add c hops))) by (apply U; now apply in_map).
        apply in_map_iff in Hu as (g & Eg & Hg). destruct (B g Hg) as (h' & Hh' & E' & L').
        assert (h' = h) by (apply (@uvalid_uri _ h' h V); auto; congruence). subst h'.
        unfold entry_hops in Ha. rewrite Eo in Ha. apply I1 in Ha.
        pose proof (@hops_to_add_sub _ _ _ Hg) as Hg'. pose proof (@hops_to_add_sub _ _ _ Ha) as Ha'.
        pose proof (Hc g h Hg' Ha' Eg) as L2.
        replace h with g; [exact Hg|]. destruct h as [hu hc hh], g as [gu gc gh]. cbn in *. subst gu.
        specialize (Hyp _ Hg'). specialize (Hypo _ Ha'). cbn in *. subst. f_equal. lia.
      * intros due fl Ed. rewrite Er in Ed. destruct (fe_refresh eo) as [[d f]|] eqn:Efe.
        -- injection Ed as <- <-. exact (I2 d f eq_refl).
        -- injection Ed as _ <-. reflexivity.
    + split.
      * intros h Hh. destruct (A h Hh) as [Ha|Ha]; [|exact Ha]. unfold entry_hops in Ha. rewrite Eo in Ha. destruct Ha.
      * intros due fl Ed. rewrite Er in Ed. injection Ed as _ <-. reflexivity.
  - eqb_case n0 n; [exact I|]. apply Tb. destruct (remove_spec n0 s) as (_ & _ & _ & R1 & _). apply R1. auto.
  - destruct (refresh_spec c n0 s) as (_ & _ & B & [(B1 & B2 & _)|(e & due & fl & B1 & B2 & B3 & B4 & B5)]).
    + now rewrite B1.
    + destruct (eq_dec n0 n) as [->|Hm]; [|apply Tb; apply B; auto].
      unfold exact_entry in *. destruct x as [[oh of]|]; [|exact I]. destruct (IH e B1) as [I1 I2].
      intros e1. rewrite B4. intros [= <-]. split; [exact I1|]. cbn [fe_refresh]. unfold refresh_at.
      intros d f [= _ <-]. now apply (I2 due). Qed.

(** If no update raises the cost of a face or changes the flags, a due refresh sends exactly the
    registrations of the latest update. *)
Theorem C39_exact_partial c l t0 evs n hops flags due :
  Forall (keeps_names (map a_name l)) evs -> ~ neighbour l n -> improving n evs -> plain n evs ->
  latest n evs = Some (hops, flags) -> is_nhl hops ->
  let s := fstate c l t0 evs in
  refresh_due s n = Some due -> due <= f_now s ->
  exists chosen, cheapest (fc_max c) hops chosen /\
    forall id m f cost ttl fl, 
      (In (FReg id m f cost ttl fl) (fsent c l t0 evs (FvRefresh n)) ->
         m = n /\ fl = flags /\ exists h, In h chosen /\ get_face_id (nh_uri h) (f_adl s) = f /\ (0 < f)%N /\ cost = adj_int h) /\
      (forall h, In h chosen -> (0 < get_face_id (nh_uri h) (f_adl s))%N ->
         exists id, In (FReg id n (get_face_id (nh_uri h) (f_adl s)) (adj_int h) ((2 * fc_refresh c + 10) * 1000) flags)
                       (fsent c l t0 evs (FvRefresh n))).
Proof. intros Hk Hn Hi Hp Hl Hh s Hd Hdue. pose proof (@exact_run c l t0 evs n Hk Hn Hi Hp) as X.
  pose proof (@track_run c l t0 evs n Hk Hn) as T. rewrite Hl in T, X. destruct T as (e & E & U).
  destruct (X e E) as [X1 X2]. fold s in E.
  unfold refresh_due in Hd. rewrite E in Hd. destruct (fe_refresh e) as [[due' fl']|] eqn:Er; [|discriminate].
  cbn in Hd. injection Hd as ->. pose proof (X2 _ _ eq_refl) as ->.
  destruct (@hops_to_add_cheapest c hops Hh) as (chosen & C & P). exists chosen. split; [exact C|].
  unfold fsent. fold s. cbn [fstep].
  destruct (refresh_spec c n s) as (_ & _ & _ & [(B1 & B2 & B3)|(e1 & due1 & fl1 & B1 & B2 & B3 & B4 & B5)]).
  { specialize (B3 e due flags E Er). lia. }
  rewrite E in B1. injection B1 as <-. rewrite Er in B2. injection B2 as <- <-.
  assert (X3 : forall h, In h (hops_to_add c hops) -> In h (fe_hops e)).
  { intros h Hx. assert (Hu : In (nh_uri h) (map nh_uri (fe_hops e))) by (apply U; now apply in_map).
    apply in_map_iff in Hu as (g & Eg & Hg). replace h with g; [exact Hg|].
    apply (@uvalid_uri _ g h (hops_to_add_valid c hops)); auto. }
  intros id m f cost ttl fl. split.
  - intros H. apply in_anon in H. rewrite B5 in H. cbn [anon] in H. apply in_regs_iff in H as (h & Hh1 & Hf & [= -> -> -> -> ->]).
    split; [reflexivity|]. split; [reflexivity|]. exists h. split; [apply (Permutation_in h P), X1, Hh1|]. auto.
  - intros h Hc Hf. assert (Q : In (FReg 0 n (get_face_id (nh_uri h) (f_adl s)) (adj_int h) (fib_ttl c) flags) (map anon (snd (fib_refresh c n s)))).
    { rewrite B5. apply in_regs_iff. exists h. split; [|auto]. apply X3. now apply (Permutation_in h (Permutation_sym P)). }
    apply in_map_iff in Q as (x & Ex & Hx). destruct x; try discriminate. cbn [anon] in Ex.
    injection Ex as -> -> -> -> ->. eauto. Qed.

(** A later update raises the cost of a face: the refresh goes back to the old cost. *)
Theorem C39_cost_refuted : exists c l t0 evs n h flags f,
  Forall (keeps_names (map a_name l)) evs /\ ~ neighbour l n /\ latest n evs = Some ([h], flags) /\
  get_face_id (nh_uri h) (f_adl (fstate c l t0 evs)) = f /\ (0 < f)%N /\
  (exists id cost ttl fl, fsent c l t0 evs (FvRefresh n) = [FReg id n f cost ttl fl] /\ cost <> adj_int h) /\
  (** ... and this is a route the forwarder had at the right cost before *)
  get (n, f) (routes (fouts c l t0 evs)) = Some (adj_int h, flags) /\
  get (n, f) (routes (fouts c l t0 (evs ++ [FvRefresh n]))) <> Some (adj_int h, flags).
Proof. exists fcX, adlX, 0, [FvUpdate pX [hX "udp4://2" 3] 1; FvUpdate pX [hX "udp4://2" 9] 1; FvTime 3600000000000]%string,
    pX, (hX "udp4://2" 9)%string, 1%N, 8%N.
  split; [repeat constructor|]. split; [vm_compute; intuition discriminate|]. split; [reflexivity|].
  split; [vm_compute; reflexivity|]. split; [reflexivity|]. split; [|split].
  - exists 2%nat, 3, 3610000, 1%N. split; [vm_compute; reflexivity|]. vm_compute. discriminate.
  - vm_compute. reflexivity.
  - vm_compute. discriminate. Qed.

(** A later update changes the route flags: the refresh goes back to the old flags. *)
Theorem C39_flags_refuted : exists c l t0 evs n h flags f,
  Forall (keeps_names (map a_name l)) evs /\ ~ neighbour l n /\ latest n evs = Some ([h], flags) /\
  get_face_id (nh_uri h) (f_adl (fstate c l t0 evs)) = f /\ (0 < f)%N /\
  exists id cost ttl fl, fsent c l t0 evs (FvRefresh n) = [FReg id n f cost ttl fl] /\ fl <> flags.
Proof. exists fcX, adlX, 0, [FvUpdate pX [hX "udp4://2" 3] 1; FvUpdate pX [hX "udp4://2" 3] 2; FvTime 3600000000000]%string,
    pX, (hX "udp4://2" 3)%string, 2%N, 8%N.
  split; [repeat constructor|]. split; [vm_compute; intuition discriminate|]. split; [reflexivity|].
  split; [vm_compute; reflexivity|]. split; [reflexivity|].
  exists 2%nat, 3, 3610000, 1%N. split; [vm_compute; reflexivity|discriminate]. Qed.

(** ** C65 *)

Lemma regs_lives n ttl flags l t hops : forall (r : lives) m f,
  (m = n /\ (exists h, In h hops /\ get_face_id (nh_uri h) l = f /\ (0 < f)%N) ->
     get (m, f) (fold_left (lives_do t) (regs n ttl flags l hops) r) = Some (t + ttl * 1000000)) /\
  (~ (m = n /\ (exists h, In h hops /\ get_face_id (nh_uri h) l = f /\ (0 < f)%N)) ->
     get (m, f) (fold_left (lives_do t) (regs n ttl flags l hops) r) = get (m, f) r).
Proof. induction hops as [|h hops IH]; intros r m f.
  - simpl. split; [intros (_ & x & [] & _)|reflexivity].
  - unfold regs. cbn [flat_map]. rewrite fold_left_app. fold (regs n ttl flags l hops).
    destruct (IH (fold_left (lives_do t) (reg_cmds n (nh_uri h) (adj_int h) ttl flags l) r) m f) as [I1 I2]. clear IH.
    assert (D : (m = n /\ (exists h, In h hops /\ get_face_id (nh_uri h) l = f /\ (0 < f)%N)) \/
                ~ (m = n /\ (exists h, In h hops /\ get_face_id (nh_uri h) l = f /\ (0 < f)%N))).
    { destruct (eq_dec m n) as [->|Hm]; [|right; intros [? _]; contradiction].
      destruct (N.eq_dec f 0) as [->|Hf]; [right; intros (_ & x & _ & _ & ?); lia|].
      clear I1 I2. induction hops as [|x hops IH]; [right; intros (_ & y & [] & _)|].
      destruct (N.eq_dec (get_face_id (nh_uri x) l) f) as [E|E].
      - left. split; [reflexivity|]. exists x. split; [now left|]. split; [exact E|lia].
      - destruct IH as [(_ & y & H1 & H2)|H].
        + left. split; [reflexivity|]. exists y. split; [now right|exact H2].
        + right. intros (_ & y & [->|H1] & H2 & H3); [contradiction|]. apply H. split; [reflexivity|]. exists y. auto. }
    split.
    + intros (-> & x & Hx & Ef & Hf). destruct D as [D|D]; [now apply I1|]. rewrite I2 by exact D.
      destruct Hx as [->|Hx]; [|exfalso; apply D; split; [reflexivity|]; exists x; auto].
      unfold reg_cmds. rewrite Ef. destruct (N.ltb_spec 0 f); [|lia]. cbn [fold_left lives_do]. apply get_set_eq.
    + intros Hx. rewrite I2.
      * unfold reg_cmds. destruct (N.ltb_spec 0 (get_face_id (nh_uri h) l)); [|reflexivity]. cbn [fold_left lives_do].
        rewrite get_set_ne; [reflexivity|]. intros [= -> ->]. apply Hx. split; [reflexivity|]. exists h. split; [now left|auto].
      * intros (-> & x & H1 & H2). apply Hx. split; [reflexivity|]. exists x. split; [now right|exact H2]. Qed.

Lemma unregs_lives n l t us : forall (r : lives) m f,
  ~ (m = n /\ exists u, In u us /\ get_face_id u l = f /\ (0 < f)%N) ->
  get (m, f) (fold_left (lives_do t) (unregs n l us) r) = get (m, f) r.
Proof. induction us as [|u us IH]; intros r m f H; [reflexivity|].
  unfold unregs. cbn [flat_map]. rewrite fold_left_app. fold (unregs n l us). rewrite IH.
  - destruct (N.ltb_spec 0 (get_face_id u l)); [|reflexivity]. cbn [fold_left lives_do].
    rewrite get_del_ne; [reflexivity|]. intros [= -> ->]. apply H. split; [reflexivity|]. exists u. split; [now left|auto].
  - intros (-> & v & Hv & H2). apply H. split; [reflexivity|]. exists v. split; [now right|exact H2]. Qed.

Definition alive (l : adl) (s : fib) (r : lives) : Prop :=
  forall n e due fl u f, get n (f_tab s) = Some e -> fe_refresh e = Some (due, fl) -> In u (map nh_uri (fe_hops e)) ->
    get_face_id u l = f -> (0 < f)%N -> exists t, get (n, f) r = Some t /\ due + 10 * FSEC <= t.
Definition due_ok (c : fconf) (s : fib) : Prop :=
  forall n e due fl, get n (f_tab s) = Some e -> fe_refresh e = Some (due, fl) -> due <= f_now s + 2 * fc_refresh c * FSEC.

Lemma lives_from_snoc c evs e : forall s r, lives_from c s r (evs ++ [e]) =
  let s' := fst (run (fstep c) s evs) in
  fold_left (lives_do (f_now s')) (snd (fstep c s' e)) (lives_from c s r evs).
Proof. induction evs as [|x evs IH]; intros s r; cbn [lives_from app run].
  - simpl. destruct (fstep c s e). reflexivity.
  - destruct (fstep c s x) as [s1 o1]. rewrite IH. cbv zeta. destruct (run (fstep c) s1 evs) as [s2 o2]. reflexivity. Qed.

Lemma expiries_snoc c l t0 evs e : expiries c l t0 (evs ++ [e]) =
  fold_left (lives_do (f_now (fstate c l t0 evs))) (fsent c l t0 evs e) (expiries c l t0 evs).
Proof. unfold expiries. rewrite lives_from_snoc. reflexivity. Qed.

Lemma lives_other (e : fev) c s r t : match e with FvUpdate _ _ _ | FvRemove _ | FvRefresh _ => False | _ => calm e end ->
  fold_left (lives_do t) (snd (fstep c s e)) r = r.
Proof. destruct e; try contradiction; intros _; cbn [fstep]; try reflexivity.
  unfold on_reg_ok. now destruct (get id (f_cmds s)). Qed.

Lemma calm_now c s e : calm e -> match e with FvUpdate _ _ _ | FvRemove _ | FvRefresh _ => False | _ => True end ->
  f_now s <= f_now (fst (fstep c s e)).
Proof. destruct e; try contradiction; intros _ _; cbn [fstep]; try (cbn; lia).
  unfold on_reg_ok. destruct (get id (f_cmds s)); cbn; lia. Qed.

Lemma alive_step c l s e r : calm e -> faces_differ l -> base_inv (map a_name l) s -> f_adl s = l ->
  alive l s r -> due_ok c s ->
  alive l (fst (fstep c s e)) (fold_left (lives_do (f_now s)) (snd (fstep c s e)) r) /\ due_ok c (fst (fstep c s e)).
Proof. intros Hc Hd (Hok & Hnm & Hnb) Hl A D.
  assert (Rm : forall n, alive l (fst (fib_remove n s)) (fold_left (lives_do (f_now s)) (snd (fib_remove n s)) r) /\
                         due_ok c (fst (fib_remove n s))).
  { intros n. destruct (remove_spec n s) as (_ & Rn & _ & R1 & R2 & R3). destruct (not_neighbor n s) eqn:Enn.
    - destruct (R2 eq_refl) as [R4 R5]. split.
      + intros m e1 due fl u f E Er Hu Ef Hf. assert (Hm : m <> n) by congruence. rewrite R1 in E by exact Hm.
        destruct (A m e1 due fl u f E Er Hu Ef Hf) as (t & E1 & E2). exists t. split; [|exact E2].
        rewrite R5, unregs_lives; [exact E1|]. intros [? _]. contradiction.
      + intros m e1 due fl E Er. assert (Hm : m <> n) by congruence. rewrite R1 in E by exact Hm. rewrite Rn. eauto.
    - destruct (R3 eq_refl) as [R4 R5]. rewrite R4, R5. split; assumption. }
  pose proof (other_tab c s e) as Ho.
  assert (Oth : match e with FvUpdate _ _ _ | FvRemove _ | FvRefresh _ => False | _ => True end ->
    alive l (fst (fstep c s e)) (fold_left (lives_do (f_now s)) (snd (fstep c s e)) r) /\ due_ok c (fst (fstep c s e))).
  { intros He. assert (He' : f_tab (fst (fstep c s e)) = f_tab s) by (destruct e; try contradiction; exact Ho).
    rewrite lives_other by (destruct e; tauto). pose proof (@calm_now c s e Hc He) as Ht. split.
    - intros m e1 due fl u f. rewrite He'. apply A.
    - intros m e1 due fl E Er. rewrite He' in E. specialize (D m e1 due fl E Er). lia. }
  destruct e; try (apply Oth; exact I); try contradiction; clear Ho Oth; cbn [fstep].
  - pose proof (@fib_update_spec c n hops flags s Hok) as (U1 & U2 & U3 & U4 & U5).
    destruct (hops_to_add c hops) as [|x new] eqn:En.
    { specialize (U5 eq_refl). rewrite (surjective_pairing (fib_update c n hops flags s)) in U5 at 1.
      assert (E1 : fst (fib_update c n hops flags s) = fst (fib_remove n s)) by now rewrite <- U5.
      assert (E2 : snd (fib_update c n hops flags s) = snd (fib_remove n s)) by now rewrite <- U5.
      rewrite E1, E2. apply Rm. }
    rewrite <- En in *. clear U5. destruct (U4 ltac:(congruence)) as (e' & E1 & E2 & E3 & Er & E4). clear U4.
    assert (Hne : hops <> []) by (intros H; apply (hops_to_add_nil c) in H; congruence).
    destruct (@update_hops c n hops flags s Hok Hne) as (e2 & F1 & F2 & F3 & _).
    rewrite F1 in E1. injection E1 as ->. split.
    + intros m e1 due fl u f Eg Eref Hu Ef Hf. rewrite <- lives_from_anon, E4.
      destruct (eq_dec m n) as [->|Hm].
      * rewrite F1 in Eg. injection Eg as <-. rewrite Eref in Er.
        assert (Enn : not_neighbor n s = true).
        { destruct (not_neighbor n s) eqn:Enn; [reflexivity|]. exfalso.
          assert (Hnn : In n (map a_name l)).
          { rewrite <- Hnm. unfold not_neighbor in Enn. apply negb_false_iff in Enn. now apply is_neighbor_spec in Enn. }
          destruct (get n (f_tab s)) as [eo|] eqn:Eo; [|discriminate].
          apply (Hnb n eo Eo) in Hnn. rewrite Hnn in Er. discriminate. }
        rewrite Enn in *. exists (f_now s + fib_ttl c * 1000000). apply F3 in Hu. apply in_map_iff in Hu as (h & Eh & Hh).
        split.
        -- rewrite fold_left_app.
           destruct (get n (f_tab s)) as [eo|] eqn:Eo.
           ++ rewrite unregs_lives.
              ** apply regs_lives. split; [reflexivity|]. exists h. rewrite Hl, Eh. auto.
              ** intros (_ & v & Hv & Ev & _). rewrite Hl in Ev. destruct (Hok n eo Eo) as [V _].
                 unfold entry_hops in Hv. rewrite Eo in Hv.
                 apply (@merge_spec (fe_hops eo) _ V (hops_to_add_valid c hops)) in Hv as [_ Hv].
                 apply Hv. assert (u = v) by (apply Hd; congruence). subst v. rewrite <- Eh. now apply in_map.
           ++ simpl. apply regs_lives. split; [reflexivity|]. exists h. rewrite Hl, Eh. auto.
        -- assert (Hdu : due <= f_now s + 2 * fc_refresh c * FSEC).
           { destruct (get n (f_tab s)) as [eo|] eqn:Eo.
             - destruct (fe_refresh eo) as [[d' f']|] eqn:Eeo.
               + injection Er as -> ->. eapply D; eauto.
               + injection Er as -> ->. unfold refresh_time. lia.
             - injection Er as -> ->. unfold refresh_time. lia. }
           unfold fib_ttl, refresh_time, FIB_GRACE, FSEC in *. lia.
      * rewrite U3 in Eg by exact Hm. destruct (A m e1 due fl u f Eg Eref Hu Ef Hf) as (t & T1 & T2). exists t. split; [|exact T2].
        destruct (not_neighbor n s); [|exact T1]. rewrite fold_left_app.
        assert (R : get (m, f) (fold_left (lives_do (f_now s)) (regs n (fib_ttl c) flags (f_adl s) (hops_to_add c hops)) r) = get (m, f) r).
        { apply regs_lives. intros [? _]. contradiction. }
        destruct (get n (f_tab s)); [|simpl; congruence]. rewrite unregs_lives; [congruence|]. intros [? _]. contradiction.
    + intros m e1 due fl Eg Eref. rewrite U2. destruct (eq_dec m n) as [->|Hm].
      * rewrite F1 in Eg. injection Eg as <-. rewrite Eref in Er. destruct (get n (f_tab s)) as [eo|] eqn:Eo.
        -- destruct (fe_refresh eo) as [[d' f']|] eqn:Eeo.
           ++ injection Er as -> ->. eapply D; eauto.
           ++ destruct (not_neighbor n s); [|discriminate]. injection Er as -> ->. unfold refresh_time. lia.
        -- destruct (not_neighbor n s); [|discriminate]. injection Er as -> ->. unfold refresh_time. lia.
      * rewrite U3 in Eg by exact Hm. eauto.
  - apply Rm.
  - destruct (refresh_spec c n s) as (_ & Rn & B & [(B1 & B2 & _)|(e & due & flags & B1 & B2 & B3 & B4 & B5)]).
    + rewrite B1, B2. split; assumption.
    + rewrite <- lives_from_anon, B5. split.
      * intros m e1 due1 fl u f Eg Eref Hu Ef Hf. destruct (eq_dec m n) as [->|Hm].
        -- rewrite B4 in Eg. injection Eg as <-. cbn [fe_refresh fe_hops] in *. unfold refresh_at in Eref. injection Eref as <- <-.
           exists (f_now s + fib_ttl c * 1000000). split; [|unfold fib_ttl, refresh_time, FIB_GRACE, FSEC; lia].
           apply in_map_iff in Hu as (h & Eh & Hh). apply regs_lives. split; [reflexivity|]. exists h. rewrite Hl, Eh. auto.
        -- rewrite B in Eg by exact Hm. destruct (A m e1 due1 fl u f Eg Eref Hu Ef Hf) as (t & T1 & T2).
           exists t. split; [|exact T2]. rewrite <- T1. apply regs_lives. intros [? _]. contradiction.
      * intros m e1 due1 fl Eg Eref. rewrite Rn. destruct (eq_dec m n) as [->|Hm].
        -- rewrite B4 in Eg. injection Eg as <-. cbn [fe_refresh] in Eref. unfold refresh_at in Eref. injection Eref as <- <-.
           unfold refresh_time. lia.
        -- rewrite B in Eg by exact Hm. eauto. Qed.

Lemma calm_keeps l e : calm e -> keeps_names (map a_name l) e.
Proof. destruct e; simpl; tauto. Qed.

(** As long as the forwarder accepts the commands and faces stay, every route the FIB wants expires at
    the forwarder at least ten seconds after the refresh that renews it is due; every such prefix has a
    refresh pending. *)
Theorem C65_not_lapsing c l t0 evs n u :
  faces_differ l -> Forall calm evs -> ~ neighbour l n ->
  let s := fstate c l t0 evs in
  In u (fib_faces s n) -> (0 < get_face_id u l)%N ->
  exists due t, refresh_due s n = Some due /\ get (n, get_face_id u l) (expiries c l t0 evs) = Some t /\
    due + 10 * 1000000000 <= t.
Proof. intros Hd Hc Hn s Hu Hf.
  assert (G : f_adl s = l /\ cmds_ok l s /\ base_inv (map a_name l) s /\ alive l s (expiries c l t0 evs) /\ due_ok c s).
  { unfold s. clear Hu Hf Hn s. induction evs as [|e evs IH] using rev_ind.
    - split; [reflexivity|]. split; [intros id r; discriminate|]. split; [apply base_inv_fstate; constructor|].
      split; intros m e1 due; discriminate.
    - apply Forall_app in Hc as [H1 H2]. inversion H2 as [|? ? He _]; subst. destruct (IH H1) as (I1 & I2 & I3 & I4 & I5).
      rewrite fstate_snoc, expiries_snoc. destruct (@calm_adl c l _ e He I1 I2) as [J1 J2].
      split; [exact J1|]. split; [exact J2|]. split; [apply base_inv_step; [now apply calm_keeps|exact I3]|].
      apply alive_step; assumption. }
  destruct G as (G1 & _ & (Hok & Hnm & Hnb) & A & _). unfold fib_faces in Hu. destruct (get n (f_tab s)) as [e|] eqn:E; [|destruct Hu].
  destruct (fe_refresh e) as [[due fl]|] eqn:Er.
  2:{ exfalso. apply Hn. apply (Hnb n e E). exact Er. }
  destruct (A n e due fl u _ E Er Hu eq_refl Hf) as (t & T1 & T2). exists due, t. split; [|auto].
  unfold refresh_due. now rewrite E, Er. Qed.

Example C39_C65_ex :
  let evs := [FvUpdate pX hopsX 1; FvTime 100; FvUpdate pX [hX "udp4://2" 2] 1; FvTime 3600000000000]%string in
  Forall (keeps_names (map a_name adlX)) evs /\ Forall calm evs /\ ~ neighbour adlX pX /\
  latest pX evs = Some ([hX "udp4://2" 2], 1%N)%string /\
  refresh_due (fstate fcX adlX 0 evs) pX = Some 3600000000000 /\
  fsent fcX adlX 0 evs (FvRefresh pX) = [FReg 3 pX 8 2 3610000 1] /\
  get (pX, 8%N) (expiries fcX adlX 0 evs) = Some 3610000000100.
Proof. cbv zeta. split; [repeat constructor|]. split; [repeat constructor|]. split; [vm_compute; intuition discriminate|].
  split; [reflexivity|]. split; [vm_compute; reflexivity|]. split; vm_compute; reflexivity. Qed.

Print Assumptions C39_faces_partial.
Print Assumptions C39_exact_partial.
Print Assumptions C39_cost_refuted.
Print Assumptions C39_flags_refuted.
Print Assumptions C65_not_lapsing.

(** Name prefix table: every history keeps the invariants. *)
From Verif Require Import Base M_Nexthop M_Lsa M_Lsdb M_LinkState M_Npt S_Npt L_Npt L_Npt2 L_Npt3 L_Npt4 L_Npt5.
Open Scope Z_scope.
Set Implicit Arguments.

Lemma get_adds (L : npl) : forall (m : npl) p, NoDup (keys L) ->
  get p (fold_left (fun m x => set (fst x) (snd x) m) L m) = match get p L with Some c => Some c | None => get p m end.
Proof. induction L as [|[q c] L IH]; intros m p Nd; [reflexivity|]. inversion Nd as [|? ? Hni Nd']; subst.
  cbn [fold_left fst snd get]. rewrite IH by exact Nd'. rewrite get_set. eqc p q; [|reflexivity].
  apply get_None_keys in Hni. now rewrite Hni. Qed.

Lemma get_rems (L : npl) : forall (m : npl) p,
  get p (fold_left (fun m (x : name * Z) => del (fst x) m) L m) = if in_dec eq_dec p (keys L) then None else get p m.
Proof. induction L as [|[q c] L IH]; intros m p; cbn [fold_left fst keys map].
  - destruct (in_dec eq_dec p []) as [[]|_]. reflexivity.
  - rewrite IH, get_del. destruct (in_dec eq_dec p (keys L)) as [H|H]; destruct (in_dec eq_dec p (q :: map fst L)) as [H'|H']; auto.
    + exfalso. apply H'. now right.
    + destruct H' as [->|H']; [now rewrite eqb_refl|contradiction].
    + eqc p q; [exfalso; apply H'; now left|reflexivity]. Qed.

Lemma get_keys_None (m : npl) p : ~ In p (keys m) <-> get p m = None.
Proof. symmetry. apply get_None_keys. Qed.
Lemma get_keys_Some (m : npl) p : In p (keys m) <-> get p m <> None.
Proof. rewrite get_Some_keys. destruct (get p m); split; [discriminate|eauto|intros [? ?]; discriminate|congruence]. Qed.

Section Run.
Variable self : name.
Variable seen : name -> Z -> Prop.
Variable ok : name -> name -> Prop.
Variable K : (name -> name -> Z) -> name -> Z -> Prop.
Hypothesis K_local : forall c c' n k, (forall d, c d n = c' d n) -> K c n k -> K c' n k.
Hypothesis K_op : forall c d n, ok d n -> c d n = 0 \/ seen n (c d n) -> K c n (c d n).
Hypothesis K_erase : forall o p, ok o p -> (forall c c' k, K c p k -> K c' p k) \/ (forall d, ok d p -> d = o).

Definition Aof (v : view) : name -> name -> option Z :=
  fun o p => if eqb o self || eqb p self then None else advertised v o p.

Lemma addsA_spec o L : forall A, NoDup (keys L) -> forall o' p',
  addsA self o L A o' p' =
  if eqb o' o && negb (eqb p' self) then match get p' L with Some c => Some c | None => A o' p' end else A o' p'.
Proof. induction L as [|[p c] L IH]; intros A Nd o' p'; cbn [addsA fold_left fst snd get].
  - destruct (_ && _); reflexivity.
  - inversion Nd as [|? ? Hni Nd']; subst. fold (addsA self o L). apply get_None_keys in Hni.
    change (fold_left _ L ?X) with (addsA self o L X). rewrite IH by exact Nd'.
    eqc p self.
    + eqc o' o; cbn [andb]; [|reflexivity]. eqc p' self; cbn [negb]; reflexivity.
    + eqc o' o; cbn [andb].
      * eqc p' self; cbn [negb].
        -- rewrite updA_ne; [reflexivity|congruence].
        -- eqc p' p; [rewrite Hni; apply updA_same|]. rewrite updA_ne; [reflexivity|congruence].
      * rewrite updA_ne; [reflexivity|congruence]. Qed.

Lemma remsA_spec o L : forall A o' p',
  remsA self o L A o' p' =
  if eqb o' o && negb (eqb p' self) && (if in_dec eq_dec p' L then true else false) then None else A o' p'.
Proof. induction L as [|p L IH]; intros A o' p'; cbn [remsA fold_left].
  - destruct (in_dec eq_dec p' []) as [[]|_]. now rewrite andb_false_r.
  - change (fold_left _ L ?X) with (remsA self o L X). rewrite IH.
    destruct (in_dec eq_dec p' L) as [H|H]; destruct (in_dec eq_dec p' (p :: L)) as [H'|H'];
      try (exfalso; apply H'; now right).
    + rewrite andb_true_r. eqc p self; [reflexivity|]. eqc o' o; cbn [andb]; [|rewrite updA_ne; [reflexivity|congruence]].
      eqc p' self; cbn [negb]; [|reflexivity]. rewrite updA_ne; [reflexivity|congruence].
    + destruct H' as [->|H']; [|contradiction]. rewrite andb_false_r, andb_true_r.
      eqc p' self; cbn [negb]; [now rewrite andb_false_r|]. rewrite andb_true_r.
      eqc o' o; [apply updA_same|]. rewrite updA_ne; [reflexivity|congruence].
    + rewrite !andb_false_r. eqc p self; [reflexivity|]. rewrite updA_ne; [reflexivity|].
      intros [= _ ->]. apply H'. now left. Qed.

(** ** One event *)
Definition mirrored (v : view) (s : npt) : Prop :=
  (forall p o, p <> o -> In o (dests s p) <-> o <> self /\ p <> self /\ advertised v o p <> None) /\
  (forall o, In o (dests s o) -> o <> self /\ known v o).

Definition ginv (v : view) (s : npt) (outs : list nout) : Prop :=
  good seen ok K (Aof v) s outs /\ mirrored v s.

(** What an event may mention. *)
Definition ev_ok (e : nev) : Prop :=
  match e with
  | NvRoutes _ _ _ => True
  | NvNotify k l adds _ =>
      l_origin l <> self -> ok (l_origin l) (l_origin l) /\
      forall p c, In (p, c) (match k with KInstalled => body_names (l_body l) | KUpdated => adds | KRemoved => [] end) -> p <> self ->
        ok (l_origin l) p /\ seen p c
  end.

Lemma adv_other v k m o p : k <> (o, TName) -> advertised (set k m v) o p = advertised v o p.
Proof. intros H. unfold advertised. rewrite get_set_ne; auto. Qed.
Lemma adv_other_del v k o p : k <> (o, TName) -> advertised (del k v) o p = advertised v o p.
Proof. intros H. unfold advertised. rewrite get_del_ne; auto. Qed.
Lemma known_set v k m o : known v o \/ fst k = o -> known (set k m v) o.
Proof. intros [(t & m' & G)|<-].
  - destruct (eq_dec (o, t) k) as [<-|Hne]; [exists t, m; apply get_set_eq|]. exists t, m'. now rewrite get_set_ne.
  - exists (snd k), m. destruct k. apply get_set_eq. Qed.
Lemma known_del v k o : known v o -> fst k <> o -> known (del k v) o.
Proof. intros (t & m & G) H. exists t, m. rewrite get_del_ne; [exact G|]. intros E. apply H. now rewrite <- E. Qed.

Lemma type_names l : l_type l <> TName -> body_names (l_body l) = [].
Proof. unfold l_type. destruct (l_body l); cbn; congruence. Qed.

Lemma own_event v k l adds rems s outs : l_origin l = self -> ginv v s outs ->
  ginv (note v (NvNotify k l adds rems)) s outs.
Proof. intros Ho [G [M1 M2]].
  set (v' := note v (NvNotify k l adds rems)).
  assert (Hg : forall o t, o <> self -> get (o, t) v' = get (o, t) v).
  { intros o t H. assert ((o, t) <> l_key l) by (unfold l_key; congruence).
    unfold v', note. destruct k; [apply get_set_ne|apply get_set_ne|apply get_del_ne]; assumption. }
  assert (Ha : forall o p, o <> self -> advertised v' o p = advertised v o p).
  { intros o p H. unfold advertised. now rewrite Hg. }
  split.
  - eapply good_ext; [|exact G]. intros o p. unfold Aof. eqc o self; [reflexivity|]. cbn [orb]. now rewrite Ha.
  - split.
    + intros p o Hpo. rewrite M1 by exact Hpo. split; intros (X & Y & Z'); repeat split; auto; now rewrite ?Ha in * by exact X.
    + intros o H. destruct (M2 o H) as [X (t & m & Gm)]. split; [exact X|]. exists t, m. now rewrite Hg. Qed.

Lemma event_ginv e v s outs : ginv v s outs -> note_ok v e -> ev_ok e ->
  exists s' out, nstep self e s = Ok (s', out) /\ ginv (note v e) s' (outs ++ out) /\
    n_rt s' = match e with NvRoutes rt _ _ => rt | _ => n_rt s end.
Proof. intros GI Hn He. destruct e as [k l adds rems|rt pord nord]; cbn [nstep].
  2:{ destruct GI as [G [M1 M2]].
      destruct (new_routes_good K_local K_op rt pord nord G) as (s' & out & E & G' & D & R).
      exists s', out. split; [exact E|]. split; [|exact R]. split; [exact G'|]. split.
      - intros p o. rewrite D. apply M1.
      - intros o. rewrite D. apply M2. }
  unfold from_lsdb. eqc (l_origin l) self.
  { exists s, []. rewrite app_nil_r. split; [reflexivity|]. split; [|reflexivity]. now apply own_event. }
  destruct GI as [G [M1 M2]]. set (o := l_origin l) in *. destruct (He E) as [Hoo Hp].
  assert (Keq : l_key l = (o, l_type l)) by reflexivity.
  destruct k; cbn [note note_ok] in *.
  - (* INSTALLED *)
    destruct Hn as [Hn Nd].
    destruct (add_self_good K_local K_op o o CAPTURE G Hoo) as (s1 & o1 & -> & G1 & D1 & R1). cbn [nbind].
    destruct (adds_good (self := self) K_local K_op o (body_names (l_body l)) G1)
      as (s2 & o2 & -> & G2 & D2 & R2); [intros; now apply Hp|].
    exists s2, (o1 ++ o2). split; [reflexivity|]. rewrite app_assoc. split; [|congruence].
    assert (Adv : forall o' p', advertised (set (l_key l) (body_names (l_body l)) v) o' p' =
      if eqb o' o then match get p' (body_names (l_body l)) with Some c => Some c | None => advertised v o' p' end else advertised v o' p').
    { intros o' p'. eqc o' o.
      - destruct (eq_dec (l_type l) TName) as [T|T].
        + unfold advertised. rewrite Keq, T in *. rewrite get_set_eq, Hn. destruct (get p' _); reflexivity.
        + rewrite (type_names _ T). cbn [get]. apply adv_other. congruence.
      - apply adv_other. congruence. }
    split.
    + eapply good_ext; [|exact G2]. intros o' p'. rewrite addsA_spec by exact Nd. unfold Aof. rewrite Adv.
      eqc o' o; cbn [andb]; [|reflexivity]. eqc o self; [congruence|]. cbn [orb]. eqc p' self; reflexivity.
    + split.
      * intros p o' Hne. rewrite D2, D1, M1 by exact Hne. rewrite Adv. eqc o' o.
        -- pose proof (get_keys_Some (body_names (l_body l)) p) as X. destruct (get p (body_names (l_body l))) as [c|] eqn:Gp.
           ++ split; [|intros (Y1 & Y2 & Y3); right; split; [apply X; discriminate|auto]].
              intros [[(Y1 & Y2 & Y3)|[-> _]]|(Y1 & Y2 & _)]; [repeat split; auto; discriminate|congruence|repeat split; auto; discriminate].
           ++ split; [|tauto]. intros [[Y|[-> _]]|(Y1 & Y2 & _)]; [exact Y|congruence|]. apply X in Y1. congruence.
        -- split; [|tauto]. intros [[Y|[_ ->]]|(_ & _ & ->)]; [exact Y|congruence|congruence].
      * intros o'. rewrite D2, D1. intros [[H|[-> _]]|(_ & _ & ->)].
        -- destruct (M2 _ H) as [X Y]. split; [exact X|]. apply known_set. now left.
        -- split; [exact E|]. apply known_set. now right.
        -- split; [exact E|]. apply known_set. now right.
  - (* UPDATED *)
    destruct Hn as (m & Gm & Nda & Ndr & Da & Dr). rewrite Gm.
    set (m' := fold_left (fun m x => del (fst x) m) rems (fold_left (fun m x => set (fst x) (snd x) m) adds m)).
    destruct (eq_dec (l_type l) TName) as [T|T].
    2:{ assert (Adv : forall o' p', advertised (set (l_key l) m' v) o' p' = advertised v o' p').
        { intros. apply adv_other. rewrite Keq. congruence. }
        exists s, []. rewrite app_nil_r. split; [destruct (l_type l); congruence|]. split; [|reflexivity]. split.
        - eapply good_ext; [|exact G]. intros. unfold Aof. now rewrite Adv.
        - split; [intros; rewrite Adv; now apply M1|]. intros o' H. destruct (M2 _ H) as [X Y]. split; [exact X|]. apply known_set. now left. }
    rewrite T. rewrite Keq, T in Gm.
    assert (Advo : forall p, advertised v o p = get p m) by (intros; unfold advertised; now rewrite Gm).
    destruct (adds_good (self := self) K_local K_op o adds G)
      as (s1 & o1 & -> & G1 & D1 & R1); [intros; now apply Hp|]. cbn [nbind].
    destruct (rems_good (self := self) K_local K_op K_erase o (L := keys rems) G1 Ndr)
      as (s2 & o2 & -> & G2 & D2 & R2).
    { intros p Hr Hs. assert (Hm : get p m <> None) by (apply get_keys_Some; auto). split.
      - destruct (eq_dec p o) as [->|Hne]; [exact Hoo|]. apply (g_o G). apply M1; [exact Hne|]. rewrite Advo. auto.
      - rewrite addsA_spec by exact Nda. rewrite eqb_refl. eqc p self; [congruence|]. cbn [andb negb].
        destruct (get p adds); [discriminate|]. unfold Aof. eqc o self; [congruence|]. eqc p self; [congruence|]. cbn [orb]. now rewrite Advo. }
    exists s2, (o1 ++ o2). split; [reflexivity|]. rewrite app_assoc. split; [|congruence].
    assert (Adv : forall o' p', advertised (set (l_key l) m' v) o' p' =
      if eqb o' o then (if in_dec eq_dec p' (keys rems) then None else match get p' adds with Some c => Some c | None => get p' m end)
      else advertised v o' p').
    { intros o' p'. eqc o' o.
      - unfold advertised. rewrite Keq, T, get_set_eq. unfold m'. rewrite get_rems, get_adds by exact Nda. reflexivity.
      - apply adv_other. rewrite Keq. congruence. }
    split.
    + eapply good_ext; [|exact G2]. intros o' p'. rewrite remsA_spec, addsA_spec by exact Nda. unfold Aof. rewrite Adv.
      eqc o' o; cbn [andb]; [|reflexivity]. eqc o self; [congruence|]. cbn [orb].
      eqc p' self; cbn [negb andb]; [reflexivity|]. rewrite Advo. destruct (in_dec eq_dec p' (keys rems)); reflexivity.
    + split.
      * intros p o' Hne. rewrite D2, D1, M1 by exact Hne. rewrite Adv. eqc o' o.
        -- rewrite Advo. pose proof (get_keys_Some adds p) as X. destruct (in_dec eq_dec p (keys rems)) as [Hr|Hr].
           ++ split; [|intros (_ & _ & Y); congruence]. intros [Y1 Y2]. exfalso. apply Y2.
              destruct Y1 as [(Y3 & Y4 & _)|(_ & Y4 & _)]; auto.
           ++ destruct (get p adds) as [c|].
              ** split; [|intros (Y1 & Y2 & _); split; [right; split; [apply X; discriminate|auto]|tauto]].
                 intros [[(Y1 & Y2 & _)|(_ & Y2 & _)] _]; repeat split; auto; discriminate.
              ** split; [|tauto]. intros [[Y|(Y & _)] _]; [exact Y|]. apply X in Y. congruence.
        -- split; [intros [[Y|(_ & _ & ->)] _]; [exact Y|congruence]|]. intros Y. split; [now left|]. intros (_ & _ & ->). congruence.
      * intros o'. rewrite D2, D1. intros [[H|(_ & _ & ->)] _].
        -- destruct (M2 _ H) as [X Y]. split; [exact X|]. apply known_set. now left.
        -- split; [exact E|]. apply known_set. now right.
  - (* REMOVED *)
    destruct Hn as (m & Gm & Nd & Hm).
    destruct (remove_self_good K_local K_op o o G Hoo) as (s1 & o1 & -> & G1 & D1 & R1). cbn [nbind].
    assert (Hnames : forall p, In p (keys (body_names (l_body l))) -> l_type l = TName /\ advertised v o p <> None).
    { intros p Hin. destruct (eq_dec (l_type l) TName) as [T|T]; [|rewrite (type_names _ T) in Hin; destruct Hin].
      split; [exact T|]. unfold advertised. rewrite Keq, T in Gm. rewrite Gm. apply get_keys_Some, Hm, Hin. }
    destruct (rems_good (self := self) K_local K_op K_erase o (L := keys (body_names (l_body l))) G1 Nd)
      as (s2 & o2 & -> & G2 & D2 & R2).
    { intros p Hr Hs. destruct (Hnames p Hr) as [T Ha]. split.
      - destruct (eq_dec p o) as [->|Hne]; [exact Hoo|]. apply (g_o G). apply M1; [exact Hne|]. auto.
      - unfold Aof. eqc o self; [congruence|]. eqc p self; [congruence|]. exact Ha. }
    exists s2, (o1 ++ o2). split; [reflexivity|]. rewrite app_assoc. split; [|congruence].
    assert (Adv : forall o' p', advertised (del (l_key l) v) o' p' =
      if eqb o' o && eqb (l_type l) TName then None else advertised v o' p').
    { intros o' p'. eqc o' o; cbn [andb].
      - eqc (l_type l) TName; [unfold advertised; now rewrite Keq, E0, get_del_eq|]. apply adv_other_del. rewrite Keq. congruence.
      - apply adv_other_del. rewrite Keq. congruence. }
    assert (Out : forall p, ~ In p (keys (body_names (l_body l))) -> l_type l = TName -> advertised v o p = None).
    { intros p Hin T. unfold advertised. rewrite Keq, T in Gm. rewrite Gm. apply get_keys_None. now rewrite <- Hm. }
    split.
    + eapply good_ext; [|exact G2]. intros o' p'. rewrite remsA_spec. unfold Aof. rewrite Adv.
      eqc o' o; cbn [andb]; [|reflexivity]. eqc o self; [congruence|]. cbn [orb].
      eqc p' self; cbn [negb andb]; [reflexivity|].
      destruct (in_dec eq_dec p' (keys (body_names (l_body l)))) as [Hin|Hin].
      * destruct (Hnames _ Hin) as [T _]. now rewrite T, eqb_refl.
      * eqc (l_type l) TName; [|reflexivity]. symmetry. now apply Out.
    + split.
      * intros p o' Hne. rewrite D2, D1, M1 by exact Hne. rewrite Adv. eqc o' o; cbn [andb].
        -- eqc (l_type l) TName.
           ++ split; [|tauto]. intros [[(Y1 & Y2 & Y3) _] Y4]. exfalso.
              destruct (in_dec eq_dec p (keys (body_names (l_body l)))) as [Hin|Hin]; [apply Y4; auto|].
              apply Y3. now apply Out.
           ++ rewrite (type_names _ E0). simpl. split; [tauto|]. intros Y. split; [split; [exact Y|]|tauto].
              intros [-> _]. congruence.
        -- split; [tauto|]. intros Y. split; [split; [exact Y|]|]; [intros [_ ->]; congruence|intros (_ & _ & ->); congruence].
      * intros o'. rewrite D2, D1. intros [[H Hno] _]. destruct (M2 _ H) as [X Y]. split; [exact X|].
        apply known_del; [exact Y|]. intros C. change (o = o') in C. apply Hno. auto. Qed.

(** ** Histories *)
Lemma run_ginv evs : forall v s outs, ginv v s outs -> notes_ok v evs -> (forall e, In e evs -> ev_ok e) ->
  exists s' out, neach (nstep self) evs s = Ok (s', out) /\ ginv (fold_left note evs v) s' (outs ++ out) /\
    n_rt s' = fold_left (fun t e => match e with NvRoutes rt _ _ => rt | _ => t end) evs (n_rt s).
Proof. induction evs as [|e evs IH]; intros v s outs G Hn He; cbn [neach fold_left].
  - exists s, []. rewrite app_nil_r. auto.
  - destruct Hn as [Hn1 Hn2]. destruct (event_ginv e G Hn1 (He e (or_introl eq_refl))) as (s1 & o1 & -> & G1 & R1). cbn [nbind].
    destruct (IH (note v e) s1 (outs ++ o1) G1 Hn2) as (s2 & o2 & -> & G2 & R2); [intros; apply He; now right|].
    exists s2, (o1 ++ o2). rewrite app_assoc. split; [reflexivity|]. split; [exact G2|].
    rewrite R2. f_equal. rewrite R1. destruct e; reflexivity. Qed.

Lemma ginv_init : ginv [] npt_init [].
Proof. split.
  - constructor.
    + exact pinv_init.
    + intros n f ds h. discriminate.
    + intros d l. discriminate.
    + intros o p. unfold Aof. destruct (_ || _); cbn; auto.
    + intros d n. now left.
    + intros n d [].
    + intros n. reflexivity.
  - split.
    + intros p o _. split; [intros []|]. intros (_ & _ & H). exfalso. now apply H.
    + intros o []. Qed.

Lemma exec_ginv evs : notes_ok [] evs -> (forall e, In e evs -> ev_ok e) ->
  exists s out, nexec self evs = Ok (s, out) /\ ginv (noted evs) s out /\ n_rt s = routes_now evs.
Proof. intros Hn He. exact (run_ginv evs ginv_init Hn He). Qed.
End Run.

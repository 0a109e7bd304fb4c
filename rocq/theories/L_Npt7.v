(** The database notifies as the name prefix table expects. *)
From Verif Require Import Base M_Nexthop M_Tlv M_Adj M_Lsa M_Lsdb L_Lsdb S_Lsdb L_Lsdb2 L_Lsdb3 L_Lsdb4 M_LinkState M_Npt S_Npt L_Npt6.
Open Scope Z_scope.
Set Implicit Arguments.

Definition nev_of (x : kind * lsa * npl * npl) : nev := let '(k, l, a, r) := x in NvNotify k l a r.

Lemma in_notes_cons e evs : in_notes (e :: evs) = match e with NvNotify k l a r => (k, l, a, r) :: in_notes evs | _ => in_notes evs end.
Proof. destruct e; reflexivity. Qed.

Lemma notes_ok_notes evs : forall v, notes_ok v evs <-> notes_ok v (map nev_of (in_notes evs)).
Proof. induction evs as [|e evs IH]; intros v; [reflexivity|]. rewrite in_notes_cons. destruct e as [k l a r|rt po no].
  - cbn [map nev_of notes_ok]. now rewrite <- IH.
  - cbn [notes_ok note_ok note]. rewrite <- IH. tauto. Qed.

Lemma noted_notes evs : forall v, fold_left note evs v = fold_left note (map nev_of (in_notes evs)) v.
Proof. induction evs as [|e evs IH]; intros v; [reflexivity|]. rewrite in_notes_cons. destruct e as [k l a r|rt po no];
  cbn [map nev_of fold_left note]; apply IH. Qed.

Lemma notes_ok_app e1 : forall v e2, notes_ok v (e1 ++ e2) <-> notes_ok v e1 /\ notes_ok (fold_left note e1 v) e2.
Proof. induction e1 as [|e e1 IH]; intros v e2; cbn [app notes_ok fold_left]; [tauto|]. rewrite IH. tauto. Qed.

Lemma out_notes_app a b : out_notes (a ++ b) = out_notes a ++ out_notes b.
Proof. apply flat_map_app. Qed.
Lemma out_notes_rel o : out_notes (filter rel o) = out_notes o.
Proof. induction o as [|x o IH]; [reflexivity|]. cbn [filter]. destruct x; cbn [rel]; unfold out_notes in *; cbn [flat_map app]; rewrite ?IH; reflexivity. Qed.

(** The view of a subscriber and the stored LSAs. *)
Definition sees (v : view) (s : st) : Prop :=
  (forall k, get k v = match find_lsa k s with Some l => Some (body_names (l_body l)) | None => None end) /\
  (forall k l, find_lsa k s = Some l -> NoDup (keys (body_names (l_body l)))).

Lemma NoDup_npl_of_list l : NoDup (keys (npl_of_list l)).
Proof. unfold npl_of_list. assert (G : forall l (m : npl), NoDup (keys m) -> NoDup (keys (fold_left (fun m p => set (fst p) (snd p) m) l m))).
  { clear. induction l as [|x l IH]; intros m H; [exact H|]. cbn [fold_left]. apply IH. now apply NoDup_set. }
  apply G. constructor. Qed.

Lemma NoDup_diff x y : NoDup (keys x) -> NoDup (keys (names_diff x y)).
Proof. unfold names_diff, keys. induction x as [|[p c] x IH]; cbn [filter map]; intros H; [constructor|].
  inversion H as [|? ? Hni H']; subst. destruct (get (fst (p, c)) y); [now apply IH|]. cbn [map fst]. constructor; [|now apply IH].
  intros C. apply Hni. apply in_map_iff in C as (z & Z1 & Z2). apply filter_In in Z2. apply in_map_iff. exists z. tauto. Qed.

Lemma NoDup_merge o n : NoDup (keys o) -> NoDup (keys (snd (fst (fst (update_name o n))))).
Proof. intros H. unfold update_name. cbn [fst snd].
  assert (G1 : forall l (m : npl), NoDup (keys m) -> NoDup (keys (fold_left (fun m p => set (fst p) (snd p) m) l m))).
  { clear. induction l as [|x l IH]; intros m H; [exact H|]. cbn [fold_left]. apply IH. now apply NoDup_set. }
  assert (G2 : forall (l : npl) (m : npl), NoDup (keys m) -> NoDup (keys (fold_left (fun m p => del (fst p) m) l m))).
  { clear. induction l as [|x l IH]; intros m H; [exact H|]. cbn [fold_left]. apply IH. now apply NoDup_del. }
  apply G2, G1, H. Qed.

Definition outs_ok (v : view) (o : list out) : Prop := notes_ok v (map nev_of (out_notes o)).
Definition outs_view (v : view) (o : list out) : view := fold_left note (map nev_of (out_notes o)) v.

Lemma set_same_get (v : view) k k' m : get k' (set k m v) = if eqb k' k then Some m else get k' v.
Proof. apply get_set. Qed.

Lemma sees_offer v s l s' : invS None s -> sees v s -> offered s l s' -> NoDup (keys (body_names (l_body l))) ->
  outs_ok v (offer_outs (find_lsa (l_key l) s) l) /\ sees (outs_view v (offer_outs (find_lsa (l_key l) s) l)) s'.
Proof. intros I [V1 V2] Ho Nd. unfold offer_outs, outs_ok, outs_view. destruct (find_lsa (l_key l) s) as [o|] eqn:F.
  - pose proof (find_key I F) as Hk. pose proof (V2 _ _ F) as Ndo. pose proof (V1 (l_key l)) as Vl. rewrite F in Vl.
    destruct (l_seq o <? l_seq l)%N eqn:Q.
    + assert (Ho' : forall k, find_lsa k s' = if eqb k (l_key l) then Some (merged o l) else find_lsa k s).
      { intros k. rewrite (Ho k), F. cbn [offer]. now rewrite Q. }
      unfold upd_notify.
      assert (Merge : merged o l = Lsa (l_origin o) (l_seq l) (l_exp l) (snd (fst (fst (update_body (l_body o) (l_body l)))))) by reflexivity.
      assert (Same : (forall u b ad rm, update_body (l_body o) (l_body l) = (u, b, ad, rm) -> body_names b =
          fold_left (fun m (x : name * Z) => del (fst x) m) rm (fold_left (fun m x => set (fst x) (snd x) m) ad (body_names (l_body o))) /\
          NoDup (keys ad) /\ NoDup (keys rm) /\ NoDup (keys (body_names b)) /\
          (forall p, In p (keys ad) -> ~ In p (keys (body_names (l_body o)))) /\ (forall p, In p (keys rm) -> In p (keys (body_names (l_body o)))) /\
          (u = false -> body_names b = body_names (l_body o)))).
      { intros u b ad rm E. unfold update_body in E.
        destruct (l_body o) as [a1|r1 a1|n1] eqn:B1; destruct (l_body l) as [a2|r2 a2|n2] eqn:B2;
          try (injection E as <- <- <- <-; cbn [body_names fold_left keys map]; repeat split; auto; try constructor; try (intros ? []); fail).
        - destruct (adl_eqb a1 a2); injection E as <- <- <- <-; cbn [body_names fold_left keys map];
            repeat split; auto; try constructor; intros ? [].
        - destruct (diff_eps r1 r2 && angles_eqb a1 a2); injection E as <- <- <- <-; cbn [body_names fold_left keys map];
            repeat split; auto; try constructor; intros ? [].
        - pose proof (@NoDup_merge n1 n2 Ndo) as NM. cbn [body_names] in *.
          destruct (update_name n1 n2) as [[[u' r'] a'] d'] eqn:U. injection E as <- <- <- <-. cbn [fst snd body_names] in *.
          unfold update_name in U. injection U as U1 U2 U3 U4.
          split; [now rewrite <- U2, <- U3, <- U4|].
          split; [rewrite <- U3; now apply NoDup_diff|]. split; [rewrite <- U4; now apply NoDup_diff|]. split; [exact NM|].
          split; [intros p; rewrite <- U3, keys_names_diff; tauto|]. split; [intros p; rewrite <- U4, keys_names_diff; tauto|].
          intros ->. apply orb_false_iff in U1. destruct U1 as [Ea Er].
          apply negb_false_iff, Nat.eqb_eq, length_zero_iff_nil in Ea.
          apply negb_false_iff, Nat.eqb_eq, length_zero_iff_nil in Er. rewrite <- U2, Ea, Er. reflexivity. }
      destruct (update_body (l_body o) (l_body l)) as [[[u b] ad] rm] eqn:E.
      destruct (Same u b ad rm eq_refl) as (S1 & S2 & S3 & S4 & S5 & S6 & S7). cbn [fst snd] in Merge.
      destruct u.
      * cbn [out_notes flat_map app map nev_of fold_left note notes_ok note_ok]. rewrite Vl. split; [split; [|exact I0 || exact Logic.I]|].
        { exists (body_names (l_body o)). auto 10. }
        split.
        -- intros k. rewrite get_set, Ho'. eqb_case k (l_key l); [|apply V1]. rewrite Merge. cbn [l_body]. now rewrite S1.
        -- intros k x. rewrite Ho'. eqb_case k (l_key l); [|apply V2]. intros [= <-]. rewrite Merge. exact S4.
      * cbn. split; [exact Logic.I|]. split.
        -- intros k. rewrite Ho'. eqb_case k (l_key l); [|apply V1]. rewrite Vl, Merge. cbn [l_body]. now rewrite S7.
        -- intros k x. rewrite Ho'. eqb_case k (l_key l); [|apply V2]. intros [= <-]. rewrite Merge. exact S4.
    + cbn. split; [exact Logic.I|]. assert (Same : forall k, find_lsa k s' = find_lsa k s).
      { intros k. rewrite (Ho k), F. cbn [offer]. rewrite Q. eqb_case k (l_key l); [now rewrite F|reflexivity]. }
      split; [intros k; rewrite Same; apply V1|intros k x; rewrite Same; apply V2].
  - cbn [out_notes flat_map app map nev_of fold_left note notes_ok note_ok]. rewrite V1, F.
    split; [auto|]. assert (Ho' : forall k, find_lsa k s' = if eqb k (l_key l) then Some l else find_lsa k s).
    { intros k. rewrite (Ho k), F. reflexivity. }
    split.
    + intros k. rewrite get_set, Ho'. eqb_case k (l_key l); [reflexivity|apply V1].
    + intros k x. rewrite Ho'. eqb_case k (l_key l); [intros [= <-]; exact Nd|apply V2]. Qed.

Lemma sees_removed v s l s' : sees v s -> find_lsa (l_key l) s = Some l ->
  (forall k, find_lsa k s' = if eqb k (l_key l) then None else find_lsa k s) ->
  outs_ok v [ONotify KRemoved l [] []] /\ sees (outs_view v [ONotify KRemoved l [] []]) s'.
Proof. intros [V1 V2] F Hs. unfold outs_ok, outs_view. cbn [out_notes flat_map app map nev_of fold_left note notes_ok note_ok].
  split; [split; [|exact Logic.I]|].
  - exists (body_names (l_body l)). rewrite V1, F. split; [reflexivity|]. split; [eapply V2; exact F|]. reflexivity.
  - split.
    + intros k. rewrite get_del, Hs. eqb_case k (l_key l); [reflexivity|apply V1].
    + intros k x. rewrite Hs. eqb_case k (l_key l); [discriminate|apply V2]. Qed.

(** The names of a received Name LSA are distinct (they are the keys of a map). *)
Definition decoded (x : env * ev) : Prop :=
  forall fid l, snd x = EFetchDone fid (Some l) -> NoDup (keys (body_names (l_body l))).

Lemma sees_eff c s x s' o' v : invS None s -> sees v s -> eff c s x s' o' -> decoded x ->
  outs_ok v o' /\ sees (outs_view v o') s'.
Proof. intros I S E D. pose proof S as [V1 V2].
  inversion E; subst.
  - split; [exact Logic.I|]. split; [intros k; cbn; rewrite H; apply V1|intros k l; rewrite H; apply V2].
  - eapply sees_offer; [exact I|exact S|eassumption|]. eapply D; eassumption.
  - unfold outs_ok, outs_view. rewrite !out_notes_app. cbn [out_notes flat_map app].
    replace (out_notes (if publishes (c_hyp c) (body_type b) then [OPublish (body_type b) (q0 + 1)] else [])) with (@nil (kind * lsa * npl * npl))
      by (destruct (publishes _ _); reflexivity). cbn [app].
    change (c_self c, body_type b) with (l_key (own c (body_type b) (q0 + 1) (e_sys (fst x)) b)).
    eapply sees_offer; [exact I|exact S|eassumption|]. cbn [own l_body].
    destruct b as [a|ra an|n]; cbn [body_names]; try constructor. cbn [body_type] in *.
    match goal with Hn : TName = TName -> _ |- _ => specialize (Hn eq_refl); injection Hn as -> end. apply NoDup_npl_of_list.
  - split; [exact Logic.I|]. cbn. match goal with F : forall k, find_lsa k s' = _ |- _ => rename F into Fs end.
    match goal with F : find_lsa (l_key l) s = Some l |- _ => rename F into Fl end. split.
    + intros k. rewrite Fs. eqb_case k (l_key l); [|apply V1]. rewrite V1, Fl. reflexivity.
    + intros k l'. rewrite Fs. eqb_case k (l_key l); [|apply V2]. intros [= <-]. cbn. eapply V2; exact Fl.
  - eapply sees_removed; eassumption.
  - match goal with F : find_lsa (c_self c, TAdj) s = _ |- _ => pose proof (find_key I F) as Hk end.
    rewrite <- Hk in *. eapply sees_removed; eassumption. Qed.

Lemma lsdb_notes c f now e0 evs : (forall x, In x evs -> decoded x) ->
  outs_ok [] (snd (exec c f now e0 evs)) /\ sees (outs_view [] (snd (exec c f now e0 evs))) (fst (exec c f now e0 evs)).
Proof. unfold outs_ok, outs_view. rewrite <- (out_notes_rel (snd (exec c f now e0 evs))).
  fold (outs_ok [] (filter rel (snd (exec c f now e0 evs)))). fold (outs_view [] (filter rel (snd (exec c f now e0 evs)))).
  assert (Step : forall s o x s' o', invS None s -> (outs_ok [] o /\ sees (outs_view [] o) s) -> eff c s x s' o' -> decoded x ->
     outs_ok [] (o ++ o') /\ sees (outs_view [] (o ++ o')) s').
  { intros s o x s' o' I [H1 H2] E D. destruct (sees_eff I H2 E D) as [G1 G2].
    unfold outs_ok, outs_view in *. rewrite out_notes_app, map_app, fold_left_app, notes_ok_app. auto. }
  apply (@exec_eff_ind c f now e0 (fun evs s o => (forall x, In x evs -> decoded x) -> outs_ok [] o /\ sees (outs_view [] o) s)).
  - intros _. split; [exact Logic.I|]. split; [reflexivity|]. intros k l. discriminate.
  - intros s o s' o' I H E _ _. eapply Step; [exact I|apply H; intros ? []|exact E|]. intros fid l. discriminate.
  - intros evs' s o x s' o' _ _ I H E D. eapply Step; [exact I|apply H; intros; apply D, in_or_app; now left|exact E|].
    apply D, in_or_app. right. now left. Qed.

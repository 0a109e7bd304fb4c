(** How each operation of the LSDB machine changes what lookups return. *)
From Verif Require Import Base M_Nexthop M_Tlv M_Adj M_Lsa M_Lsdb L_Lsdb S_Lsdb.
Open Scope Z_scope.
Set Implicit Arguments.

Lemma find_same s s' k : sameS s s' -> find_lsa k s' = find_lsa k s.
Proof. intros (E1 & E2 & _). unfold find_lsa, find_oid. now rewrite E1, E2. Qed.

Lemma find_key ex s k l : invS ex s -> find_lsa k s = Some l -> l_key l = k.
Proof.
  intros H. unfold find_lsa, find_oid. destruct (get k (s_store s)) as [oid|] eqn:E; [|discriminate].
  destruct (iS_store H _ E) as (o & Ho & Hk & _). rewrite Ho. simpl. congruence.
Qed.

Lemma find_oid_None ex s k : invS ex s -> (find_oid k s = None <-> find_lsa k s = None).
Proof.
  intros H. unfold find_lsa. destruct (find_oid k s) as [oid|] eqn:E; [|tauto].
  destruct (iS_store H _ E) as (o & Ho & _). rewrite Ho. simpl. split; discriminate.
Qed.

Lemma find_set_obj ex s oid o o' k : invS ex s -> get oid (s_heap s) = Some o ->
  find_lsa k (w_heap (set oid o' (s_heap s)) (s_noid s) s) =
  if eqb (get k (s_store s)) (Some oid) then Some (o_lsa o') else find_lsa k s.
Proof.
  intros H Ho. unfold find_lsa, find_oid. cbn [s_store s_heap w_heap].
  destruct (get k (s_store s)) as [i|] eqn:Ek.
  - rewrite get_set. eqb_case i oid.
    + simpl. now rewrite eqb_refl.
    + eqb_case (Some i) (Some oid); [congruence|reflexivity].
  - eqb_case (@None nat) (Some oid); [discriminate|reflexivity].
Qed.

Arguments find_set_obj {ex s oid o} o' k _ _.
Arguments find_oid_None {ex s} k _.
Arguments find_key {ex s k l} _ _.

Lemma find_schedule_expiration s oid secs k :
  find_lsa k (schedule_expiration oid secs s) = find_lsa k s.
Proof.
  unfold schedule_expiration, schedule. cbn [s_heap w_timers].
  destruct (get oid (s_heap s)) as [o|] eqn:Ho; [|reflexivity].
  set (s2 := cancel _ _).
  assert (E1 : s_store s2 = s_store s) by (unfold s2, cancel; destruct (o_tid o); reflexivity).
  assert (E2 : s_heap s2 = s_heap s) by (unfold s2, cancel; destruct (o_tid o); reflexivity).
  unfold find_lsa, find_oid. cbn [s_store s_heap w_heap]. rewrite E1, E2.
  destruct (get k (s_store s)) as [i|]; [|reflexivity].
  rewrite get_set. eqb_case i oid; [rewrite Ho|]; reflexivity.
Qed.

Lemma seqs_schedule_expiration s oid secs : s_seqs (schedule_expiration oid secs s) = s_seqs s.
Proof.
  unfold schedule_expiration, schedule. cbn [s_heap w_timers].
  destruct (get oid (s_heap s)) as [o|] eqn:Ho; [|reflexivity].
  unfold cancel. destruct (o_tid o); reflexivity.
Qed.

(** The LSA that results from offering [l] when [o] is stored. *)
Definition merged (o l : lsa) : lsa :=
  Lsa (l_origin o) (l_seq l) (l_exp l) (snd (fst (fst (update_body (l_body o) (l_body l))))).

Definition upd_notify (o l : lsa) : list out :=
  let '(u, _, ad, rm) := update_body (l_body o) (l_body l) in
  if u then [ONotify KUpdated l ad rm] else [].

Lemma install_find c sys l s k : invS None s ->
  find_lsa k (fst (install c sys l s)) =
  if eqb k (l_key l) then
    match find_lsa (l_key l) s with
    | None => Some l
    | Some o => if (l_seq o <? l_seq l)%N then Some (merged o l) else Some o
    end
  else find_lsa k s.
Proof.
  intros H. unfold install. destruct (find_oid (l_key l) s) as [oid|] eqn:Ek.
  - destruct (iS_store H _ Ek) as (o & Ho & Hk & _).
    assert (Ef : find_lsa (l_key l) s = Some (o_lsa o)) by (unfold find_lsa; now rewrite Ek, Ho).
    rewrite Ho, Ef. destruct (l_seq (o_lsa o) <? l_seq l)%N.
    + destruct (update_body (l_body (o_lsa o)) (l_body l)) as [[[u b] ad] rm] eqn:Eu.
      cbn [fst]. rewrite find_schedule_expiration, (find_set_obj _ _ H Ho). cbn [o_lsa].
      unfold merged. rewrite Eu. cbn [fst snd].
      eqb_case k (l_key l).
      * unfold find_oid in Ek. rewrite Ek, eqb_refl. reflexivity.
      * eqb_case (get k (s_store s)) (Some oid); [|reflexivity].
        exfalso. apply E. rewrite (invS_key H E0 Ho). exact Hk.
    + cbn [fst]. eqb_case k (l_key l); [exact Ef|reflexivity].
  - assert (Ef : find_lsa (l_key l) s = None) by (now apply (find_oid_None (l_key l) H)).
    rewrite Ef. cbn [fst]. rewrite find_schedule_expiration.
    unfold find_lsa at 1, find_oid. cbn [s_store s_heap w_store w_heap]. rewrite get_set.
    eqb_case k (l_key l); [now rewrite get_set_eq|].
    unfold find_lsa, find_oid. destruct (get k (s_store s)) as [i|] eqn:Ei; [|reflexivity].
    destruct (iS_store H _ Ei) as (o & Ho & _). pose proof (proj1 (iS_heap H _ Ho)).
    rewrite get_set_ne by lia. reflexivity.
Qed.

Lemma install_outs c sys l s : invS None s ->
  snd (install c sys l s) =
  match find_lsa (l_key l) s with
  | None => [ONotify KInstalled l [] []]
  | Some o => if (l_seq o <? l_seq l)%N then upd_notify o l else []
  end.
Proof.
  intros H. unfold install. destruct (find_oid (l_key l) s) as [oid|] eqn:Ek.
  - destruct (iS_store H _ Ek) as (o & Ho & Hk & _).
    assert (Ef : find_lsa (l_key l) s = Some (o_lsa o)) by (unfold find_lsa; now rewrite Ek, Ho).
    rewrite Ho, Ef. destruct (l_seq (o_lsa o) <? l_seq l)%N; [|reflexivity].
    unfold upd_notify.
    destruct (update_body (l_body (o_lsa o)) (l_body l)) as [[[u b] ad] rm]. reflexivity.
  - now rewrite (proj1 (find_oid_None (l_key l) H) Ek).
Qed.

Lemma install_seqs c sys l s : s_seqs (fst (install c sys l s)) = s_seqs s.
Proof.
  unfold install. destruct (find_oid (l_key l) s) as [oid|].
  - destruct (get oid (s_heap s)) as [o|]; [|reflexivity].
    destruct (_ <? _)%N; [|reflexivity].
    destruct (update_body _ _) as [[[u b] ad] rm]. cbn [fst]. now rewrite seqs_schedule_expiration.
  - cbn [fst]. now rewrite seqs_schedule_expiration.
Qed.

Lemma remove_find s k k' : find_lsa k' (fst (remove k s)) = if eqb k' k then None else find_lsa k' s.
Proof.
  unfold remove. destruct (find_lsa k s) eqn:E.
  - cbn [fst]. unfold find_lsa, find_oid. cbn [s_store s_heap w_store]. rewrite get_del.
    eqb_case k' k; reflexivity.
  - cbn [fst]. eqb_case k' k; [exact E|reflexivity].
Qed.

Lemma remove_outs s k :
  snd (remove k s) = match find_lsa k s with Some l => [ONotify KRemoved l [] []] | None => [] end.
Proof. unfold remove. destruct (find_lsa k s); reflexivity. Qed.

Lemma remove_seqs s k : s_seqs (fst (remove k s)) = s_seqs s.
Proof. unfold remove. destruct (find_lsa k s); reflexivity. Qed.

(** Building an own LSA. *)
Definition own (c : conf) (t : ltype) (q : N) (sys : Z) (b : body) : lsa :=
  Lsa (c_self c) q (expiration_point c sys) b.

Section Build.
  Variables (c : conf) (t : ltype) (sys : Z) (l : lsa) (pub : bool).
  Let A : act := bump t ;; write_seqs ;; (if pub then publish t else ret) ;; install c sys l.
  Variable s : st.

  Lemma build_seqs : s_seqs (fst (A s)) = seq_set t (seq_get t (s_seqs s) + 1) (s_seqs s).
  Proof. unfold A. rewrite !andthen_fst. rewrite install_seqs. destruct pub; reflexivity. Qed.

  Lemma build_find k : invS None s ->
    find_lsa k (fst (A s)) =
    if eqb k (l_key l) then
      match find_lsa (l_key l) s with
      | None => Some l
      | Some o => if (l_seq o <? l_seq l)%N then Some (merged o l) else Some o
      end
    else find_lsa k s.
  Proof.
    intros H. unfold A. rewrite !andthen_fst.
    set (s1 := fst ((if pub then publish t else ret) _)).
    assert (Hs : sameS s s1) by (unfold s1; destruct pub; repeat split).
    rewrite install_find by (exact (invS_same Hs H)). now rewrite !(find_same _ Hs).
  Qed.

  Lemma build_outs : invS None s ->
    snd (A s) =
    let q := seq_set t (seq_get t (s_seqs s) + 1) (s_seqs s) in
    [OTmp q; ORename] ++ (if pub then [OPublish t (seq_get t (s_seqs s) + 1)] else []) ++
    match find_lsa (l_key l) s with
    | None => [ONotify KInstalled l [] []]
    | Some o => if (l_seq o <? l_seq l)%N then upd_notify o l else []
    end.
  Proof.
    intros H. unfold A. rewrite !andthen_snd. rewrite ?andthen_fst. cbn [bump upd write_seqs fst snd app].
    set (s0 := w_seqs _ s).
    assert (Es : s_seqs s0 = seq_set t (seq_get t (s_seqs s) + 1) (s_seqs s)) by reflexivity.
    assert (E1 : fst ((if pub then publish t else ret) s0) = s0) by (destruct pub; reflexivity).
    rewrite E1. rewrite Es. cbn [app]. f_equal. f_equal.
    f_equal.
    - destruct pub; [|reflexivity]. cbn [publish snd]. rewrite Es. now destruct t.
    - rewrite install_outs; [|apply (invS_same (s := s)); [repeat split|exact H]].
      rewrite (find_same (s := s) (l_key l)) by repeat split. reflexivity.
  Qed.
End Build.

Lemma build_name_eq c e s : build_name c e s =
  (bump TName ;; write_seqs ;; (if true then publish TName else ret) ;;
   install c (e_sys e) (own c TName (seq_get TName (s_seqs s) + 1) (e_sys e)
                            (BName (npl_of_list (e_npl e))))) s.
Proof. reflexivity. Qed.

Lemma build_coord_eq c e s : build_coord c e s =
  (bump TCoord ;; write_seqs ;; (if negb (eqb (c_hyp c) HOff) then publish TCoord else ret) ;;
   install c (e_sys e) (own c TCoord (seq_get TCoord (s_seqs s) + 1) (e_sys e)
                            (BCoord (c_radius c) (c_angles c)))) s.
Proof. unfold build_coord. destruct (eqb _ _); reflexivity. Qed.

Lemma build_own_adj_eq c e s : build_own_adj c e s =
  (bump TAdj ;; write_seqs ;; (if negb (eqb (c_hyp c) HOn) then publish TAdj else ret) ;;
   install c (e_sys e) (own c TAdj (seq_get TAdj (s_seqs s) + 1) (e_sys e)
                            (BAdj (own_adl (e_adl e))))) s.
Proof. unfold build_own_adj. destruct (eqb _ _); reflexivity. Qed.

(** The expiration timer. *)
Definition refreshed (c : conf) (sys : Z) (l : lsa) : lsa :=
  Lsa (l_origin l) (l_seq l + 1) (expiration_point c sys) (l_body l).

Lemma expire_find c sys oid o s k ex : invS ex s -> get oid (s_heap s) = Some o ->
  find_lsa k (fst (expire_or_refresh c sys oid s)) =
  match find_lsa (l_key (o_lsa o)) s with
  | Some l =>
      if eqb k (l_key (o_lsa o)) && (l_seq l =? l_seq (o_lsa o))%N then
        if eqb (l_origin l) (c_self c) then Some (refreshed c sys l) else None
      else find_lsa k s
  | None => find_lsa k s
  end.
Proof.
  intros H Ho. unfold expire_or_refresh. rewrite Ho. set (key := l_key (o_lsa o)).
  destruct (find_oid key s) as [oid'|] eqn:Ek.
  - destruct (iS_store H _ Ek) as (o' & Ho' & Hk & _).
    assert (Ef : find_lsa key s = Some (o_lsa o')) by (unfold find_lsa; now rewrite Ek, Ho').
    rewrite Ho', Ef. destruct (l_seq (o_lsa o') =? l_seq (o_lsa o))%N;
      [|now rewrite andb_false_r].
    rewrite andb_true_r. destruct (eqb (l_origin (o_lsa o')) (c_self c)).
    + rewrite andthen_fst. cbn [write_seqs publish fst]. rewrite find_schedule_expiration.
      match goal with |- find_lsa k (w_seqs ?q ?s1) = _ =>
        rewrite (find_same (s := s1) (s' := w_seqs q s1) k) by repeat split end.
      rewrite (find_set_obj _ _ H Ho'). cbn [o_lsa]. unfold find_oid in Ek.
      eqb_case k key.
      * rewrite Ek, eqb_refl. reflexivity.
      * eqb_case (get k (s_store s)) (Some oid'); [|reflexivity].
        exfalso. apply E. rewrite (invS_key H E0 Ho'). exact Hk.
    + rewrite remove_find. reflexivity.
  - rewrite (proj1 (find_oid_None key H) Ek). reflexivity.
Qed.

Lemma expire_seqs c sys oid o s ex : invS ex s -> get oid (s_heap s) = Some o ->
  s_seqs (fst (expire_or_refresh c sys oid s)) =
  match find_lsa (l_key (o_lsa o)) s with
  | Some l =>
      if (l_seq l =? l_seq (o_lsa o))%N && eqb (l_origin l) (c_self c)
      then seq_set (l_type l) (l_seq l + 1) (s_seqs s) else s_seqs s
  | None => s_seqs s
  end.
Proof.
  intros H Ho. unfold expire_or_refresh. rewrite Ho. set (key := l_key (o_lsa o)).
  destruct (find_oid key s) as [oid'|] eqn:Ek.
  - destruct (iS_store H _ Ek) as (o' & Ho' & Hk & _).
    assert (Ef : find_lsa key s = Some (o_lsa o')) by (unfold find_lsa; now rewrite Ek, Ho').
    rewrite Ho', Ef. destruct (l_seq (o_lsa o') =? l_seq (o_lsa o))%N; [|reflexivity].
    destruct (eqb (l_origin (o_lsa o')) (c_self c)); cbn [andb].
    + rewrite andthen_fst. cbn [write_seqs publish fst]. rewrite seqs_schedule_expiration.
      reflexivity.
    + now rewrite remove_seqs.
  - rewrite (proj1 (find_oid_None key H) Ek). reflexivity.
Qed.

Lemma expire_outs c sys oid o s ex : invS ex s -> get oid (s_heap s) = Some o ->
  snd (expire_or_refresh c sys oid s) =
  match find_lsa (l_key (o_lsa o)) s with
  | Some l =>
      if (l_seq l =? l_seq (o_lsa o))%N then
        if eqb (l_origin l) (c_self c)
        then [OTmp (seq_set (l_type l) (l_seq l + 1) (s_seqs s)); ORename;
              OPublish (l_type l) (l_seq l + 1)]
        else [ONotify KRemoved l [] []]
      else []
  | None => []
  end.
Proof.
  intros H Ho. unfold expire_or_refresh. rewrite Ho. set (key := l_key (o_lsa o)).
  destruct (find_oid key s) as [oid'|] eqn:Ek.
  - destruct (iS_store H _ Ek) as (o' & Ho' & Hk & _).
    assert (Ef : find_lsa key s = Some (o_lsa o')) by (unfold find_lsa; now rewrite Ek, Ho').
    rewrite Ho', Ef. destruct (l_seq (o_lsa o') =? l_seq (o_lsa o))%N; [|reflexivity].
    destruct (eqb (l_origin (o_lsa o')) (c_self c)).
    + rewrite andthen_snd. cbn [write_seqs publish fst snd app]. rewrite seqs_schedule_expiration.
      cbn [s_seqs w_seqs]. destruct (l_type (o_lsa o')); reflexivity.
    + rewrite remove_outs. now rewrite Ef.
  - rewrite (proj1 (find_oid_None key H) Ek). reflexivity.
Qed.

(** ** contents *)

Lemma In_contents ex s l : invS ex s -> (In l (contents s) <-> find_lsa (l_key l) s = Some l).
Proof.
  intros H. unfold contents. rewrite in_flat_map. split.
  - intros ([k i] & Hin & Hl). simpl in Hl.
    pose proof (In_get _ _ _ (iS_nodup H) Hin) as Hg.
    destruct (iS_store H _ Hg) as (o & Ho & Hk & _). rewrite Ho in Hl.
    destruct Hl as [<-|[]]. unfold find_lsa, find_oid. rewrite Hk, Hg, Ho. reflexivity.
  - unfold find_lsa, find_oid. destruct (get (l_key l) (s_store s)) as [i|] eqn:Eg; [|discriminate].
    intros E. exists (l_key l, i). split; [now apply get_In|]. simpl.
    destruct (get i (s_heap s)); [|discriminate]. injection E as <-. now left.
Qed.

Lemma contents_keys ex s : invS ex s -> map l_key (contents s) = keys (s_store s).
Proof.
  intros H. unfold contents.
  assert (G : forall l, (forall k i, In (k, i) l -> get k (s_store s) = Some i) ->
    map l_key (flat_map (fun ki => match get (snd ki) (s_heap s) with Some o => [o_lsa o] | None => [] end) l)
    = map fst l).
  { induction l as [|[k i] l IH]; intros Hl; [reflexivity|]. cbn [flat_map map fst snd].
    destruct (iS_store H _ (Hl k i (or_introl eq_refl))) as (o & Ho & Hk & _). rewrite Ho.
    cbn [app map]. rewrite Hk. f_equal. apply IH. intros k' i' Hin. apply Hl. now right. }
  apply G. intros k i Hin. apply In_get; [exact (iS_nodup H)|exact Hin].
Qed.

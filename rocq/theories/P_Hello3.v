(** C74: hello Interests are sent, repeated and never forgotten; a neighbour whose face is gone is down. *)
From Verif Require Import Base M_Nexthop M_Tlv M_Codec M_Adj M_Lsa M_Lsdb M_Hello S_Hello S_Codec L_Codec L_Lsdb9 L_Hello P_Hello P_Hello2.
Set Implicit Arguments.
Open Scope N_scope.

(** Hello Interests of this name that were sent and have not been answered, lost or rejected. *)
Definition outstanding (s : hst) (p : name) : nat :=
  length (filter (fun x => eqb (snd x) p) (h_pend s ++ h_nack s)).
(** How many Interests of this name an event sends. *)
Definition sent (p : name) (os : list hout) : nat :=
  length (filter (fun o => match o with HExpress q => eqb q p | _ => false end) os).
(** Does the event end an Interest of this name?  It is answered by a Data under its name, answered by a
    Data that fails validation, it times out, or the time a Nack has to wait is over. *)
Definition ended (p : name) (s : hst) (e : hev) : nat :=
  match e with
  | HvData i d => if eqb (get i (h_pend s)) (Some p) && prefix_of p d then 1 else 0
  | HvInvalid i | HvTimeout i => if eqb (get i (h_pend s)) (Some p) then 1 else 0
  | HvNackTimer t => if eqb (get t (h_nack s)) (Some p) then 1 else 0
  | _ => 0
  end.

Record pinv (s : hst) : Prop := Pinv
  { pv_pend : NoDup (keys (h_pend s)); pv_pfresh : forall t, In t (keys (h_pend s)) -> (t < h_next s)%nat;
    pv_nack : NoDup (keys (h_nack s)); pv_nfresh : forall t, In t (keys (h_nack s)) -> (t < h_next s)%nat }.

Definition cnt (p : name) (m : amap nat name) : nat := length (filter (fun x => eqb (snd x) p) m).
Lemma outstanding_cnt s p : outstanding s p = (cnt p (h_pend s) + cnt p (h_nack s))%nat.
Proof. unfold outstanding, cnt. now rewrite filter_app, app_length. Qed.
Lemma sent_app p a b : sent p (a ++ b) = (sent p a + sent p b)%nat.
Proof. unfold sent. now rewrite filter_app, app_length. Qed.

Lemma set_fresh (m : amap nat name) k p q : (forall t, In t (keys m) -> (t < k)%nat) -> NoDup (keys m) ->
  NoDup (keys (set k p m)) /\ (forall t, In t (keys (set k p m)) -> (t < S k)%nat) /\
  cnt q (set k p m) = (cnt q m + if eqb p q then 1 else 0)%nat.
Proof.
  intros F N. assert (Hk : ~ In k (keys m)) by (intros H; specialize (F _ H); lia). rewrite (keys_set_new _ _ _ Hk).
  split; [|split].
  - unfold keys in *. rewrite map_app. apply NoDup_app_intro; [exact N|repeat constructor; intros []|]. intros x Hx [<-|[]]. contradiction.
  - intros t H. unfold keys in H. rewrite map_app in H. apply in_app_or in H. destruct H as [H|[<-|[]]]; [specialize (F _ H); lia|cbn; lia].
  - unfold cnt. rewrite filter_app, app_length. cbn [filter snd]. destruct (eqb p q); reflexivity.
Qed.

(** The Interests an act sends are the ones it adds. *)
Definition bal (s : hst) (r : hst * list hout) : Prop :=
  pinv s -> pinv (fst r) /\ forall p, outstanding (fst r) p = (outstanding s p + sent p (snd r))%nat.

Lemma bal_same s s' os : h_pend s' = h_pend s -> h_nack s' = h_nack s -> (h_next s <= h_next s')%nat -> (forall p, sent p os = O) -> bal s (s', os).
Proof.
  intros E1 E2 L H [P1 P2 P3 P4]. cbn [fst snd]. split.
  - constructor; rewrite ?E1, ?E2; trivial; intros t Ht; [specialize (P2 _ Ht)|specialize (P4 _ Ht)]; lia.
  - intros p. unfold outstanding. rewrite E1, E2, H. lia.
Qed.
Lemma bal_express i s : bal s (express i s).
Proof.
  intros [P1 P2 P3 P4]. unfold express. cbn [fst snd].
  split.
  - destruct (@set_fresh _ _ i i P2 P1) as (A & B & _). constructor; cbn [h_pend h_nack h_next hw_pend]; trivial.
    intros t Ht. specialize (P4 _ Ht). lia.
  - intros p. rewrite !outstanding_cnt. cbn [h_pend h_nack hw_pend]. destruct (@set_fresh _ _ i p P2 P1) as (_ & _ & ->).
    unfold sent. cbn [filter]. destruct (eqb i p); cbn [length]; lia.
Qed.
Lemma bal_seq (f g : hact) s : bal s (f s) -> (forall s, bal s (g s)) -> bal s ((f ;;; g) s).
Proof.
  intros F G P. unfold hseq. destruct (f s) as [s1 o1] eqn:E1. destruct (F P) as [P1 C1]. cbn [fst snd] in *.
  pose proof (G s1 P1) as G1. destruct (g s1) as [s2 o2]. cbn [fst snd] in *. destruct G1 as [P2 C2]. split; [exact P2|].
  intros p. rewrite C2, C1, sent_app. lia.
Qed.
Lemma bal_from s s1 r : h_pend s1 = h_pend s -> h_nack s1 = h_nack s -> h_next s1 = h_next s -> bal s1 r -> bal s r.
Proof.
  intros E1 E2 E3 B [P1 P2 P3 P4]. assert (P : pinv s1) by (constructor; rewrite ?E1, ?E2, ?E3; trivial). destruct (B P) as [A C].
  split; [exact A|]. intros p. rewrite C. unfold outstanding. now rewrite E1, E2.
Qed.
Lemma bal_emit o s : (forall p, sent p [o] = O) -> bal s (hemit o s).
Proof. intros H. now apply bal_same. Qed.

Section Bal.
Variable c : hconf.
Lemma bal_send n s : bal s (send_hello c n s).
Proof.
  unfold send_hello. destruct (adl_find n (h_adl s)) as [a|]; [|now apply bal_same]. apply bal_seq.
  - destruct (a_face a =? 0); [now apply bal_same|apply bal_express].
  - intros s'. apply bal_same; trivial. cbn. lia.
Qed.
Lemma bal_changed s : bal s (changed c s).
Proof. unfold changed. apply bal_emit. intros p. now destruct (eqb _ _). Qed.
Lemma bal_timed_out p s : bal s (timed_out c p s).
Proof.
  unfold timed_out. destruct (negb _); [now apply bal_same|]. destruct (_ <? hc_retry c).
  - eapply bal_from; [..|apply bal_express]; reflexivity.
  - destruct (eqb _ SActive); [|now apply bal_same]. eapply bal_from; [..|apply bal_changed]; reflexivity.
Qed.
Lemma bal_interest i s : bal s (process_interest c i s).
Proof.
  unfold process_interest. apply bal_seq; [now apply bal_emit|]. intros s'.
  destruct (negb _); [now apply bal_same|]. destruct (from_end 1 i) as [x|]; [|now apply bal_same].
  destruct (decode_neighbor _); [|now apply bal_same]. destruct (adl_find _ _); [|now apply bal_same].
  apply bal_seq; [now apply bal_emit|]. intros s2. apply bal_seq; [now apply bal_emit|]. intros s3.
  destruct (_ && _); [apply bal_express|now apply bal_same].
Qed.
Lemma bal_validated d s : bal s (content_validated c d s).
Proof.
  unfold content_validated. apply bal_seq; [|intros s'; now apply bal_emit].
  destruct (info_at 3 d); [|now apply bal_same]. destruct (eqb _ _); [now apply bal_same|].
  set (s1 := hw_adl _ s). assert (B : bal s1 ((changed c ;;; initial_data c (drop_end 4 d)) s1)).
  { apply bal_seq; [apply bal_changed|]. intros s2. unfold initial_data. destruct (adl_find _ _); now apply bal_same. }
  now apply (bal_from (s1 := s1)).
Qed.
Lemma sent_register a p : sent p (register_adj c a) = O.
Proof. reflexivity. Qed.
Lemma sent_faces fs a p : sent p (snd (match_faces c fs a)) = O.
Proof.
  revert a. induction fs as [|[f u] fs IH]; intros a; [reflexivity|]. cbn [match_faces]. destruct (_ && _); [|apply IH].
  specialize (IH (set_face f a)). destruct (match_faces c fs (set_face f a)). cbn [snd] in *. rewrite sent_app, IH. reflexivity.
Qed.
Lemma sent_all fs l p : sent p (snd (match_all c fs l)) = O.
Proof.
  induction l as [|a l IH]; [reflexivity|]. cbn [match_all]. pose proof (sent_faces fs a p) as A.
  destruct (match_faces c fs a), (match_all c fs l). cbn [snd] in *. rewrite sent_app. lia.
Qed.

Lemma pinv_pend i s : pinv s -> pinv (hw_pend (del i (h_pend s)) (h_next s) s).
Proof.
  intros [P1 P2 P3 P4]. constructor; cbn [h_pend h_nack h_next hw_pend]; trivial; [now apply NoDup_del|].
  intros x Hx. apply in_keys_del in Hx. now apply P2.
Qed.
Lemma pinv_nack i s : pinv s -> pinv (hw_nack (del i (h_nack s)) (h_next s) s).
Proof.
  intros [P1 P2 P3 P4]. constructor; cbn [h_pend h_nack h_next hw_nack]; trivial; [now apply NoDup_del|].
  intros x Hx. apply in_keys_del in Hx. now apply P4.
Qed.
Lemma out_pend i q s p : pinv s -> get i (h_pend s) = Some q ->
  outstanding s p = (outstanding (hw_pend (del i (h_pend s)) (h_next s) s) p + if eqb q p then 1 else 0)%nat.
Proof.
  intros [P1 _ _ _] E. rewrite !outstanding_cnt. cbn [h_pend h_nack hw_pend]. unfold cnt at 1. rewrite (@loops_filter_del i p _ q P1 E).
  unfold cnt. lia.
Qed.
Lemma out_nack i q s p : pinv s -> get i (h_nack s) = Some q ->
  outstanding s p = (outstanding (hw_nack (del i (h_nack s)) (h_next s) s) p + if eqb q p then 1 else 0)%nat.
Proof.
  intros [_ _ P3 _] E. rewrite !outstanding_cnt. cbn [h_pend h_nack hw_nack]. unfold cnt at 2. rewrite (@loops_filter_del i p _ q P3 E).
  unfold cnt. lia.
Qed.
Lemma eqb_some (q p : name) : eqb (Some q) (Some p) = eqb q p.
Proof.
  destruct (eqb q p) eqn:E.
  - apply (proj1 (eqb_eq _ _)) in E. subst. apply eqb_refl.
  - apply not_true_is_false. intros X. apply (proj1 (eqb_eq _ _)) in X. injection X as ->. now rewrite eqb_refl in E.
Qed.

Lemma hstep_bal s e : pinv s -> h_dead s = false -> pinv (fst (hstep c s e)) /\
  forall p, (outstanding (fst (hstep c s e)) p + ended p s e = outstanding s p + sent p (snd (hstep c s e)))%nat.
Proof.
  intros P D. assert (B : forall r, bal s r -> (forall p, ended p s e = O) -> pinv (fst r) /\
     forall p, (outstanding (fst r) p + ended p s e = outstanding s p + sent p (snd r))%nat).
  { intros r H E. destruct (H P) as [H1 H2]. split; [exact H1|]. intros p. rewrite H2, E. lia. }
  assert (Z : (forall p, ended p s e = O) -> pinv (fst (s, [] : list hout)) /\
     forall p, (outstanding s p + ended p s e = outstanding s p + sent p [])%nat).
  { intros E. split; [exact P|]. intros p. rewrite E. reflexivity. }
  unfold hstep. rewrite D. destruct e as [n|t|i d|i|i|t|i|iname|f|f u|fs| | |u f].
  - apply B; [apply bal_send|reflexivity].
  - destruct (get t (h_loop s)); [|now apply Z]. apply B; [|reflexivity].
    eapply bal_from; [..|apply bal_send]; reflexivity.
  - destruct (get i (h_pend s)) as [q|] eqn:E.
    2: { apply Z. intros p. cbn [ended]. now rewrite E. }
    destruct (prefix_of q d) eqn:Ep.
    2: { apply Z. intros p. cbn [ended]. rewrite E, eqb_some. eqb_case q p; [now rewrite Ep|reflexivity]. }
    destruct (@bal_validated d _ (pinv_pend i P)) as [H1 H2]. split; [exact H1|]. intros p. rewrite H2, (@out_pend i q s p P E).
    cbn [ended]. rewrite E, eqb_some. eqb_case q p; [rewrite Ep; cbn [andb]; lia|cbn [andb]; lia].
  - cbn [fst snd]. split; [now apply pinv_pend|]. intros p. cbn [ended]. destruct (get i (h_pend s)) as [q|] eqn:E.
    + rewrite (@out_pend i q s p P E), eqb_some. destruct (eqb q p); unfold sent; cbn; lia.
    + assert (X : h_pend (hw_pend (del i (h_pend s)) (h_next s) s) = h_pend s).
      { cbn [h_pend hw_pend]. apply del_notin. now apply get_None_keys. }
      unfold outstanding. rewrite X. cbn. lia.
  - destruct (get i (h_pend s)) as [q|] eqn:E; [|now apply Z]. cbv zeta. cbn [fst snd].
    pose proof (pinv_pend i P) as P1. set (s1 := hw_pend (del i (h_pend s)) (h_next s) s) in *.
    pose proof P1 as [A1 A2 A3 A4]. split.
    + destruct (@set_fresh _ _ q q A4 A3) as (X & Y & _). constructor; cbn [h_pend h_nack h_next hw_nack]; trivial.
      intros t Ht. specialize (A2 _ Ht). lia.
    + intros p. rewrite (@out_pend i q s p P E). fold s1. rewrite !outstanding_cnt. cbn [h_pend h_nack hw_nack ended].
      destruct (@set_fresh _ _ q p A4 A3) as (_ & _ & ->). unfold sent. cbn [filter length]. lia.
  - destruct (get t (h_nack s)) as [q|] eqn:E.
    2: { apply Z. intros p. cbn [ended]. now rewrite E. }
    destruct (@bal_timed_out q _ (pinv_nack t P)) as [H1 H2]. split; [exact H1|]. intros p. rewrite H2, (@out_nack t q s p P E).
    cbn [ended]. rewrite E, eqb_some. destruct (eqb q p); lia.
  - destruct (get i (h_pend s)) as [q|] eqn:E.
    2: { apply Z. intros p. cbn [ended]. now rewrite E. }
    destruct (@bal_timed_out q _ (pinv_pend i P)) as [H1 H2]. split; [exact H1|]. intros p. rewrite H2, (@out_pend i q s p P E).
    cbn [ended]. rewrite E, eqb_some. destruct (eqb q p); lia.
  - destruct (prefix_of _ iname); [|now apply Z]. apply B; [apply bal_interest|reflexivity].
  - apply B; [|reflexivity]. unfold face_destroyed. destruct (adl_find_face f (h_adl s)) as [x|]; [|now apply bal_same].
    destruct (eqb (a_status x) SActive); [|now apply bal_same].
    eapply bal_from; [..|apply bal_changed]; reflexivity.
  - apply B; [|reflexivity]. unfold face_created. destruct (adl_find_uri u (h_adl s)) as [x|]; [|now apply bal_same].
    destruct (_ || _); now apply bal_same.
  - apply B; [|reflexivity]. unfold face_dataset. pose proof (sent_all fs (h_adl s)) as X. destruct (match_all c fs (h_adl s)).
    now apply bal_same.
  - apply B; [|reflexivity]. destruct (h_ds s); [|now apply bal_same]. unfold dataset_failed. destruct (_ <? _); now apply bal_same.
  - apply B; [|reflexivity]. destruct (h_ds s); now apply bal_same.
  - apply B; [|reflexivity]. now apply bal_same.
Qed.

Lemma hstate_pinv l evs : pinv (hstate c l evs).
Proof.
  induction evs as [|e evs IH] using rev_ind.
  - constructor; cbn; try constructor; intros t [].
  - rewrite hstate_snoc. destruct (h_dead (hstate c l evs)) eqn:D; [now rewrite hstep_dead_const|]. now apply hstep_bal.
Qed.
End Bal.

(** C74 (bookkeeping): an event that sends a hello Interest adds it to the outstanding ones, and one leaves
    them only by being answered, rejected, timed out, or by the end of the wait that follows a Nack. *)
Theorem C74_outstanding c l evs e p : h_dead (hstate c l evs) = false ->
  (outstanding (hstate c l (evs ++ [e])) p + ended p (hstate c l evs) e =
   outstanding (hstate c l evs) p + sent p (snd (hstep c (hstate c l evs) e)))%nat.
Proof. intros D. rewrite hstate_snoc. apply hstep_bal; [apply hstate_pinv|exact D]. Qed.

(** C74 (period): when the scheduled hello to a neighbour runs, or its prefix has been registered, and its
    face is known, the hello Interest is sent. *)
Theorem C74_sent c l evs e n a : let s := hstate c l evs in h_dead s = false ->
  (e = HvRegistered n \/ exists t, e = HvLoop t /\ get t (h_loop s) = Some n) ->
  entry s n a -> a_face a <> 0 ->
  In (HExpress (hello_int (hc_self c) n)) (snd (hstep c s e)).
Proof.
  intros s D He [Ha <-] Hf. destruct (hstate_inv c l evs) as [I _]. fold s in I.
  assert (G : forall s0, h_adl s0 = h_adl s -> In (HExpress (hello_int (hc_self c) (a_name a))) (snd (send_hello c (a_name a) s0))).
  { intros s0 E. unfold send_hello. rewrite E, (adl_find_in (iv_nodup I) Ha eq_refl). apply N.eqb_neq in Hf. rewrite Hf.
    unfold hseq, express. cbn [snd app]. left. now rewrite hello_int_eq. }
  unfold hstep. rewrite D. destruct He as [->|(t & -> & E)]; [now apply G|]. rewrite E. now apply G.
Qed.

(** C74 (repetition): a lost hello Interest is sent again at once while the limit is not reached. *)
Theorem C74_resent c l evs e n a : let s := hstate c l evs in h_dead s = false -> hc_retry c < 2 ^ 32 ->
  is_loss c n s e = true -> entry s n a -> a_touts a + 1 < hc_retry c ->
  In (HExpress (hello_int (hc_self c) n)) (snd (hstep c s e)).
Proof.
  intros s D Hr Hl [Ha <-] Ht. destruct (hstate_inv c l evs) as [I _]. fold s in I.
  assert (G : forall s0, h_adl s0 = h_adl s -> In (HExpress (hello_int (hc_self c) (a_name a))) (snd (timed_out c (hello_int (hc_self c) (a_name a)) s0))).
  { intros s0 E. unfold timed_out. rewrite hello_int_eq, hello_info, hello_drop, E. cbn [negb].
    assert (F : adl_find (a_name a) (incr_touts (a_name a) (h_adl s)) = Some (set_touts ((a_touts a + 1) mod 2 ^ 32) a)).
    { unfold incr_touts. rewrite adl_find_upd by reflexivity. now rewrite eqb_refl, (adl_find_in (iv_nodup I) Ha eq_refl). }
    unfold get_touts. rewrite F. cbn [a_touts set_touts]. rewrite N.mod_small by lia. rewrite to_int32_mod by lia.
    assert (X : (a_touts a + 1 <? hc_retry c) = true) by now apply N.ltb_lt. rewrite X. now left. }
  unfold hstep. rewrite D. destruct e; try discriminate Hl; cbn [is_loss] in Hl; apply (proj1 (eqb_eq _ _)) in Hl; rewrite Hl; now apply G.
Qed.

(** C74 (face): when the face of an ACTIVE neighbour is destroyed, and it is the only neighbour on that
    face, it is INACTIVE at once, counted as having used up its retries, and the recomputation is asked
    for. *)
Theorem C74_face_lost c l evs f n a : let s := hstate c l evs in h_dead s = false ->
  entry s n a -> a_face a = f -> a_status a = SActive -> (forall b, In b (h_adl s) -> a_face b = f -> b = a) ->
  (exists b, entry (hstate c l (evs ++ [HvDestroyed f])) n b /\ a_status b = SInactive /\ a_touts b = hc_retry c /\ a_face b = 0) /\
  In (recompute c) (snd (hstep c s (HvDestroyed f))).
Proof.
  intros s D [Ha <-] Hf Hs Hu. rewrite hstate_snoc. fold s. unfold hstep. rewrite D. unfold face_destroyed.
  assert (F : adl_find_face f (h_adl s) = Some a).
  { revert Ha Hu. generalize (h_adl s). intros L. induction L as [|x L IH]; [intros []|]. intros Ha Hu. cbn [adl_find_face].
    destruct (eqb (a_face x) f) eqn:E.
    - apply (proj1 (eqb_eq _ _)) in E. f_equal. apply Hu; [now left|exact E].
    - destruct Ha as [->|Ha]; [rewrite Hf, eqb_refl in E; discriminate|]. apply IH; [exact Ha|]. intros b Hb. apply Hu. now right. }
  rewrite F, Hs, eqb_refl. rewrite changed_out. cbn [fst snd]. split; [|now left].
  exists (set_touts (hc_retry c) (set_status SInactive (set_face 0 a))). repeat split. cbn [h_adl hw_adl].
  clear F. revert Ha. generalize (h_adl s) Hu. intros L. induction L as [|x L IH]; [intros _ []|]. intros Hu' Ha. cbn [upd_first].
  destruct (eqb (a_face x) f) eqn:E.
  - apply (proj1 (eqb_eq _ _)) in E. left. now rewrite (Hu' x (or_introl eq_refl) E).
  - right. destruct Ha as [->|Ha]; [rewrite Hf, eqb_refl in E; discriminate|]. apply IH; [intros b Hb; apply Hu'; now right|exact Ha].
Qed.

(** In the example the hello to r2 is answered, a later one gets a Nack, is repeated, and is lost twice. *)
Example C74_example : let c := hcX HOff in let p := hello_int r1X r2X in
  outstanding (hstate c nbX (firstn 2 upX)) p = 1%nat /\ outstanding (hstate c nbX (firstn 3 upX)) p = 0%nat /\
  outstanding (hstate c nbX (firstn 5 upX)) p = 1%nat /\ h_nack (hstate c nbX (firstn 5 upX)) <> [] /\
  In (HExpress p) (snd (hstep c (hstate c nbX (firstn 5 upX)) (HvNackTimer 4))) /\
  get_status r2X (h_adl (hstate c nbX (firstn 3 upX ++ [HvDestroyed 300]))) = SInactive /\
  get_touts r2X (h_adl (hstate c nbX (firstn 3 upX ++ [HvDestroyed 300]))) = 3%Z.
Proof. cbv zeta. vm_compute. repeat split; try (left; reflexivity); discriminate. Qed.

Print Assumptions C74_outstanding.
Print Assumptions C74_sent.
Print Assumptions C74_resent.
Print Assumptions C74_face_lost.

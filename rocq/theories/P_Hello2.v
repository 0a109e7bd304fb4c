(** Hello loops (C20), faces (C57), dataset fetches (C58), malformed hellos (C63), the handshake (C64). *)
From Verif Require Import Base M_Nexthop M_Tlv M_Codec M_Adj M_Lsa M_Lsdb M_Hello S_Hello S_Codec L_Codec L_Lsdb9 L_Hello P_Hello.
Set Implicit Arguments.
Open Scope N_scope.

(** ** C20 *)

(** Scheduled hello transmissions to [n]. *)
Definition loops (s : hst) (n : name) : nat := length (filter (fun x => eqb (snd x) n) (h_loop s)).
(** Successful registrations of the prefix [n] in a history. *)
Definition registrations (n : name) (evs : list hev) : nat :=
  length (filter (fun e => match e with HvRegistered m => eqb m n | _ => false end) evs).

Record linv (s : hst) : Prop := Linv
  { lv_nodup : NoDup (keys (h_loop s)); lv_fresh : forall t, In t (keys (h_loop s)) -> (t < h_next s)%nat;
    lv_known : forall t n, get t (h_loop s) = Some n -> In n (map a_name (h_adl s)) }.

Definition same_loop (s s' : hst) : Prop := h_loop s' = h_loop s /\ (h_next s <= h_next s')%nat.

Lemma linv_same s s' : linv s -> same_loop s s' -> map a_name (h_adl s') = map a_name (h_adl s) -> linv s'.
Proof.
  intros [L1 L2 L3] [E1 E2] En. split; rewrite ?E1, ?En; auto. intros t Ht. specialize (L2 t Ht). lia.
Qed.

Lemma loops_filter_del t n (m : amap nat name) v : NoDup (keys m) -> get t m = Some v ->
  length (filter (fun x => eqb (snd x) n) m) =
  (length (filter (fun x => eqb (snd x) n) (del t m)) + if eqb v n then 1 else 0)%nat.
Proof.
  induction m as [|[k w] m IH]; [discriminate|]. cbn [keys map fst get del]. intros Hn Hg.
  apply NoDup_cons_iff in Hn. destruct Hn as [Hn1 Hn2]. destruct (eqb t k) eqn:E.
  - injection Hg as ->. apply (proj1 (eqb_eq _ _)) in E. subst k. rewrite del_notin by exact Hn1. cbn [filter snd].
    destruct (eqb v n); cbn [length]; lia.
  - cbn [filter snd]. specialize (IH Hn2 Hg). destruct (eqb w n); cbn [length]; lia.
Qed.

Section C20.
Variable c : hconf.

Lemma send_hello_loops n s : linv s -> linv (fst (send_hello c n s)) /\ forall m,
  loops (fst (send_hello c n s)) m = (loops s m + if is_neighbor n (h_adl s) && eqb n m then 1 else 0)%nat.
Proof.
  intros [L1 L2 L3]. unfold send_hello, is_neighbor. destruct (adl_find n (h_adl s)) as [a|] eqn:Ea.
  2:{ cbn [fst andb]. split; [now split|]. intros m. lia. }
  assert (X : exists k, (h_next s <= k)%nat /\ h_loop (fst (((if a_face a =? 0 then hret else express (hello_name c (a_name a))) ;;;
       (fun s => (hw_loop (set (h_next s) n (h_loop s)) (S (h_next s)) s, []))) s)) = h_loop s ++ [(k, n)] /\
     h_next (fst (((if a_face a =? 0 then hret else express (hello_name c (a_name a))) ;;;
       (fun s => (hw_loop (set (h_next s) n (h_loop s)) (S (h_next s)) s, []))) s)) = S k /\
     h_adl (fst (((if a_face a =? 0 then hret else express (hello_name c (a_name a))) ;;;
       (fun s => (hw_loop (set (h_next s) n (h_loop s)) (S (h_next s)) s, []))) s)) = h_adl s).
  { destruct (a_face a =? 0); unfold hseq, hret, express; cbn [fst h_loop h_next h_adl hw_loop hw_pend].
    - exists (h_next s). rewrite keys_set_new; [repeat split; lia|]. intros H. specialize (L2 _ H). lia.
    - exists (S (h_next s)). rewrite keys_set_new; [repeat split; lia|]. intros H. specialize (L2 _ H). lia. }
  destruct X as (k & Hk & X1 & X2 & X3). cbn [andb]. split.
  - split; rewrite X1, ?X2, ?X3; unfold keys; rewrite ?map_app.
    + apply NoDup_app_intro; [exact L1|repeat constructor; intros []|]. intros x Hx [<- |[]]. specialize (L2 _ Hx). cbn [fst] in L2. lia.
    + intros t Ht. apply in_app_iff in Ht. destruct Ht as [Ht|[<- |[]]]; [specialize (L2 t Ht); lia|cbn [fst]; lia].
    + intros t v. destruct (Nat.eq_dec t k) as [-> |Hne].
      * intros G. apply get_In in G. apply in_app_iff in G. destruct G as [G|[G|[]]].
        -- exfalso. specialize (L2 k). assert (In k (keys (h_loop s))) by (apply (in_map fst) in G; exact G). specialize (L2 H). lia.
        -- injection G as <-. apply adl_find_some in Ea. destruct Ea as [Ea <-]. now apply in_map.
      * intros G. apply (L3 t). rewrite <- (get_set_ne (k := k) (k' := t) n (h_loop s) Hne). rewrite keys_set_new; [exact G|].
        intros H. specialize (L2 _ H). lia.
  - intros m. unfold loops. rewrite X1, filter_app, app_length. cbn [filter snd]. now destruct (eqb n m).
Qed.

Lemma timed_out_same p s : same_loop s (fst (timed_out c p s)).
Proof.
  split; [apply timed_out_rest|]. unfold timed_out. destruct (negb (info_at 2 p)); [cbn; lia|].
  destruct (_ <? hc_retry c); [cbn; lia|]. destruct (eqb _ SActive); cbn; lia.
Qed.
Lemma process_interest_same p s : same_loop s (fst (process_interest c p s)).
Proof.
  split; [apply process_interest_adl|]. unfold process_interest, hseq, hemit. destruct (negb (info_at 2 p)); [cbn; lia|].
  destruct (from_end 1 p) as [x|]; [|cbn; lia]. destruct (decode_neighbor (cval x)) as [m|]; [|cbn; lia].
  destruct (adl_find m (h_adl s)) as [a|]; [|cbn; lia]. destruct (_ && _); cbn; lia.
Qed.

(** Number of loops after an event. *)
Lemma hstep_loops s e : hinv c s -> linv s -> h_dead s = false ->
  linv (fst (hstep c s e)) /\ forall m, In m (map a_name (h_adl s)) ->
  loops (fst (hstep c s e)) m = (loops s m + match e with HvRegistered n => if eqb n m then 1 else 0 | _ => 0 end)%nat.
Proof.
  intros I L Hd.
  assert (Sm : forall s', same_loop s s' -> map stat (h_adl s') = map stat (h_adl s) ->
     linv s' /\ forall m, In m (map a_name (h_adl s)) -> loops s' m = (loops s m + 0)%nat).
  { intros s' H E. split; [apply (linv_same L H); now apply names_of_stat|]. intros m _. unfold loops. destruct H as [-> _]. lia. }
  pose proof (proj1 (hstep_inv e I)) as Est. revert Est. unfold hstep. rewrite Hd.
  destruct e as [n|t|i d|i|i|t|i|iname|f|f u|fs| | |u f]; intros Est.
  - destruct (send_hello_loops n L) as [A B]. split; [exact A|]. intros m Hm. rewrite B.
    eqb_case n m; [|now rewrite andb_false_r]. rewrite andb_true_r. unfold is_neighbor.
    destruct (adl_find m (h_adl s)) eqn:Ea; [reflexivity|]. apply adl_find_none in Ea. contradiction.
  - destruct (get t (h_loop s)) as [n|] eqn:Eg; [|apply Sm; [now split|reflexivity]].
    set (s0 := hw_loop (del t (h_loop s)) (h_next s) s).
    assert (L0 : linv s0).
    { destruct L as [L1 L2 L3]. split; cbn [s0 hw_loop h_loop h_next h_adl].
      - now apply NoDup_del.
      - intros x Hx. apply in_keys_del in Hx. now apply L2.
      - intros x v Hx. apply get_del_some in Hx. now apply (L3 x). }
    destruct (send_hello_loops n L0) as [A B]. split; [exact A|]. intros m Hm. rewrite B.
    change (h_adl s0) with (h_adl s). unfold loops at 1. cbn [s0 hw_loop h_loop].
    unfold loops. rewrite (@loops_filter_del t m (h_loop s) n (lv_nodup L) Eg).
    assert (Hnb : is_neighbor n (h_adl s) = true).
    { unfold is_neighbor. destruct (adl_find n (h_adl s)) eqn:Ea; [reflexivity|]. apply adl_find_none in Ea.
      exfalso. apply Ea. exact (lv_known L t Eg). }
    rewrite Hnb. cbn [andb]. destruct (eqb n m); lia.
  - destruct (get i (h_pend s)) as [p|]; [|apply Sm; [now split|reflexivity]].
    destruct (prefix_of p d); [|apply Sm; [now split|reflexivity]].
    apply Sm; [|exact Est]. set (s0 := hw_pend (del i (h_pend s)) (h_next s) s).
    rewrite (@validated_adl c d s0 (iv_nodup I)). destruct (info_at 3 d); split; cbn; lia || reflexivity.
  - apply Sm; [split; cbn; lia || reflexivity|exact Est].
  - destruct (get i (h_pend s)); (apply Sm; [split; cbn; lia || reflexivity|exact Est]).
  - destruct (get t (h_nack s)) as [p|]; [|apply Sm; [now split|reflexivity]]. apply Sm; [|exact Est].
    exact (timed_out_same p (hw_nack (del t (h_nack s)) (h_next s) s)).
  - destruct (get i (h_pend s)) as [p|]; [|apply Sm; [now split|reflexivity]]. apply Sm; [|exact Est].
    exact (timed_out_same p (hw_pend (del i (h_pend s)) (h_next s) s)).
  - destruct (prefix_of _ iname); [|apply Sm; [now split|reflexivity]]. apply Sm; [apply process_interest_same|exact Est].
  - apply Sm; [|exact Est]. unfold face_destroyed. destruct (adl_find_face f (h_adl s)) as [x|]; [|now split].
    destruct (eqb (a_status x) SActive); now split.
  - apply Sm; [|exact Est]. unfold face_created. destruct (adl_find_uri u (h_adl s)) as [x|]; [|now split].
    destruct (_ || _); now split.
  - apply Sm; [|exact Est]. unfold face_dataset. destruct (match_all c fs (h_adl s)). now split.
  - apply Sm; [|exact Est]. destruct (h_ds s); [|now split]. unfold dataset_failed. destruct (_ <? _); now split.
  - apply Sm; [|exact Est]. destruct (h_ds s); now split.
  - apply Sm; [now split|exact Est].
Qed.

Lemma dead_before l evs e : h_dead (hstate c l (evs ++ [e])) = false -> h_dead (hstate c l evs) = false.
Proof.
  rewrite hstate_snoc. destruct (h_dead (hstate c l evs)) eqn:E; [|reflexivity].
  rewrite hstep_dead_const by exact E. congruence.
Qed.

Lemma registrations_snoc n evs e : registrations n (evs ++ [e]) =
  (registrations n evs + match e with HvRegistered m => if eqb m n then 1 else 0 | _ => 0 end)%nat.
Proof.
  unfold registrations. rewrite filter_app, app_length. f_equal. cbn [filter]. destruct e; try reflexivity.
  now destruct (eqb n0 n).
Qed.
End C20.

(** C20 (what holds): the number of pending periodic transmissions to a neighbour is the number of times
    its prefix was registered: none is ever lost, and there is one as long as it was registered once. *)
Theorem C20_count c l evs n : h_dead (hstate c l evs) = false -> known (hstate c l evs) n ->
  loops (hstate c l evs) n = registrations n evs.
Proof.
  intros Hd Hk.
  assert (G : linv (hstate c l evs) /\ loops (hstate c l evs) n = registrations n evs); [|apply G].
  assert (Hn : In n (map a_name (h_adl (fst (hinit c l))))).
  { destruct Hk as (a & Ha & <-). destruct (hstate_inv c l evs) as [_ E]. apply names_of_stat in E. rewrite <- E. now apply in_map. }
  clear Hk. induction evs as [|e evs IH] using rev_ind.
  - split; [|reflexivity]. split; cbn; [constructor|intros t []|discriminate].
  - specialize (IH (dead_before c l evs e Hd)). destruct IH as [L E]. rewrite hstate_snoc, registrations_snoc.
    destruct (hstate_inv c l evs) as [I Es]. apply names_of_stat in Es.
    destruct (hstep_loops e I L (dead_before c l evs e Hd)) as [L' E']. split; [exact L'|]. rewrite <- Es in Hn.
    rewrite (E' n Hn), E. reflexivity.
Qed.

(** C20 (partial): at most one periodic transmission while the prefix was registered at most once. *)
Theorem C20_one_partial c l evs n : h_dead (hstate c l evs) = false -> known (hstate c l evs) n ->
  (registrations n evs <= 1)%nat -> (loops (hstate c l evs) n <= 1)%nat.
Proof. intros Hd Hk H. now rewrite C20_count. Qed.

(** C20 fails: when a neighbour's face is destroyed and created again its prefix is registered a second
    time, and from then on two transmissions per interval are pending. *)
Theorem C20_refuted : exists c l evs n,
  truthful [] evs /\ known (hstate c l evs) n /\ h_dead (hstate c l evs) = false /\
  (forall i, nth_error evs i = Some (HvRegistered n) -> exists o u z, nth_error evs (i - 1) = Some o /\
     In (HRegister n u z) (snd (hstep c (hstate c l (firstn (i - 1) evs)) o))) /\
  loops (hstate c l evs) n = 2%nat.
Proof.
  exists (hcX HOff), nbX, [HvCreated 300 u2X; HvRegistered r2X; HvDestroyed 300; HvCreated 301 u2X; HvRegistered r2X], r2X.
  split; [cbn; repeat split; try lia; try (intros []); auto|].
  split; [exists (Adj r2X u2X (of_int 10) SInactive 0 301); split; [vm_compute; left; reflexivity|reflexivity]|].
  split; [vm_compute; reflexivity|]. split; [|vm_compute; reflexivity].
  intros [|[|[|[|[|[|i]]]]]]; cbn [nth_error Nat.sub]; intros H; try discriminate H.
  - exists (HvCreated 300 u2X), u2X, (of_int 10). split; [reflexivity|]. vm_compute. left. reflexivity.
  - exists (HvCreated 301 u2X), u2X, (of_int 10). split; [reflexivity|]. vm_compute. left. reflexivity.
Qed.

(** ** C57 *)

Definition uris (s : hst) : list uri := map a_uri (h_adl s).
Definition good_faces (fs : list (N * uri)) : Prop := NoDup (map fst fs) /\ ~ In 0 (map fst fs).

Lemma truthful_snoc fs evs e : truthful fs (evs ++ [e]) <-> truthful fs evs /\ truthful1 (faces fs evs) e.
Proof.
  revert fs. induction evs as [|x evs IH]; intros fs; cbn [app truthful].
  - cbn. tauto.
  - rewrite IH. unfold faces. cbn [fold_left]. tauto.
Qed.
Lemma faces_snoc fs evs e : faces fs (evs ++ [e]) = faces_after (faces fs evs) e.
Proof. unfold faces. now rewrite fold_left_app. Qed.

Lemma good_after fs e : good_faces fs -> truthful1 fs e -> good_faces (faces_after fs e).
Proof.
  intros [G1 G2] T. destruct e; cbn [faces_after truthful1] in *; try (split; assumption).
  - assert (X : forall x, In x (map fst (filter (fun x => negb (fst x =? f)) fs)) -> In x (map fst fs)).
    { intros x Hx. apply in_map_iff in Hx. destruct Hx as (y & <- & Hy). apply filter_In in Hy. apply in_map, Hy. }
    split; [|intros H; apply G2, X, H]. clear G2 T X.
    induction fs as [|x fs IH]; cbn [filter map]; [constructor|]. cbn [map] in G1. apply NoDup_cons_iff in G1.
    destruct (negb (fst x =? f)); cbn [map]; [|now apply IH]. constructor; [|now apply IH].
    intros H. apply G1. apply in_map_iff in H. destruct H as (y & <- & Hy). apply filter_In in Hy. apply in_map, Hy.
  - destruct T as [T1 T2]. split; cbn [map fst]; [now constructor|]. intros [H|H]; [congruence|contradiction].
Qed.

Lemma good_all fs evs : good_faces fs -> truthful fs evs -> good_faces (faces fs evs).
Proof.
  intros G. induction evs as [|e evs IH] using rev_ind; intros T; [exact G|].
  rewrite truthful_snoc in T. destruct T as [T1 T2]. rewrite faces_snoc. now apply good_after; [apply IH|].
Qed.

Lemma nodup_in {A B} (f : A -> B) l x y : NoDup (map f l) -> In x l -> In y l -> f x = f y -> x = y.
Proof.
  induction l as [|z l IH]; [intros _ []|]. cbn [map]. intros Hn Hx Hy E. apply NoDup_cons_iff in Hn. destruct Hn as [H1 H2].
  destruct Hx as [-> |Hx], Hy as [-> |Hy]; auto.
  - exfalso. apply H1. rewrite E. now apply in_map.
  - exfalso. apply H1. rewrite <- E. now apply in_map.
Qed.

Lemma listed_in u d : listed u d <> 0 -> In (listed u d, u) d.
Proof.
  induction d as [|[f v] d IH]; cbn [listed]; [congruence|]. destruct (eqb v u) eqn:E.
  - intros _. apply (proj1 (eqb_eq _ _)) in E. subst v. now left.
  - intros H. right. now apply IH.
Qed.
Lemma listed_zero u d f : ~ In 0 (map fst d) -> listed u d = 0 -> ~ In (f, u) d.
Proof.
  induction d as [|[g v] d IH]; cbn [listed map]; [intros _ _ []|]. intros H0 Hl. destruct (eqb v u) eqn:E.
  - exfalso. apply H0. left. exact Hl.
  - apply (proj1 (eqb_neq _ _)) in E. intros [H|H]; [injection H as _ H; contradiction|]. revert H. apply IH; auto.
    intros H. apply H0. now right.
Qed.

Lemma match_faces_listed c d a : ~ In 0 (map fst d) ->
  fst (match_faces c d a) = if a_face a =? 0 then set_face (listed (a_uri a) d) a else a.
Proof.
  revert a. induction d as [|[f v] d IH]; intros a H0; cbn [match_faces listed].
  - destruct (a_face a =? 0) eqn:E; [|reflexivity]. apply N.eqb_eq in E. destruct a; cbn in *. now subst.
  - assert (Hf : f <> 0) by (intros ->; apply H0; now left). assert (H0' : ~ In 0 (map fst d)) by (intros H; apply H0; now right).
    rewrite (eqb_sym v (a_uri a)). destruct (a_face a =? 0) eqn:E; cbn [andb].
    + destruct (eqb (a_uri a) v).
      * pose proof (IH (set_face f a) H0') as Q. destruct (match_faces c d (set_face f a)) as [a' o]. cbn [fst] in *.
        rewrite Q. cbn [set_face a_face]. apply N.eqb_neq in Hf. now rewrite Hf.
      * rewrite (IH a H0'), E. reflexivity.
    + rewrite (IH a H0'), E. reflexivity.
Qed.

Lemma find_uri_spec u l : match adl_find_uri u l with
  | Some a => In a l /\ a_uri a = u | None => ~ In u (map a_uri l) end.
Proof.
  induction l as [|x l IH]; cbn [adl_find_uri map]; [intros []|]. destruct (eqb (a_uri x) u) eqn:E.
  - apply (proj1 (eqb_eq _ _)) in E. split; [now left|exact E].
  - apply (proj1 (eqb_neq _ _)) in E. destruct (adl_find_uri u l); [|intros [H|H]; contradiction].
    destruct IH. split; [now right|assumption].
Qed.
Lemma find_face_spec f l : match adl_find_face f l with
  | Some a => In a l /\ a_face a = f | None => ~ In f (map a_face l) end.
Proof.
  induction l as [|x l IH]; cbn [adl_find_face map]; [intros []|]. destruct (eqb (a_face x) f) eqn:E.
  - apply (proj1 (eqb_eq _ _)) in E. split; [now left|exact E].
  - apply (proj1 (eqb_neq _ _)) in E. destruct (adl_find_face f l); [|intros [H|H]; contradiction].
    destruct IH. split; [now right|assumption].
Qed.

Section C57.
Variables (c : hconf) (l : list (name * uri * Z)).

(** Which faces the neighbours have after an event. *)
Lemma hstep_face fs s e a b : good_faces fs -> truthful1 fs e -> hinv c s -> h_dead s = false -> NoDup (uris s) ->
  (forall x, In x (h_adl s) -> a_face x <> 0 -> In (a_face x, a_uri x) fs) ->
  In a (h_adl s) -> In b (h_adl (fst (hstep c s e))) -> stat b = stat a ->
  a_face b = use_face (a_uri a) (a_face a) e.
Proof.
  intros G T I Hd Hu Hl Ha Hb Est.
  assert (Keep : forall s', h_adl s' = h_adl s -> In b (h_adl s') -> a_face b = a_face a).
  { intros s' E H. rewrite E in H. f_equal. apply (nodup_name (iv_nodup I) H Ha). unfold stat in Est. congruence. }
  assert (Mp : forall g, (forall x, stat (g x) = stat x) -> In b (map g (h_adl s)) -> b = g a).
  { intros g Hg H. apply in_map_iff in H. destruct H as (x & <- & Hx). f_equal.
    apply (nodup_name (iv_nodup I) Hx Ha). specialize (Hg x). unfold stat in *. congruence. }
  revert Hb. unfold hstep. rewrite Hd. destruct e as [n|t|i d|i|i|t|i|iname|f|f u|d| | |u f]; cbn [use_face].
  - apply Keep, send_hello_adl.
  - destruct (get t (h_loop s)) as [n|]; [|now apply Keep]. apply Keep. now rewrite (proj1 (send_hello_adl c n _)).
  - destruct (get i (h_pend s)) as [p|]; [|now apply Keep]. destruct (prefix_of p d); [|now apply Keep].
    rewrite validated_adl by apply I. destruct (info_at 3 d); [|now apply Keep]. intros H.
    apply (Mp (on_reply (drop_end 4 d))) in H; [|apply on_reply_stat]. subst b. unfold on_reply. now destruct (eqb _ _).
  - now apply Keep.
  - destruct (get i (h_pend s)); now apply Keep.
  - destruct (get t (h_nack s)) as [p|] eqn:Ep; [|now apply Keep].
    destruct (iv_pend I t _ (or_intror Ep)) as (n & Hn & ->). rewrite timed_out_adl; [|apply I|exact Hn]. intros H.
    apply (Mp (on_loss c n)) in H; [|apply on_loss_stat]. subst b. unfold on_loss. destruct (eqb _ _); [|reflexivity]. cbv zeta.
    now destruct (_ || _).
  - destruct (get i (h_pend s)) as [p|] eqn:Ep; [|now apply Keep].
    destruct (iv_pend I i _ (or_introl Ep)) as (n & Hn & ->). rewrite timed_out_adl; [|apply I|exact Hn]. intros H.
    apply (Mp (on_loss c n)) in H; [|apply on_loss_stat]. subst b. unfold on_loss. destruct (eqb _ _); [|reflexivity]. cbv zeta.
    now destruct (_ || _).
  - destruct (prefix_of _ iname); [|now apply Keep]. apply Keep, process_interest_adl.
  - (* destroyed *)
    cbn [truthful1] in T. assert (Hf : f <> 0) by (intros ->; now apply (proj2 G)).
    assert (Huniq : forall x, In x (h_adl s) -> a_face x = f -> forall y, In y (h_adl s) -> a_face y = f -> x = y).
    { intros x Hx Ex y Hy Ey. apply (@nodup_in _ _ a_uri (h_adl s)); auto.
      assert (X1 : In (f, a_uri x) fs) by (rewrite <- Ex; apply Hl; [exact Hx|congruence]).
      assert (X2 : In (f, a_uri y) fs) by (rewrite <- Ey; apply Hl; [exact Hy|congruence]).
      pose proof (@nodup_in _ _ fst fs _ _ (proj1 G) X1 X2 eq_refl) as E. congruence. }
    assert (Upd : forall g, (forall x, stat (g x) = stat x) -> (forall x, a_face (g x) = 0) ->
       In b (upd_first (fun x => eqb (a_face x) f) g (h_adl s)) -> a_face b = if f =? a_face a then 0 else a_face a).
    { intros g Hg Hg0 H. destruct (upd_first_split (fun x => eqb (a_face x) f) g (h_adl s)) as [[E Hno]|(l1 & x & l2 & El & Hx & _ & E)].
      - rewrite E in H. assert (b = a) by (apply (nodup_name (iv_nodup I) H Ha); unfold stat in Est; congruence). subst b.
        specialize (Hno a Ha). cbn in Hno. apply (proj1 (eqb_neq _ _)) in Hno.
        assert (Q : (f =? a_face a) = false) by (apply N.eqb_neq; congruence). now rewrite Q.
      - rewrite E in H. apply (proj1 (eqb_eq _ _)) in Hx. assert (Hxin : In x (h_adl s)) by (rewrite El; apply in_elt).
        destruct (f =? a_face a) eqn:Q.
        + apply N.eqb_eq in Q. assert (x = a) by (apply Huniq; auto). subst x.
          assert (b = g a).
          { assert (Nd : NoDup (map a_name (l1 ++ g a :: l2))).
            { pose proof (iv_nodup I) as Nd. rewrite El in Nd. rewrite map_app in *. cbn [map] in *.
              specialize (Hg a). unfold stat in Hg. replace (a_name (g a)) with (a_name a) by congruence. exact Nd. }
            apply (nodup_name Nd H (in_elt _ _ _)). specialize (Hg a). unfold stat in *. congruence. }
          subst b. apply Hg0.
        + apply N.eqb_neq in Q. apply in_app_iff in H. destruct H as [H|[H|H]].
          * f_equal. apply (nodup_name (iv_nodup I)); [rewrite El; apply in_app_iff; now left|exact Ha|unfold stat in Est; congruence].
          * exfalso. subst b. apply Q. assert (x = a); [|congruence]. apply (nodup_name (iv_nodup I) Hxin Ha).
            specialize (Hg x). unfold stat in *. congruence.
          * f_equal. apply (nodup_name (iv_nodup I)); [rewrite El; apply in_app_iff; right; now right|exact Ha|unfold stat in Est; congruence]. }
    unfold face_destroyed. pose proof (find_face_spec f (h_adl s)) as Fs. destruct (adl_find_face f (h_adl s)) as [x|].
    + destruct (eqb (a_status x) SActive); [rewrite changed_out|]; cbn [fst h_adl hw_adl]; apply Upd; reflexivity.
    + cbn [fst]. intros H. assert (Q : (f =? a_face a) = false).
      { apply N.eqb_neq. intros ->. apply Fs. now apply in_map. }
      rewrite Q. now apply (Keep s).
  - (* created *)
    cbn [truthful1] in T. destruct T as [T1 T2]. unfold face_created. pose proof (find_uri_spec u (h_adl s)) as Fs.
    destruct (adl_find_uri u (h_adl s)) as [x|].
    + destruct Fs as [Hx Ex]. assert (Hne : a_face x <> f).
      { intros E. apply T2. assert (Hin : In (a_face x, a_uri x) fs) by (apply Hl; [exact Hx|congruence]). rewrite E in Hin.
        apply (in_map fst) in Hin. exact Hin. }
      apply N.eqb_neq in Hne. rewrite Hne. cbn [negb]. rewrite orb_true_r. cbn [fst h_adl hw_adl]. intros H.
      destruct (upd_first_split (fun z => eqb (a_uri z) u) (set_face f) (h_adl s)) as [[_ Hno]|(l1 & y & l2 & El & Hy & _ & E)].
      * exfalso. specialize (Hno x Hx). cbn in Hno. rewrite Ex, eqb_refl in Hno. discriminate.
      * rewrite E in H. apply (proj1 (eqb_eq _ _)) in Hy. assert (Hyin : In y (h_adl s)) by (rewrite El; apply in_elt).
        rewrite (eqb_sym u (a_uri a)). destruct (eqb (a_uri a) u) eqn:Q.
        -- apply (proj1 (eqb_eq _ _)) in Q. assert (y = a) by (apply (@nodup_in _ _ a_uri (h_adl s)); auto; congruence). subst y.
           assert (b = set_face f a); [|subst b; reflexivity].
           assert (Nd : NoDup (map a_name (l1 ++ set_face f a :: l2))).
           { pose proof (iv_nodup I) as Nd. rewrite El in Nd. rewrite map_app in *. exact Nd. }
           apply (nodup_name Nd H (in_elt _ _ _)). unfold stat in Est. cbn. congruence.
        -- apply (proj1 (eqb_neq _ _)) in Q. apply in_app_iff in H. destruct H as [H|[H|H]].
           ++ f_equal. apply (nodup_name (iv_nodup I)); [rewrite El; apply in_app_iff; now left|exact Ha|unfold stat in Est; congruence].
           ++ exfalso. subst b. apply Q. rewrite <- Hy. unfold stat in Est. cbn in Est. congruence.
           ++ f_equal. apply (nodup_name (iv_nodup I)); [rewrite El; apply in_app_iff; right; now right|exact Ha|unfold stat in Est; congruence].
    + intros H. assert (Q : eqb u (a_uri a) = false).
      { apply eqb_neq. intros ->. apply Fs. now apply in_map. }
      rewrite Q. now apply (Keep s).
  - (* dataset *)
    cbn [truthful1] in T. unfold face_dataset. pose proof (match_all_adl c d (h_adl s)) as E.
    destruct (match_all c d (h_adl s)) as [q o]. cbn [fst] in *. subst q. cbn [h_adl hw_ds hw_adl]. intros H.
    apply (Mp (fun a => fst (match_faces c d a))) in H; [|intros x; apply match_faces_stat]. subst b.
    rewrite match_faces_listed.
    + now destruct (a_face a =? 0).
    + intros H. apply (proj2 G). apply in_map_iff in H. destruct H as (y & Hy & H). apply T in H. rewrite <- Hy. now apply in_map.
  - destruct (h_ds s); [|now apply Keep]. unfold dataset_failed. destruct (_ <? _); now apply Keep.
  - destruct (h_ds s); now apply Keep.
  - (* confirmed by a registration *)
    cbn [fst h_adl hw_adl]. intros H.
    destruct (upd_first_split (fun z => eqb (a_uri z) u) (set_face f) (h_adl s)) as [[E Hno]|(l1 & y & l2 & El & Hy & _ & E)]; rewrite E in H.
    + specialize (Hno a Ha). cbn in Hno. rewrite (eqb_sym u (a_uri a)), Hno. now apply (Keep s).
    + apply (proj1 (eqb_eq _ _)) in Hy. assert (Hyin : In y (h_adl s)) by (rewrite El; apply in_elt).
      rewrite (eqb_sym u (a_uri a)). destruct (eqb (a_uri a) u) eqn:Q.
      * apply (proj1 (eqb_eq _ _)) in Q. assert (y = a) by (apply (@nodup_in _ _ a_uri (h_adl s)); auto; congruence). subst y.
        assert (b = set_face f a); [|subst b; reflexivity].
        assert (Nd : NoDup (map a_name (l1 ++ set_face f a :: l2))).
        { pose proof (iv_nodup I) as Nd. rewrite El in Nd. rewrite map_app in *. exact Nd. }
        apply (nodup_name Nd H (in_elt _ _ _)). unfold stat in Est. cbn. congruence.
      * apply (proj1 (eqb_neq _ _)) in Q. apply in_app_iff in H. destruct H as [H|[H|H]].
        -- f_equal. apply (nodup_name (iv_nodup I)); [rewrite El; apply in_app_iff; now left|exact Ha|unfold stat in Est; congruence].
        -- exfalso. subst b. apply Q. rewrite <- Hy. unfold stat in Est. cbn in Est. congruence.
        -- f_equal. apply (nodup_name (iv_nodup I)); [rewrite El; apply in_app_iff; right; now right|exact Ha|unfold stat in Est; congruence].
Qed.

Lemma C57_both fs evs : good_faces fs -> truthful fs evs -> NoDup (uris (fst (hinit c l))) ->
  h_dead (hstate c l evs) = false -> forall a, In a (h_adl (hstate c l evs)) ->
  a_face a = fold_left (use_face (a_uri a)) evs 0 /\ (a_face a <> 0 -> In (a_face a, a_uri a) (faces fs evs)).
Proof.
  intros G T Hu. assert (Hu' : forall q, NoDup (uris (hstate c l q))).
  { intros q. destruct (hstate_inv c l q) as [_ E]. unfold uris.
    assert (X : forall m, map a_uri m = map (fun x => snd (fst x)) (map stat m)) by (intros m; rewrite map_map; reflexivity).
    rewrite X, E, <- X. exact Hu. }
  induction evs as [|e evs IH] using rev_ind; intros Hd a Ha.
  - destruct (proj2 (hinit_inv c l) a Ha) as (_ & _ & E). rewrite E. split; [reflexivity|congruence].
  - rewrite truthful_snoc in T. destruct T as [T1 T2]. pose proof (dead_before c l evs e Hd) as Hd0.
    specialize (IH T1 Hd0). rewrite hstate_snoc in Ha. destruct (hstate_inv c l evs) as [I _].
    assert (Hb : exists b, In b (h_adl (hstate c l evs)) /\ stat a = stat b).
    { destruct (hstep_inv e I) as [E _]. apply (in_map stat) in Ha. rewrite E in Ha. apply in_map_iff in Ha.
      destruct Ha as (b & Hb & Hb'). now exists b. }
    destruct Hb as (b & Hb & Est). destruct (IH b Hb) as [F1 F2]. pose proof (good_all evs G T1) as G1.
    assert (Hl : forall x, In x (h_adl (hstate c l evs)) -> a_face x <> 0 -> In (a_face x, a_uri x) (faces fs evs))
      by (intros x Hx; apply IH, Hx).
    pose proof (@hstep_face (faces fs evs) (hstate c l evs) e b a G1 T2 I Hd0 (Hu' evs) Hl Hb Ha Est) as F.
    assert (Eu : a_uri a = a_uri b) by (unfold stat in Est; congruence).
    rewrite fold_left_app, Eu, <- F1. split; [exact F|]. rewrite F, faces_snoc. destruct e; cbn [use_face faces_after] in *; auto.
    + destruct (f =? a_face b) eqn:E; [congruence|]. intros H. apply filter_In. split; [now apply F2|]. cbn [fst].
      apply N.eqb_neq in E. apply negb_true_iff, N.eqb_neq. congruence.
    + destruct (eqb u (a_uri b)) eqn:E; [|intros H; right; now apply F2]. intros _. left. apply (proj1 (eqb_eq _ _)) in E. congruence.
    + destruct (a_face b =? 0) eqn:E; [|apply F2]. intros H. apply T2. now apply listed_in.
    + destruct (eqb u (a_uri b)) eqn:E; [|apply F2]. intros _. apply (proj1 (eqb_eq _ _)) in E. subst u. exact T2.
Qed.
End C57.

(** C57: if the forwarder reports truthfully and no two neighbours have the same URI, every neighbour's
    face is the one the history prescribes for its URI, and it is 0 or a live face with that URI. *)
Theorem C57_faces c l fs evs a : good_faces fs -> truthful fs evs -> NoDup (uris (fst (hinit c l))) ->
  h_dead (hstate c l evs) = false -> In a (h_adl (hstate c l evs)) ->
  a_face a = fold_left (use_face (a_uri a)) evs 0 /\
  (a_face a <> 0 -> In (a_face a, a_uri a) (faces fs evs)).
Proof. intros; eapply C57_both; eauto. Qed.

(** After a dataset, a neighbour without a face has no live face with its URI. *)
Theorem C57_dataset c l fs evs d a f : good_faces fs -> truthful fs (evs ++ [HvDataset d]) ->
  NoDup (uris (fst (hinit c l))) -> h_dead (hstate c l (evs ++ [HvDataset d])) = false ->
  In a (h_adl (hstate c l (evs ++ [HvDataset d]))) -> a_face a = 0 -> ~ In (f, a_uri a) (faces fs evs).
Proof.
  intros G T Hu Hd Ha H0 Hin. destruct (@C57_faces c l fs _ a G T Hu Hd Ha) as [E _]. rewrite fold_left_app in E. cbn [fold_left use_face] in E.
  apply truthful_snoc in T. destruct T as [T1 T2]. cbn [truthful1] in T2. pose proof (good_all evs G T1) as G1.
  set (g := fold_left (use_face (a_uri a)) evs 0) in *. destruct (g =? 0) eqn:Eg.
  - rewrite H0 in E. symmetry in E. apply (@listed_zero (a_uri a) d f); [|exact E|now apply T2].
    intros H. apply (proj2 G1). apply in_map_iff in H. destruct H as (y & Hy & H). apply T2 in H. rewrite <- Hy. now apply in_map.
  - apply N.eqb_neq in Eg. congruence.
Qed.

Example C57_ex : let c := hcX HOff in
  let evs := [HvDataset [(7, u3X)]; HvCreated 300 u2X; HvFace u2X 300; HvDestroyed 7; HvCreated 301 u2X; HvDestroyed 300] in
  good_faces [(7, u3X)] /\ truthful [(7, u3X)] evs /\ NoDup (uris (fst (hinit c nbX))) /\ h_dead (hstate c nbX evs) = false /\
  map (fun a => (a_name a, a_face a)) (h_adl (hstate c nbX evs)) = [(r2X, 301); (r3X, 0)].
Proof.
  cbv zeta. split; [split; [repeat constructor; intros []|intros [H|[]]; discriminate]|].
  split; [cbn; repeat split; try tauto; try (intros [|[]]; discriminate); try discriminate; intros [H|[H|[]]]; discriminate|].
  split; [|vm_compute; repeat split]. vm_compute. constructor; [intros [H|[]]; discriminate|constructor; [intros []|constructor]].
Qed.

(** Two neighbours with one URI, which the configuration accepts: the second never gets the face. *)
Theorem C57_shared_uri_refuted : exists c l evs a,
  truthful [] evs /\ h_dead (hstate c l evs) = false /\ In a (h_adl (hstate c l evs)) /\
  a_face a <> fold_left (use_face (a_uri a)) evs 0.
Proof.
  exists (hcX HOff), [(r2X, u2X, of_int 10); (r3X, u2X, of_int 25)], [HvCreated 300 u2X], (Adj r3X u2X (of_int 25) SInactive 0 0).
  split; [cbn; repeat split; [lia|intros []]|]. split; [vm_compute; reflexivity|]. split; [vm_compute; right; left; reflexivity|].
  vm_compute. discriminate.
Qed.

(** A dataset that was assembled before a face was destroyed, and processed after: the neighbour keeps a
    face id that does not exist, although every message told the truth when it was sent. *)
Theorem C57_stale_dataset_refuted : exists c l a evs1 evs2 d,
  truthful [(7, u3X)] (evs1 ++ [HvDataset d]) /\ truthful [(7, u3X)] (evs1 ++ evs2) /\
  In a (h_adl (hstate c l (evs1 ++ evs2 ++ [HvDataset d]))) /\ a_face a <> 0 /\
  ~ In (a_face a, a_uri a) (faces [(7, u3X)] (evs1 ++ evs2 ++ [HvDataset d])).
Proof.
  exists (hcX HOff), nbX, (Adj r3X u3X (of_int 25) SInactive 0 7), [], [HvDestroyed 7], [(7, u3X)].
  split; [cbn; tauto|]. split; [cbn; tauto|]. split; [vm_compute; right; left; reflexivity|]. split; [discriminate|]. vm_compute. tauto.
Qed.

(** A registration that the forwarder carried out before the face was destroyed, and whose confirmation is
    processed after: the neighbour gets the id of a face that does not exist. *)
Theorem C57_late_registration_refuted : exists c l a evs1 evs2 u f,
  truthful [(7, u3X)] (evs1 ++ [HvFace u f]) /\ truthful [(7, u3X)] (evs1 ++ evs2) /\
  In a (h_adl (hstate c l (evs1 ++ evs2 ++ [HvFace u f]))) /\ a_face a <> 0 /\
  ~ In (a_face a, a_uri a) (faces [(7, u3X)] (evs1 ++ evs2 ++ [HvFace u f])).
Proof.
  exists (hcX HOff), nbX, (Adj r3X u3X (of_int 25) SInactive 0 7), [HvDataset [(7, u3X)]], [HvDestroyed 7], u3X, 7.
  split; [cbn; tauto|]. split; [cbn; tauto|]. split; [vm_compute; right; left; reflexivity|]. split; [discriminate|]. vm_compute. tauto.
Qed.

(** ** C58 *)

Lemma nfetch_app x y : nfetch (x ++ y) = (nfetch x + nfetch y)%nat.
Proof. unfold nfetch. now rewrite filter_app, app_length. Qed.

Definition budget (c : hconf) (s : hst) : nat :=
  match h_ds s with DFetching n => N.to_nat (hc_tries c - n) | DWaiting => 0 end.

Section C58.
Variable c : hconf.
Lemma nofetch_send n s : nfetch (snd (send_hello c n s)) = 0%nat.
Proof. unfold send_hello. destruct (adl_find n (h_adl s)) as [a|]; [|reflexivity]. now destruct (a_face a =? 0). Qed.
Lemma nofetch_interest n s : nfetch (snd (process_interest c n s)) = 0%nat.
Proof.
  unfold process_interest, hseq, hemit. destruct (negb (info_at 2 n)); [reflexivity|].
  destruct (from_end 1 n) as [x|]; [|reflexivity]. destruct (decode_neighbor (cval x)) as [m|]; [|reflexivity].
  destruct (adl_find m (h_adl s)) as [a|]; [|reflexivity]. now destruct (_ && _).
Qed.
Lemma changed_nofetch s : nfetch (snd (changed c s)) = 0%nat.
Proof. unfold changed, hemit. now destruct (eqb (hc_hyp c) HOn). Qed.
Lemma nofetch_timed_out n s : nfetch (snd (timed_out c n s)) = 0%nat.
Proof.
  unfold timed_out. destruct (negb (info_at 2 n)); [reflexivity|]. destruct (_ <? hc_retry c); [reflexivity|].
  destruct (eqb _ SActive); [apply changed_nofetch|reflexivity].
Qed.
Lemma nofetch_validated d s : nfetch (snd (content_validated c d s)) = 0%nat /\ h_ds (fst (content_validated c d s)) = h_ds s.
Proof.
  unfold content_validated, hseq, hemit. destruct (info_at 3 d); [|split; reflexivity].
  destruct (eqb _ _); [split; reflexivity|]. rewrite changed_out. unfold initial_data.
  destruct (adl_find _ _); (split; [|reflexivity]); unfold recompute; now destruct (hc_hyp c).
Qed.
Lemma nofetch_match fs q : nfetch (snd (match_all c fs q)) = 0%nat.
Proof.
  assert (X : forall r a, nfetch (snd (match_faces c r a)) = 0%nat).
  { induction r as [|[f u] r IHr]; intros a; cbn [match_faces]; [reflexivity|].
    destruct (_ && _); [|apply IHr]. specialize (IHr (set_face f a)). destruct (match_faces c r (set_face f a)). exact IHr. }
  induction q as [|a q IH]; cbn [match_all]; [reflexivity|]. specialize (X fs a).
  destruct (match_faces c fs a) as [a' o]. destruct (match_all c fs q) as [r o']. cbn [snd] in *. rewrite nfetch_app. lia.
Qed.

Lemma hstep_fetch s e : e <> HvDatasetTimer ->
  (nfetch (snd (hstep c s e)) + budget c (fst (hstep c s e)) <= budget c s)%nat.
Proof.
  intros He. unfold hstep. destruct (h_dead s); [cbn; lia|].
  assert (K : forall r : hst * list hout, nfetch (snd r) = 0%nat -> h_ds (fst r) = h_ds s -> (nfetch (snd r) + budget c (fst r) <= budget c s)%nat).
  { intros r H1 H2. unfold budget. rewrite H1, H2. lia. }
  destruct e as [n|t|i d|i|i|t|i|iname|f|f u|fs| | |u f]; try congruence.
  - apply K; [apply nofetch_send|apply send_hello_adl].
  - destruct (get t (h_loop s)) as [n|]; [|apply K; reflexivity]. apply K; [apply nofetch_send|].
    destruct (send_hello_adl c n (hw_loop (del t (h_loop s)) (h_next s) s)) as (_ & _ & _ & ->). reflexivity.
  - destruct (get i (h_pend s)) as [p|]; [|apply K; reflexivity]. destruct (prefix_of p d); [|apply K; reflexivity].
    destruct (nofetch_validated d (hw_pend (del i (h_pend s)) (h_next s) s)) as [A B]. apply K; [exact A|rewrite B; reflexivity].
  - apply K; reflexivity.
  - destruct (get i (h_pend s)); apply K; reflexivity.
  - destruct (get t (h_nack s)) as [p|]; [|apply K; reflexivity]. apply K; [apply nofetch_timed_out|].
    destruct (timed_out_rest c p (hw_nack (del t (h_nack s)) (h_next s) s)) as (_ & _ & -> & _). reflexivity.
  - destruct (get i (h_pend s)) as [p|]; [|apply K; reflexivity]. apply K; [apply nofetch_timed_out|].
    destruct (timed_out_rest c p (hw_pend (del i (h_pend s)) (h_next s) s)) as (_ & _ & -> & _). reflexivity.
  - destruct (prefix_of _ iname); [|apply K; reflexivity]. apply K; [apply nofetch_interest|apply process_interest_adl].
  - unfold face_destroyed. destruct (adl_find_face f (h_adl s)) as [x|]; [|apply K; reflexivity].
    destruct (eqb (a_status x) SActive); apply K; try reflexivity. apply changed_nofetch.
  - unfold face_created. destruct (adl_find_uri u (h_adl s)) as [x|]; [|apply K; reflexivity]. destruct (_ || _); apply K; reflexivity.
  - unfold face_dataset. pose proof (nofetch_match fs (h_adl s)) as E. destruct (match_all c fs (h_adl s)) as [q o]. cbn [fst snd] in *.
    rewrite E. unfold budget at 1. cbn. lia.
  - destruct (h_ds s) as [n|] eqn:E; [|apply K; [reflexivity|exact E]]. unfold dataset_failed. destruct (n <? hc_tries c) eqn:Et.
    + apply N.ltb_lt in Et. unfold budget. rewrite E. cbn [fst snd h_ds hw_ds]. change (nfetch [HFetch]) with 1%nat. lia.
    + unfold budget at 1. cbn. lia.
  - apply K; reflexivity.
Qed.

Lemma run_fetch evs s : ~ In HvDatasetTimer evs -> (nfetch (snd (run (hstep c) s evs)) + budget c (fst (run (hstep c) s evs)) <= budget c s)%nat.
Proof.
  revert s. induction evs as [|e evs IH]; intros s H; cbn [run].
  - cbn. lia.
  - assert (He : e <> HvDatasetTimer) by (intros ->; apply H; now left). pose proof (hstep_fetch s He) as A.
    destruct (hstep c s e) as [s1 o1]. cbn [fst snd] in A. specialize (IH s1).
    destruct (run (hstep c) s1 evs) as [s2 o2]. cbn [fst snd] in *. rewrite nfetch_app.
    assert (B : ~ In HvDatasetTimer evs) by (intros X; apply H; now right). specialize (IH B). lia.
Qed.
End C58.

(** C58: from any point of any history until the interval timer next expires, the dataset is requested
    again at most [face-dataset-fetch-tries] times; and not at all once it was received. *)
Theorem C58_bounded c l evs evs' : ~ In HvDatasetTimer evs' ->
  (nfetch (snd (run (hstep c) (hstate c l evs) evs')) <= N.to_nat (hc_tries c))%nat /\
  (h_ds (hstate c l evs) = DWaiting -> nfetch (snd (run (hstep c) (hstate c l evs) evs')) = 0%nat).
Proof.
  intros H. pose proof (@run_fetch c evs' (hstate c l evs) H) as A. split.
  - assert (B : (budget c (hstate c l evs) <= N.to_nat (hc_tries c))%nat) by (unfold budget; destruct (h_ds (hstate c l evs)); lia). lia.
  - intros E. unfold budget at 2 in A. rewrite E in A. lia.
Qed.

(** The bound is reached, and after the interval the fetch is tried afresh. *)
Theorem C58_exact c l (k : nat) : (k <= N.to_nat (hc_tries c))%nat ->
  let s := hstate c l (repeat HvDatasetFail k) in
  h_ds s = DFetching (N.of_nat k) /\
  h_ds (hstate c l (repeat HvDatasetFail (S (N.to_nat (hc_tries c))))) = DWaiting /\
  hstep c (hstate c l (repeat HvDatasetFail (S (N.to_nat (hc_tries c))))) HvDatasetTimer =
    (hw_ds (DFetching 0) (hstate c l (repeat HvDatasetFail (S (N.to_nat (hc_tries c))))), [HFetch]).
Proof.
  assert (Snoc : forall k, repeat HvDatasetFail (S k) = repeat HvDatasetFail k ++ [HvDatasetFail])
    by (intros j; change [HvDatasetFail] with (repeat HvDatasetFail 1); rewrite <- repeat_app; f_equal; lia).
  assert (G : forall k, (k <= N.to_nat (hc_tries c))%nat -> h_ds (hstate c l (repeat HvDatasetFail k)) = DFetching (N.of_nat k) /\
     h_dead (hstate c l (repeat HvDatasetFail k)) = false).
  { clear k. induction k as [|k IH]; intros Hk; [split; reflexivity|]. destruct IH as [IH1 IH2]; [lia|].
    rewrite Snoc, hstate_snoc. unfold hstep. rewrite IH2, IH1. unfold dataset_failed.
    assert (E : (N.of_nat k <? hc_tries c) = true) by (apply N.ltb_lt; lia). rewrite E. cbn [fst h_ds hw_ds h_dead].
    split; [f_equal; lia|exact IH2]. }
  intros Hk s. split; [now apply G|]. destruct (G (N.to_nat (hc_tries c)) (le_n _)) as [G1 G2].
  rewrite Snoc, hstate_snoc. set (q := hstate c l (repeat HvDatasetFail (N.to_nat (hc_tries c)))) in *.
  assert (Q : fst (hstep c q HvDatasetFail) = hw_ds DWaiting q).
  { unfold hstep. rewrite G2, G1. unfold dataset_failed.
    assert (E : (N.of_nat (N.to_nat (hc_tries c)) <? hc_tries c) = false) by (apply N.ltb_ge; lia). now rewrite E. }
  rewrite Q. split; [reflexivity|]. unfold hstep. cbn [hw_ds h_dead h_ds]. rewrite G2. reflexivity.
Qed.

Example C58_ex : nfetch (snd (hexec (hcX HOff) nbX (repeat HvDatasetFail 9 ++ [HvDatasetTimer; HvDatasetFail]))) = 6%nat.
Proof. vm_compute. reflexivity. Qed.

(** ** C63 *)

Lemma from_end_2 p x y : from_end 1 p = Some y -> from_end 2 p = Some x -> exists q, p = q ++ [x; y].
Proof.
  unfold from_end. destruct (Nat.ltb (length p) 1) eqn:E1; [discriminate|]. destruct (Nat.ltb (length p) 2) eqn:E2; [discriminate|].
  apply Nat.ltb_ge in E2. intros H1 H2. exists (firstn (length p - 2) p).
  rewrite <- (firstn_skipn (length p - 2) p) at 1. f_equal.
  assert (L : length (skipn (length p - 2) p) = 2%nat) by (rewrite skipn_length; lia).
  pose proof (firstn_skipn (length p - 2) p) as F.
  destruct (skipn (length p - 2) p) as [|u [|v [|]]] eqn:Es; try discriminate L.
  rewrite <- F in H1 at 1. rewrite nth_error_app2 in H1 by (rewrite firstn_length; lia).
  rewrite <- F in H2 at 1. rewrite nth_error_app2 in H2 by (rewrite firstn_length; lia).
  rewrite firstn_length in *. replace (length p - 1 - Nat.min (length p - 2) (length p))%nat with 1%nat in H1 by lia.
  replace (length p - 2 - Nat.min (length p - 2) (length p))%nat with 0%nat in H2 by lia. cbn in *. congruence.
Qed.

(** C63 (what holds): the only event of this part of the program that ends it is a hello Interest whose
    last component is not the encoding of a name. *)
Theorem C63_only_malformed c l evs e :
  h_dead (hstate c l evs) = false -> h_dead (hstate c l (evs ++ [e])) = true -> malformed_hello e.
Proof.
  intros Hd. rewrite hstate_snoc. set (s := hstate c l evs) in *. destruct (hstate_inv c l evs) as [I _]. fold s in I. clearbody s.
  unfold hstep. rewrite Hd. destruct e as [n|t|i d|i|i|t|i|iname|f|f u|fs| | |u f]; intros H.
  - destruct (send_hello_adl c n s) as (_ & E & _). congruence.
  - destruct (get t (h_loop s)) as [n|]; [|cbn in H; congruence].
    destruct (send_hello_adl c n (hw_loop (del t (h_loop s)) (h_next s) s)) as (_ & E & _). cbn in E. congruence.
  - destruct (get i (h_pend s)) as [p|]; [|cbn in H; congruence]. destruct (prefix_of p d); [|cbn in H; congruence].
    rewrite validated_adl in H by apply I. destruct (info_at 3 d); cbn in H; congruence.
  - cbn in H; congruence.
  - destruct (get i (h_pend s)); cbn in H; congruence.
  - destruct (get t (h_nack s)) as [p|]; [|cbn in H; congruence].
    destruct (timed_out_rest c p (hw_nack (del t (h_nack s)) (h_next s) s)) as (_ & _ & _ & E). cbn in E. congruence.
  - destruct (get i (h_pend s)) as [p|]; [|cbn in H; congruence].
    destruct (timed_out_rest c p (hw_pend (del i (h_pend s)) (h_next s) s)) as (_ & _ & _ & E). cbn in E. congruence.
  - destruct (prefix_of _ iname); [|cbn in H; congruence]. unfold process_interest, hseq, hemit in H.
    destruct (info_at 2 iname) eqn:Ei; cbn [negb] in H; [|cbn in H; congruence].
    destruct (from_end 1 iname) as [x|] eqn:E1; [|cbn in H; congruence].
    unfold info_at in Ei. apply (proj1 (eqb_eq _ _)) in Ei. destruct (@from_end_2 iname _ _ E1 Ei) as (q & ->).
    exists q, x. split; [reflexivity|]. intros m Hm Hf Ex. rewrite Ex, decode_enc in H by assumption.
    destruct (adl_find m (h_adl s)) as [a|]; [|cbn in H; congruence]. destruct (_ && _); cbn in H; congruence.
  - unfold face_destroyed in H. destruct (adl_find_face f (h_adl s)) as [x|]; [|cbn in H; congruence].
    destruct (eqb (a_status x) SActive); cbn in H; congruence.
  - unfold face_created in H. destruct (adl_find_uri u (h_adl s)) as [x|]; [|cbn in H; congruence]. destruct (_ || _); cbn in H; congruence.
  - unfold face_dataset in H. destruct (match_all c fs (h_adl s)). cbn in H. congruence.
  - destruct (h_ds s); [|cbn in H; congruence]. unfold dataset_failed in H. destruct (_ <? _); cbn in H; congruence.
  - destruct (h_ds s); cbn in H; congruence.
  - cbn in H. congruence.
Qed.

(** C63 fails: one unsigned Interest from anybody, /<router>/nlsr/INFO/x, ends the router. *)
Theorem C63_refuted : exists c l evs,
  h_dead (hstate c l evs) = true /\ evs = [HvInterest (hc_self c ++ nm ["nlsr"; "INFO"; "x"]%string)].
Proof. exists (hcX HOff), nbX. eexists. split; [|reflexivity]. vm_compute. reflexivity. Qed.

(** ** C64 *)

(** C64: the hello handshake identifies both ends.  What router A sends to its neighbour B is, when it
    reaches B, answered exactly if A is a neighbour of B, and the answer makes B ACTIVE at A and touches
    no other entry. *)
Theorem C64_handshake cA cB lA lB evsA evsB iname v i :
  let sA := hstate cA lA evsA in let sB := hstate cB lB evsB in
  legal_name (hc_self cA) -> fits (enc_name (hc_self cA)) -> known sA (hc_self cB) ->
  h_dead sA = false -> h_dead sB = false ->
  get i (h_pend sA) = Some iname -> iname = hello_int (hc_self cA) (hc_self cB) ->
  (In (HReply iname) (snd (hstep cB sB (HvInterest iname))) <-> known sB (hc_self cA)) /\
  (exists a, entry (hstate cA lA (evsA ++ [HvData i (iname ++ [v])])) (hc_self cB) a /\ a_status a = SActive) /\
  (forall n a, n <> hc_self cB -> entry sA n a -> entry (hstate cA lA (evsA ++ [HvData i (iname ++ [v])])) n a).
Proof.
  intros sA sB Hl Hf Hk HdA HdB Hp Hi. split; [|split].
  - unfold hstep. rewrite HdB.
    assert (E0 : prefix_of (hc_self cB ++ [NLSR; INFO]) iname = true).
    { apply prefix_of_spec. exists [gen (enc_name (hc_self cA))]. rewrite Hi. unfold hello_int. now rewrite <- app_assoc. }
    rewrite E0. assert (E : iname = (hc_self cB ++ [NLSR]) ++ [INFO; gen (enc_name (hc_self cA))]).
    { rewrite Hi. unfold hello_int. now rewrite <- app_assoc. }
    unfold process_interest, hseq, hemit, info_at.
    destruct (from_end_last (hc_self cB ++ [NLSR]) INFO (gen (enc_name (hc_self cA)))) as [E1 E2]. rewrite <- E in E1, E2.
    rewrite E1, E2, eqb_refl. cbn [negb cval gen]. rewrite decode_enc by assumption.
    destruct (adl_find (hc_self cA) (h_adl sB)) as [a|] eqn:Ea.
    + split; [intros _; apply adl_find_some in Ea; now exists a|]. intros _.
      destruct (_ && _); cbn [snd app]; right; left; congruence.
    + split; [|intros (a & Ha & En)].
      * cbn [snd app]. intros [H|[]]. discriminate H.
      * apply adl_find_none in Ea. exfalso. apply Ea. rewrite <- En. now apply in_map.
  - assert (R : is_reply (hc_self cB) sA (HvData i (iname ++ [v])) = true).
    { cbn [is_reply]. rewrite Hp. apply andb_true_iff. split.
      - apply names_reply_spec. exists NLSR, (gen (enc_name (hc_self cA))), v. rewrite Hi. unfold hello_int. now rewrite <- app_assoc.
      - apply prefix_of_spec. now exists [v]. }
    destruct (@C17_up cA lA evsA (HvData i (iname ++ [v])) _ HdA Hk R) as (a & A1 & A2 & _). exists a. split; assumption.
  - intros n a Hne [Ha En]. rewrite hstate_snoc. destruct (hstate_inv cA lA evsA) as [I _]. fold sA in I |- *.
    unfold hstep. rewrite HdA, Hp.
    assert (P : prefix_of iname (iname ++ [v]) = true) by (apply prefix_of_spec; now exists [v]). rewrite P.
    rewrite validated_adl by apply I. 
    assert (E : iname ++ [v] = hc_self cB ++ [NLSR; INFO; gen (enc_name (hc_self cA)); v])
      by (rewrite Hi; unfold hello_int; now rewrite <- app_assoc).
    rewrite E, info3_app, drop_end_app by reflexivity. split; [|exact En]. cbn [h_adl hw_adl]. apply in_map_iff.
    exists a. split; [|exact Ha]. unfold on_reply. rewrite En.
    assert (Q : eqb n (hc_self cB) = false) by (apply eqb_neq; exact Hne). now rewrite Q.
Qed.

(** r1 has sent its hello to r2; r2, configured with r1 as neighbour, answers. *)
Definition hcY : hconf := HConf r2X (hc_lsap (hcX HOff)) (hc_sync (hcX HOff)) 3 HOff 3.
Example C64_ex : let sA := hstate (hcX HOff) nbX [HvCreated 300 u2X; HvRegistered r2X] in
  let sB := hstate hcY [(r1X, u3X, of_int 10)] [] in
  get 0%nat (h_pend sA) = Some (hello_int r1X r2X) /\
  In (HReply (hello_int r1X r2X)) (snd (hstep hcY sB (HvInterest (hello_int r1X r2X)))) /\
  legal_name r1X /\ fits (enc_name r1X).
Proof.
  cbv zeta. split; [vm_compute; reflexivity|]. split; [vm_compute; right; left; reflexivity|].
  split; [|vm_compute; reflexivity]. intros x Hx. cbn in Hx. repeat destruct Hx as [<- |Hx]; try destruct Hx; split; vm_compute; congruence.
Qed.

Print Assumptions C20_count.
Print Assumptions C20_one_partial.
Print Assumptions C20_refuted.
Print Assumptions C57_faces.
Print Assumptions C57_dataset.
Print Assumptions C57_shared_uri_refuted.
Print Assumptions C57_stale_dataset_refuted.
Print Assumptions C57_late_registration_refuted.
Print Assumptions C58_bounded.
Print Assumptions C58_exact.
Print Assumptions C63_only_malformed.
Print Assumptions C63_refuted.
Print Assumptions C64_handshake.

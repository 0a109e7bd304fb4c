(** Lemmas about the hello machine. *)
From Verif Require Import Base M_Nexthop M_Tlv M_Codec M_Adj M_Lsa M_Lsdb M_Hello S_Hello S_Codec L_Codec L_Lsdb9.
Set Implicit Arguments.
Open Scope N_scope.

(** ** Lists *)

Lemma firstn_app_exact A (x y : list A) : firstn (length x) (x ++ y) = x.
Proof. rewrite firstn_app, Nat.sub_diag, firstn_all. cbn [firstn]. apply app_nil_r. Qed.

Lemma skipn_app_exact A (x y : list A) : skipn (length x) (x ++ y) = y.
Proof. rewrite skipn_app, Nat.sub_diag, skipn_all. reflexivity. Qed.

Lemma upd_first_split p g l :
  (upd_first p g l = l /\ forall x, In x l -> p x = false) \/
  exists l1 a l2, l = l1 ++ a :: l2 /\ p a = true /\ (forall x, In x l1 -> p x = false) /\
    upd_first p g l = l1 ++ g a :: l2.
Proof.
  induction l as [|x l IH]; cbn [upd_first].
  - left. split; [reflexivity|intros x []].
  - destruct (p x) eqn:E.
    + right. exists [], x, l. repeat split; auto. intros y [].
    + destruct IH as [[IH1 IH2]|(l1 & a & l2 & -> & H1 & H2 & H3)].
      * left. rewrite IH1. split; [reflexivity|]. intros y [<- |Hy]; auto.
      * right. exists (x :: l1), a, l2. rewrite H3. repeat split; auto. intros y [<- |Hy]; auto.
Qed.

Lemma upd_first_map A (h : adjacent -> A) p g l : (forall a, h (g a) = h a) -> map h (upd_first p g l) = map h l.
Proof.
  intros Hg. induction l as [|x l IH]; cbn [upd_first map]; [reflexivity|].
  destruct (p x); cbn [map]; [now rewrite Hg|now rewrite IH].
Qed.

Lemma adl_upd_map n g l : NoDup (map a_name l) ->
  adl_upd n g l = map (fun a => if eqb (a_name a) n then g a else a) l.
Proof.
  unfold adl_upd. induction l as [|x l IH]; cbn [upd_first map]; [reflexivity|].
  intros Hn. apply NoDup_cons_iff in Hn. destruct Hn as [Hn1 Hn2]. destruct (eqb (a_name x) n) eqn:E.
  - apply (proj1 (eqb_eq _ _)) in E. subst n. f_equal. clear IH. rewrite <- (map_id l) at 1. apply map_ext_in.
    intros a Ha. destruct (eqb (a_name a) (a_name x)) eqn:E; [|reflexivity].
    apply (proj1 (eqb_eq _ _)) in E. exfalso. apply Hn1. rewrite <- E. now apply in_map.
  - now rewrite IH.
Qed.

Lemma adl_find_in n a l : NoDup (map a_name l) -> In a l -> a_name a = n -> adl_find n l = Some a.
Proof.
  intros Hn Ha <-. induction l as [|x l IH]; [destruct Ha|]. cbn [adl_find].
  cbn [map] in Hn. apply NoDup_cons_iff in Hn. destruct Hn as [Hn1 Hn2]. destruct Ha as [-> |Ha].
  - now rewrite eqb_refl.
  - destruct (eqb (a_name x) (a_name a)) eqn:E; [|auto]. apply (proj1 (eqb_eq _ _)) in E. exfalso. apply Hn1.
    rewrite E. now apply in_map.
Qed.

Arguments adl_find_in {n a l}.

Lemma nodup_name l a b : NoDup (map a_name l) -> In a l -> In b l -> a_name a = a_name b -> a = b.
Proof.
  intros Hn Ha Hb E. pose proof (adl_find_in Hn Ha E) as H1. pose proof (adl_find_in Hn Hb eq_refl) as H2. congruence.
Qed.

Arguments nodup_name {l a b}.

(** ** Names *)

Lemma from_end_app k x y : length y = k -> (0 < k)%nat -> from_end k (x ++ y) = nth_error y 0.
Proof.
  intros Hk H0. unfold from_end. rewrite app_length.
  assert (E : Nat.ltb (length x + length y) k = false) by (apply Nat.ltb_ge; lia). rewrite E.
  replace (length x + length y - k)%nat with (length x) by lia.
  rewrite nth_error_app2 by lia. now rewrite Nat.sub_diag.
Qed.

Lemma drop_end_app k x y : length y = k -> drop_end k (x ++ y) = x.
Proof.
  intros Hk. unfold drop_end. rewrite app_length. replace (length x + length y - k)%nat with (length x) by lia.
  apply firstn_app_exact.
Qed.

Lemma hello_info c n : info_at 2 (hello_name c n) = true.
Proof.
  unfold info_at, hello_name. 
  replace (n ++ [NLSR; INFO; gen (enc_name (hc_self c))]) with ((n ++ [NLSR]) ++ [INFO; gen (enc_name (hc_self c))])
    by (rewrite <- app_assoc; reflexivity).
  rewrite from_end_app by (cbn; lia). apply eqb_refl.
Qed.
Lemma hello_drop c n : drop_end 3 (hello_name c n) = n.
Proof. apply drop_end_app. reflexivity. Qed.
Lemma hello_int_eq c n : hello_int (hc_self c) n = hello_name c n.
Proof. reflexivity. Qed.
Lemma hello_inj c n m : hello_name c n = hello_name c m -> n = m.
Proof. intros E. rewrite <- (hello_drop c n), E. apply hello_drop. Qed.

(** The two readings of a reply name agree. *)
Lemma names_reply_spec n d : names_reply n d = true <-> exists x y z, d = n ++ [x; INFO; y; z].
Proof.
  unfold names_reply. split.
  - intros H. destruct (skipn (length n) d) as [|x [|i [|y [|z [|]]]]] eqn:E; try discriminate.
    apply andb_true_iff in H. destruct H as [H1 H2]. apply (proj1 (eqb_eq _ _)) in H1. apply (proj1 (eqb_eq _ _)) in H2.
    exists x, y, z. rewrite <- (firstn_skipn (length n) d), E, H1, H2. reflexivity.
  - intros (x & y & z & ->). rewrite skipn_app_exact, firstn_app_exact, !eqb_refl. reflexivity.
Qed.

Lemma reply_shape d : (4 <= length d)%nat -> info_at 3 d = true -> exists x y z, d = drop_end 4 d ++ [x; INFO; y; z].
Proof.
  intros Hl Hi. unfold info_at, from_end in Hi.
  assert (E : Nat.ltb (length d) 3 = false) by (apply Nat.ltb_ge; lia). rewrite E in Hi.
  apply (proj1 (eqb_eq _ _)) in Hi. unfold drop_end.
  assert (X : length (skipn (length d - 4) d) = 4%nat) by (rewrite skipn_length; lia).
  pose proof (firstn_skipn (length d - 4) d) as F.
  destruct (skipn (length d - 4) d) as [|x [|i [|y [|z [|]]]]] eqn:Es; try discriminate X.
  exists x, y, z. rewrite <- F at 1. f_equal. f_equal. f_equal.
  rewrite <- F in Hi at 1. rewrite nth_error_app2 in Hi by (rewrite firstn_length; lia).
  rewrite firstn_length in Hi. replace (length d - 3 - Nat.min (length d - 4) (length d))%nat with 1%nat in Hi by lia.
  cbn in Hi. congruence.
Qed.

Lemma info3_app n x y z : info_at 3 (n ++ [x; INFO; y; z]) = true.
Proof.
  unfold info_at. replace (n ++ [x; INFO; y; z]) with ((n ++ [x]) ++ [INFO; y; z]) by (rewrite <- app_assoc; reflexivity).
  rewrite from_end_app by (cbn; lia). apply eqb_refl.
Qed.

Lemma prefix_of_spec p n : prefix_of p n = true <-> exists r, n = p ++ r.
Proof.
  revert n. induction p as [|x p IH]; intros n; cbn [prefix_of].
  - split; [intros _; now exists n|reflexivity].
  - destruct n as [|y n]; [split; [discriminate|intros (r & H); discriminate]|].
    rewrite andb_true_iff, IH. split.
    + intros [H1 (r & ->)]. apply (proj1 (eqb_eq _ _)) in H1. subst y. now exists r.
    + intros (r & H). injection H as -> ->. split; [apply eqb_refl|now exists r].
Qed.

(** ** What each event does to the adjacency list *)

Section Hello.
Variable c : hconf.

Definition on_reply (n : name) (a : adjacent) : adjacent :=
  if eqb (a_name a) n then set_touts 0 (set_status SActive a) else a.
Definition on_loss (n : name) (a : adjacent) : adjacent :=
  if eqb (a_name a) n then
    let t := ((a_touts a + 1) mod 2 ^ 32) in
    if (t <? hc_retry c) || negb (eqb (a_status a) SActive) then set_touts t a
    else set_status SInactive (set_touts t a)
  else a.

Lemma express_adl i s : h_adl (fst (express i s)) = h_adl s /\ h_dead (fst (express i s)) = h_dead s /\
  h_nack (fst (express i s)) = h_nack s /\ h_loop (fst (express i s)) = h_loop s /\ h_ds (fst (express i s)) = h_ds s.
Proof. repeat split. Qed.

Lemma send_hello_adl n s : h_adl (fst (send_hello c n s)) = h_adl s /\ h_dead (fst (send_hello c n s)) = h_dead s /\
  h_nack (fst (send_hello c n s)) = h_nack s /\ h_ds (fst (send_hello c n s)) = h_ds s.
Proof.
  unfold send_hello. destruct (adl_find n (h_adl s)) as [a|]; [|repeat split].
  destruct (a_face a =? 0); cbn; repeat split.
Qed.

Lemma process_interest_adl i s : h_adl (fst (process_interest c i s)) = h_adl s /\
  h_nack (fst (process_interest c i s)) = h_nack s /\ h_ds (fst (process_interest c i s)) = h_ds s /\
  h_loop (fst (process_interest c i s)) = h_loop s.
Proof.
  unfold process_interest, hseq, hemit. destruct (negb (info_at 2 i)); [repeat split|].
  destruct (from_end 1 i) as [l|]; [|repeat split]. destruct (decode_neighbor (cval l)) as [n|]; [|repeat split].
  destruct (adl_find n (h_adl s)) as [a|]; [|repeat split].
  destruct (eqb (a_status a) SInactive && negb (a_face a =? 0)); repeat split.
Qed.

Lemma status_map g n l : NoDup (map a_name l) -> (forall a, a_name (g a) = a_name a) ->
  adl_find n (map g l) = option_map g (adl_find n l).
Proof.
  intros _ Hg. induction l as [|x l IH]; cbn; [reflexivity|]. rewrite Hg. destruct (eqb (a_name x) n); [reflexivity|exact IH].
Qed.

Lemma to_int32_mod x : x < 2 ^ 32 -> Z.to_N (to_int32 x mod 2 ^ 32)%Z = x.
Proof.
  intros H. unfold to_int32. assert (E : (Z.of_N x mod 2 ^ 32 = Z.of_N x)%Z) by (apply Z.mod_small; lia).
  rewrite E. destruct (Z.of_N x <? 2 ^ 31)%Z.
  - rewrite E. apply N2Z.id.
  - replace (Z.of_N x - 2 ^ 32)%Z with (Z.of_N x + (-1) * 2 ^ 32)%Z by lia. rewrite Z_mod_plus_full, E. apply N2Z.id.
Qed.

Lemma timed_out_adl n s : NoDup (map a_name (h_adl s)) -> In n (map a_name (h_adl s)) ->
  h_adl (fst (timed_out c (hello_name c n) s)) = map (on_loss n) (h_adl s).
Proof.
  intros Hn Hi. unfold timed_out. rewrite hello_info, hello_drop. cbn [negb].
  set (l := incr_touts n (h_adl s)).
  assert (El : l = map (fun a => if eqb (a_name a) n then set_touts ((a_touts a + 1) mod 2 ^ 32) a else a) (h_adl s))
    by (apply adl_upd_map; exact Hn).
  destruct (adl_find n (h_adl s)) as [a|] eqn:Ea; [|apply adl_find_none in Ea; contradiction].
  pose proof (@adl_find_some _ _ _ Ea) as [Ha1 Ha2].
  assert (Ef : adl_find n l = Some (set_touts ((a_touts a + 1) mod 2 ^ 32) a)).
  { rewrite El, status_map, Ea; [|exact Hn|intros b; destruct (eqb (a_name b) n); reflexivity].
    cbn [option_map]. rewrite Ha2, eqb_refl. reflexivity. }
  unfold get_touts, get_status. rewrite Ef. cbn [set_touts a_touts a_status].
  rewrite to_int32_mod by (apply N.mod_lt; lia).
  assert (Hother : forall b, In b (h_adl s) -> a_name b = n -> b = a).
  { intros b Hb Hb'. apply (nodup_name Hn Hb Ha1). congruence. }
  destruct ((a_touts a + 1) mod 2 ^ 32 <? hc_retry c) eqn:Et.
  - change (h_adl (fst (express (hello_name c n) (hw_adl l s)))) with l. rewrite El. apply map_ext_in. intros b Hb.
    unfold on_loss. destruct (eqb (a_name b) n) eqn:E; [|reflexivity]. apply (proj1 (eqb_eq _ _)) in E.
    rewrite (Hother b Hb E), Et. reflexivity.
  - destruct (eqb (a_status a) SActive) eqn:Es.
    + change (h_adl (fst (changed c (hw_adl (put_status n SInactive l) (hw_adl l s))))) with (put_status n SInactive l).
      unfold put_status. rewrite adl_upd_map.
      2:{ rewrite El, map_map. erewrite map_ext; [exact Hn|]. intros b. destruct (eqb (a_name b) n); reflexivity. }
      rewrite El, map_map. apply map_ext_in. intros b Hb. unfold on_loss. destruct (eqb (a_name b) n) eqn:E.
      * cbn [set_touts a_name]. rewrite E. apply (proj1 (eqb_eq _ _)) in E. rewrite (Hother b Hb E), Et, Es. reflexivity.
      * now rewrite E.
    + cbn [fst h_adl hw_adl]. rewrite El. apply map_ext_in. intros b Hb. unfold on_loss.
      destruct (eqb (a_name b) n) eqn:E; [|reflexivity]. apply (proj1 (eqb_eq _ _)) in E.
      rewrite (Hother b Hb E), Et, Es. reflexivity.
Qed.

Lemma initial_data_st n s : fst (initial_data c n s) = s.
Proof. unfold initial_data. now destruct (adl_find n (h_adl s)). Qed.

Lemma validated_adl d s : NoDup (map a_name (h_adl s)) ->
  fst (content_validated c d s) = if info_at 3 d then hw_adl (map (on_reply (drop_end 4 d)) (h_adl s)) s else s.
Proof.
  intros Hn. unfold content_validated, hseq, hemit. destruct (info_at 3 d) eqn:Ei; [|reflexivity].
  set (n := drop_end 4 d).
  assert (El : put_touts n 0 (put_status n SActive (h_adl s)) = map (on_reply n) (h_adl s)).
  { unfold put_touts, put_status. rewrite (@adl_upd_map n (set_status SActive) _ Hn), adl_upd_map, map_map.
    - apply map_ext. intros a. unfold on_reply. destruct (eqb (a_name a) n) eqn:E.
      + cbn [set_status a_name]. now rewrite E.
      + now rewrite E.
    - rewrite map_map. erewrite map_ext; [exact Hn|]. intros a. destruct (eqb (a_name a) n); reflexivity. }
  rewrite El. destruct (eqb (get_status n (h_adl s)) (get_status n (map (on_reply n) (h_adl s)))).
  - reflexivity.
  - unfold changed, hemit. 
    pose proof (initial_data_st n (hw_adl (map (on_reply n) (h_adl s)) s)) as E.
    destruct (initial_data c n (hw_adl (map (on_reply n) (h_adl s)) s)) as [s2 o2]. cbn [fst] in *. exact E.
Qed.

Lemma match_faces_spec fs a : fst (match_faces c fs a) = a \/ (a_face a = 0 /\ exists f, f <> 0 /\ fst (match_faces c fs a) = set_face f a /\ In (f, a_uri a) fs) \/ (a_face a = 0 /\ In (0, a_uri a) fs).
Proof.
  revert a. induction fs as [|[f u] r IH]; intros a; cbn [match_faces]; [left; reflexivity|].
  destruct ((a_face a =? 0) && eqb (a_uri a) u) eqn:E.
  - apply andb_true_iff in E. destruct E as [E1 E2]. apply N.eqb_eq in E1. apply (proj1 (eqb_eq _ _)) in E2. subst u.
    destruct (N.eq_dec f 0) as [-> |Hf]; [right; right; split; [exact E1|left; reflexivity]|].
    right; left. split; [exact E1|]. exists f. split; [exact Hf|]. split; [|left; reflexivity].
    assert (X : forall q b, a_face b <> 0 -> match_faces c q b = (b, [])).
    { clear. induction q as [|[g v] q IHq]; intros b Hb; cbn [match_faces]; [reflexivity|].
      apply N.eqb_neq in Hb. rewrite Hb. cbn [andb]. apply IHq. now apply N.eqb_neq. }
    rewrite X by (cbn; exact Hf). reflexivity.
  - destruct (IH a) as [H|[(H1 & g & H2 & H3 & H4)|[H1 H2]]]; [left; exact H|right; left|right; right].
    + split; [exact H1|]. exists g. split; [exact H2|]. split; [exact H3|right; exact H4].
    + split; [exact H1|right; exact H2].
Qed.

Lemma match_all_adl fs l : fst (match_all c fs l) = map (fun a => fst (match_faces c fs a)) l.
Proof.
  induction l as [|a l IH]; cbn [match_all map]; [reflexivity|].
  destruct (match_faces c fs a) as [a' o]. destruct (match_all c fs l) as [r o']. cbn [fst] in *. now rewrite IH.
Qed.

(** *** The invariant *)

Definition stat (a : adjacent) := (a_name a, a_uri a, a_cost a).

Lemma match_faces_stat fs a : stat (fst (match_faces c fs a)) = stat a /\
  a_status (fst (match_faces c fs a)) = a_status a /\ a_touts (fst (match_faces c fs a)) = a_touts a.
Proof.
  revert a. induction fs as [|[f u] r IH]; intros a; cbn [match_faces]; [repeat split|].
  destruct ((a_face a =? 0) && eqb (a_uri a) u).
  - specialize (IH (set_face f a)). destruct (match_faces c r (set_face f a)) as [a' o]. cbn [fst] in *. exact IH.
  - apply IH.
Qed.

Record hinv (s : hst) : Prop := Hinv
  { iv_nodup : NoDup (map a_name (h_adl s));
    iv_nonempty : ~ In [] (map a_name (h_adl s));
    iv_status : forall a, In a (h_adl s) -> a_status a = SActive \/ a_status a = SInactive;
    iv_pend : forall i p, get i (h_pend s) = Some p \/ get i (h_nack s) = Some p ->
      exists n, In n (map a_name (h_adl s)) /\ p = hello_name c n }.

Lemma names_of_stat l l' : map stat l = map stat l' -> map a_name l = map a_name l'.
Proof.
  intros E. assert (H : forall m, map a_name m = map (fun x => fst (fst x)) (map stat m))
    by (intros m; rewrite map_map; reflexivity). now rewrite !H, E.
Qed.

Lemma iv_keep s s' : hinv s -> map stat (h_adl s') = map stat (h_adl s) ->
  (forall a, In a (h_adl s') -> a_status a = SActive \/ a_status a = SInactive) ->
  (forall i p, get i (h_pend s') = Some p \/ get i (h_nack s') = Some p ->
     (exists i, get i (h_pend s) = Some p \/ get i (h_nack s) = Some p) \/ exists n, In n (map a_name (h_adl s)) /\ p = hello_name c n) ->
  hinv s'.
Proof.
  intros [I1 I2 I3 I4] Es Hs Hp. apply names_of_stat in Es. split; rewrite ?Es; auto.
  intros i p H. destruct (Hp i p H) as [(j & Hj)|H']; [|exact H']. exact (I4 j p Hj).
Qed.

Arguments iv_keep {s s'}.
Arguments iv_nodup {s}.
Arguments iv_status {s}.
Arguments iv_pend {s}.

(** One step: the static part of the list never changes and the invariant is kept. *)
Lemma stat_map g l : (forall a, stat (g a) = stat a) -> map stat (map g l) = map stat l.
Proof. intros H. rewrite map_map. now apply map_ext. Qed.

Lemma on_loss_stat n a : stat (on_loss n a) = stat a.
Proof. unfold on_loss. destruct (eqb (a_name a) n); [|reflexivity]. cbv zeta. destruct (_ || _); reflexivity. Qed.
Lemma on_reply_stat n a : stat (on_reply n a) = stat a.
Proof. unfold on_reply. destruct (eqb (a_name a) n); reflexivity. Qed.

Lemma in_upd_first p g l a : In a (upd_first p g l) -> In a l \/ exists b, In b l /\ p b = true /\ a = g b.
Proof.
  induction l as [|x l IH]; cbn [upd_first]; [intros []|]. destruct (p x) eqn:E.
  - intros [<- |H]; [right; exists x; repeat split; auto; now left|left; now right].
  - intros [<- |H]; [left; now left|]. destruct (IH H) as [H'|(b & H1 & H2 & H3)]; [left; now right|].
    right. exists b. repeat split; auto. now right.
Qed.

Lemma get_del_some A (i j : nat) (m : amap nat A) v : get j (del i m) = Some v -> get j m = Some v.
Proof. destruct (Nat.eq_dec j i) as [-> |H]; [rewrite get_del_eq; discriminate|now rewrite get_del_ne]. Qed.

Lemma timed_out_pend n s i p : get i (h_pend (fst (timed_out c (hello_name c n) s))) = Some p ->
  get i (h_pend s) = Some p \/ p = hello_name c n.
Proof.
  unfold timed_out. rewrite hello_info, hello_drop. cbn [negb]. 
  destruct (_ <? hc_retry c).
  - cbn [express fst h_pend hw_pend]. destruct (Nat.eq_dec i (h_next s)) as [-> |H].
    + cbn [hw_adl h_pend h_next]. rewrite get_set_eq. intros [= <-]. now right.
    + cbn [hw_adl h_pend h_next]. rewrite get_set_ne by exact H. auto.
  - destruct (eqb _ SActive); cbn; auto.
Qed.
Lemma timed_out_rest p s : h_nack (fst (timed_out c p s)) = h_nack s /\ h_loop (fst (timed_out c p s)) = h_loop s /\
  h_ds (fst (timed_out c p s)) = h_ds s /\ h_dead (fst (timed_out c p s)) = h_dead s.
Proof.
  unfold timed_out. destruct (negb (info_at 2 p)); [repeat split|]. destruct (_ <? hc_retry c); [repeat split|].
  destruct (eqb _ SActive); repeat split.
Qed.

Lemma send_hello_pend n s i p : get i (h_pend (fst (send_hello c n s))) = Some p ->
  get i (h_pend s) = Some p \/ (exists m, In m (map a_name (h_adl s)) /\ p = hello_name c m).
Proof.
  unfold send_hello. destruct (adl_find n (h_adl s)) as [a|] eqn:Ea; [|auto].
  destruct (a_face a =? 0); cbn; [auto|]. destruct (Nat.eq_dec i (h_next s)) as [-> |H].
  - rewrite get_set_eq. intros [= <-]. right. exists (a_name a). split; [|reflexivity].
    apply adl_find_some in Ea. apply in_map, Ea.
  - rewrite get_set_ne by exact H. auto.
Qed.

Lemma process_interest_pend n s i p : get i (h_pend (fst (process_interest c n s))) = Some p ->
  get i (h_pend s) = Some p \/ (exists m, In m (map a_name (h_adl s)) /\ p = hello_name c m).
Proof.
  unfold process_interest, hseq, hemit. destruct (negb (info_at 2 n)); [cbn; auto|].
  destruct (from_end 1 n) as [l|]; [|cbn; auto]. destruct (decode_neighbor (cval l)) as [m|]; [|cbn; auto].
  destruct (adl_find m (h_adl s)) as [a|] eqn:Ea; [|cbn; auto].
  destruct (eqb (a_status a) SInactive && negb (a_face a =? 0)); cbn; [|auto].
  destruct (Nat.eq_dec i (h_next s)) as [-> |H].
  - rewrite get_set_eq. intros [= <-]. right. exists m. split; [|reflexivity].
    apply adl_find_some in Ea. destruct Ea as [Ea <-]. now apply in_map.
  - rewrite get_set_ne by exact H. auto.
Qed.

Lemma hstep_inv s e : hinv s -> map stat (h_adl (fst (hstep c s e))) = map stat (h_adl s) /\ hinv (fst (hstep c s e)).
Proof.
  intros I. unfold hstep. destruct (h_dead s); [split; [reflexivity|exact I]|].
  destruct e as [n|t|i d|i|i|t|i|iname|f|f u|fs| | |u f].
  - split; [now rewrite (proj1 (send_hello_adl n s))|]. apply (iv_keep I).
    + now rewrite (proj1 (send_hello_adl n s)).
    + rewrite (proj1 (send_hello_adl n s)). apply I.
    + intros i p. rewrite (proj1 (proj2 (proj2 (send_hello_adl n s)))). intros [H|H]; [|left; eauto].
      apply send_hello_pend in H. destruct H; [left; eauto|right; assumption].
  - destruct (get t (h_loop s)) as [n|]; [|split; [reflexivity|exact I]].
    set (s0 := hw_loop (del t (h_loop s)) (h_next s) s).
    split; [now rewrite (proj1 (send_hello_adl n s0))|]. apply (iv_keep I).
    + now rewrite (proj1 (send_hello_adl n s0)).
    + rewrite (proj1 (send_hello_adl n s0)). apply I.
    + intros i p. rewrite (proj1 (proj2 (proj2 (send_hello_adl n s0)))). intros [H|H]; [|left; eauto].
      apply send_hello_pend in H. destruct H; [left; eauto|right; assumption].
  - destruct (get i (h_pend s)) as [p|]; [|split; [reflexivity|exact I]].
    destruct (prefix_of p d); [|split; [reflexivity|exact I]].
    set (s0 := hw_pend (del i (h_pend s)) (h_next s) s).
    rewrite (validated_adl d s0 (iv_nodup I)). destruct (info_at 3 d).
    + split; [apply stat_map, on_reply_stat|]. apply (iv_keep I).
      * apply stat_map, on_reply_stat.
      * cbn [h_adl hw_adl]. intros a Ha. apply in_map_iff in Ha. destruct Ha as (b & <- & Hb). unfold on_reply.
        destruct (eqb (a_name b) (drop_end 4 d)); [left; reflexivity|]. apply (iv_status I b Hb).
      * intros j q [H|H]; left; cbn in H; [apply get_del_some in H|]; eauto.
    + split; [reflexivity|]. apply (iv_keep I); [reflexivity|apply I|].
      intros j q [H|H]; left; cbn in H; [apply get_del_some in H|]; eauto.
  - split; [reflexivity|]. apply (iv_keep I); [reflexivity|apply I|].
    intros j q [H|H]; left; cbn in H; [apply get_del_some in H|]; eauto.
  - destruct (get i (h_pend s)) as [p|] eqn:Ep; [|split; [reflexivity|exact I]].
    split; [reflexivity|]. apply (iv_keep I); [reflexivity|apply I|].
    intros j q [H|H]; left; cbn in H; [apply get_del_some in H; eauto|].
    destruct (Nat.eq_dec j (h_next s)) as [-> |Hj].
    + rewrite get_set_eq in H. injection H as <-. eauto.
    + rewrite get_set_ne in H by exact Hj. eauto.
  - destruct (get t (h_nack s)) as [p|] eqn:Ep; [|split; [reflexivity|exact I]].
    set (s0 := hw_nack (del t (h_nack s)) (h_next s) s).
    destruct (iv_pend I t _ (or_intror Ep)) as (n & Hn & ->).
    pose proof (timed_out_adl n s0 (iv_nodup I) Hn) as E.
    split; [rewrite E; apply stat_map, on_loss_stat|]. apply (iv_keep I).
    + rewrite E. apply stat_map, on_loss_stat.
    + rewrite E. intros a Ha. apply in_map_iff in Ha. destruct Ha as (b & <- & Hb). unfold on_loss.
      destruct (eqb (a_name b) n); [|apply (iv_status I b Hb)]. cbv zeta.
      destruct (_ || _); [apply (iv_status I b Hb)|right; reflexivity].
    + intros j q [H|H].
      * apply timed_out_pend in H. destruct H as [H| ->]; [left; eauto|right; eauto].
      * rewrite (proj1 (timed_out_rest _ _)) in H. left. cbn in H. apply get_del_some in H. eauto.
  - destruct (get i (h_pend s)) as [p|] eqn:Ep; [|split; [reflexivity|exact I]].
    set (s0 := hw_pend (del i (h_pend s)) (h_next s) s).
    destruct (iv_pend I i _ (or_introl Ep)) as (n & Hn & ->).
    pose proof (timed_out_adl n s0 (iv_nodup I) Hn) as E.
    split; [rewrite E; apply stat_map, on_loss_stat|]. apply (iv_keep I).
    + rewrite E. apply stat_map, on_loss_stat.
    + rewrite E. intros a Ha. apply in_map_iff in Ha. destruct Ha as (b & <- & Hb). unfold on_loss.
      destruct (eqb (a_name b) n); [|apply (iv_status I b Hb)]. cbv zeta.
      destruct (_ || _); [apply (iv_status I b Hb)|right; reflexivity].
    + intros j q [H|H].
      * apply timed_out_pend in H. destruct H as [H| ->]; [left|right; eauto]. cbn in H. apply get_del_some in H. eauto.
      * rewrite (proj1 (timed_out_rest _ _)) in H. left. eauto.
  - destruct (prefix_of _ iname); [|split; [reflexivity|exact I]].
    destruct (process_interest_adl iname s) as (E1 & E2 & _). rewrite E1. split; [reflexivity|].
    apply (iv_keep I); rewrite ?E1, ?E2; [reflexivity|apply I|].
    intros j q [H|H]; [|left; eauto]. apply process_interest_pend in H. destruct H; [left; eauto|right; assumption].
  - unfold face_destroyed. destruct (adl_find_face f (h_adl s)) as [a|]; [|split; [reflexivity|exact I]].
    destruct (eqb (a_status a) SActive); cbn [changed hemit fst].
    + split; [apply upd_first_map; reflexivity|]. apply (iv_keep I).
      * apply upd_first_map. reflexivity.
      * cbn [h_adl hw_adl]. intros b Hb. apply in_upd_first in Hb. destruct Hb as [Hb|(x & Hx & _ & ->)]; [apply (iv_status I b Hb)|].
        right. reflexivity.
      * intros j q H. left. exists j. exact H.
    + split; [apply upd_first_map; reflexivity|]. apply (iv_keep I).
      * apply upd_first_map. reflexivity.
      * cbn [h_adl hw_adl]. intros b Hb. apply in_upd_first in Hb. destruct Hb as [Hb|(x & Hx & _ & ->)]; [apply (iv_status I b Hb)|].
        apply (iv_status I x Hx).
      * intros j q H. left. exists j. exact H.
  - unfold face_created. destruct (adl_find_uri u (h_adl s)) as [a|]; [|split; [reflexivity|exact I]].
    destruct (_ || _); [|split; [reflexivity|exact I]]. cbn [fst].
    split; [apply upd_first_map; reflexivity|]. apply (iv_keep I).
    + apply upd_first_map. reflexivity.
    + cbn [h_adl hw_adl]. intros b Hb. apply in_upd_first in Hb. destruct Hb as [Hb|(x & Hx & _ & ->)]; [apply (iv_status I b Hb)|].
      apply (iv_status I x Hx).
    + intros j q H. left. exists j. exact H.
  - unfold face_dataset. pose proof (match_all_adl fs (h_adl s)) as E. destruct (match_all c fs (h_adl s)) as [l o].
    cbn [fst] in *. subst l. split; [apply stat_map; intros a; apply match_faces_stat|]. apply (iv_keep I).
    + apply stat_map. intros a. apply match_faces_stat.
    + cbn [h_adl hw_adl hw_ds]. intros b Hb. apply in_map_iff in Hb. destruct Hb as (a & <- & Ha).
      rewrite (proj1 (proj2 (match_faces_stat fs a))). apply (iv_status I a Ha).
    + intros j q H. left. exists j. exact H.
  - destruct (h_ds s); [|split; [reflexivity|exact I]]. unfold dataset_failed. destruct (_ <? _);
      (split; [reflexivity|]; apply (iv_keep I); [reflexivity|apply I|intros j q H; left; exists j; exact H]).
  - destruct (h_ds s); [split; [reflexivity|exact I]|].
    split; [reflexivity|]; apply (iv_keep I); [reflexivity|apply I|intros j q H; left; exists j; exact H].
  - cbn [fst]. split; [apply upd_first_map; reflexivity|]. apply (iv_keep I).
    + apply upd_first_map. reflexivity.
    + cbn [h_adl hw_adl]. intros b Hb. apply in_upd_first in Hb. destruct Hb as [Hb|(x & Hx & _ & ->)]; [apply (iv_status I b Hb)|].
      apply (iv_status I x Hx).
    + intros j q H. left. exists j. exact H.
Qed.

(** *** The initial state *)

Lemma conf_adl_spec l : NoDup (map a_name (conf_adl l)) /\ ~ In [] (map a_name (conf_adl l)) /\
  forall a, In a (conf_adl l) -> a_status a = SInactive /\ a_touts a = 0 /\ a_face a = 0.
Proof.
  unfold conf_adl.
  assert (G : forall acc, NoDup (map a_name acc) /\ ~ In [] (map a_name acc) /\
    (forall a, In a acc -> a_status a = SInactive /\ a_touts a = 0 /\ a_face a = 0) ->
    let r := fold_left (fun acc x => if eqb (fst (fst x)) [] then acc
       else snd (adl_insert (Adj (fst (fst x)) (snd (fst x)) (snd x) SInactive 0 0) acc)) l acc in
    NoDup (map a_name r) /\ ~ In [] (map a_name r) /\
    forall a, In a r -> a_status a = SInactive /\ a_touts a = 0 /\ a_face a = 0).
  { induction l as [|[[n0 u0] z0] l IH]; intros acc H; [exact H|]. cbn [fold_left fst snd]. apply IH. clear IH.
    match goal with |- context [if ?b then _ else _] => destruct b eqn:E0; [exact H|] end.
    apply (proj1 (eqb_neq _ _)) in E0.
    unfold adl_insert. cbn [a_name]. destruct (adl_find n0 acc) eqn:E; cbn [snd]; [exact H|].
    apply adl_find_none in E. destruct H as (H1 & H2 & H3). rewrite map_app. cbn [map a_name]. repeat split.
    - apply NoDup_app_intro; [exact H1|repeat constructor; intros []|]. intros y Hy [<- |[]]. contradiction.
    - rewrite in_app_iff. intros [H|[H|[]]]; [contradiction|]. apply E0. exact H.
    - intros. apply in_app_iff in H. destruct H as [H|[<- |[]]]; [now apply H3|reflexivity].
    - apply in_app_iff in H. destruct H as [H|[<- |[]]]; [now apply H3|reflexivity].
    - apply in_app_iff in H. destruct H as [H|[<- |[]]]; [now apply H3|reflexivity]. }
  apply G. split; [constructor|]. split; [intros []|intros x []].
Qed.

Lemma nlsr_adl_in a l : In a (nlsr_adl c l) -> exists b, In b l /\ a_name a = a_name b /\ a_uri a = a_uri b /\
  a_status a = a_status b /\ a_touts a = a_touts b /\ a_face a = a_face b.
Proof.
  unfold nlsr_adl. destruct (eqb (hc_hyp c) HOn).
  - intros H. apply in_map_iff in H. destruct H as (b & <- & Hb). exists b. repeat split. exact Hb.
  - intros H. exists a. repeat split. exact H.
Qed.
Lemma nlsr_adl_names l : map a_name (nlsr_adl c l) = map a_name l.
Proof. unfold nlsr_adl. destruct (eqb (hc_hyp c) HOn); [|reflexivity]. rewrite map_map. reflexivity. Qed.

Lemma hinit_inv l : hinv (fst (hinit c l)) /\ (forall a, In a (h_adl (fst (hinit c l))) ->
  a_status a = SInactive /\ a_touts a = 0 /\ a_face a = 0).
Proof.
  destruct (conf_adl_spec l) as (H1 & H2 & H3). cbn [hinit fst h_adl]. 
  assert (X : forall a, In a (nlsr_adl c (conf_adl l)) -> a_status a = SInactive /\ a_touts a = 0 /\ a_face a = 0).
  { intros a Ha. apply nlsr_adl_in in Ha. destruct Ha as (b & Hb & _ & _ & -> & -> & ->). now apply H3. }
  split; [|exact X]. split; cbn [h_adl h_pend h_nack]; rewrite ?nlsr_adl_names; auto.
  - intros a Ha. right. now apply X.
  - intros i p [H|H]; discriminate H.
Qed.

Lemma hstate_run l evs : hstate c l evs = fst (run (hstep c) (fst (hinit c l)) evs).
Proof.
  unfold hstate, hexec. destruct (hinit c l) as [s o]. cbn [fst]. destruct (run (hstep c) s evs). reflexivity.
Qed.

Lemma hstate_snoc l evs e : hstate c l (evs ++ [e]) = fst (hstep c (hstate c l evs) e).
Proof.
  rewrite !hstate_run, run_snoc. destruct (run (hstep c) (fst (hinit c l)) evs) as [s o]. cbn [fst].
  destruct (hstep c s e). reflexivity.
Qed.

Lemma hstate_inv l evs : hinv (hstate c l evs) /\ map stat (h_adl (hstate c l evs)) = map stat (h_adl (fst (hinit c l))).
Proof.
  induction evs as [|e evs IH] using rev_ind.
  - split; [apply hinit_inv|reflexivity].
  - rewrite hstate_snoc. destruct IH as [I E]. destruct (hstep_inv e I) as [E' I']. split; [exact I'|congruence].
Qed.

End Hello.

Arguments iv_keep {c s s'}.
Arguments iv_nodup {c s}.
Arguments iv_nonempty {c s}.
Arguments iv_status {c s}.
Arguments iv_pend {c s}.
Arguments hstep_inv {c s}.

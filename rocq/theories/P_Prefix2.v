(** C46: prefixes saved to the configuration file. *)
From Verif Require Import Base M_Nexthop M_Tlv M_Adj M_Lsa M_Lsdb S_Lsdb X_Lsdb M_Prefix S_Prefix L_Prefix P_Prefix.
Open Scope Z_scope.
Set Implicit Arguments.

(** ** Paths *)

Lemma dot_free_neq c s : dot_free (String c s) = true -> Ascii.eqb c DOT = false /\ dot_free s = true.
Proof. cbn. unfold DOT. destruct (Ascii.eqb c "."); cbn; [discriminate|auto]. Qed.

Lemma append_assoc (a b c : string) : ((a ++ b) ++ c = a ++ (b ++ c))%string.
Proof. induction a as [|x a IH]; [reflexivity|]. cbn. now rewrite IH. Qed.

Lemma append_nil (a : string) : (a ++ "" = a)%string.
Proof. induction a as [|x a IH]; [reflexivity|]. cbn. now rewrite IH. Qed.

Lemma path_dot_free acc u : dot_free u = true -> (acc ++ u)%string <> ""%string -> path_of acc u = [(acc ++ u)%string].
Proof.
  revert acc. induction u as [|c u IH]; intros acc Hd Hn; cbn [path_of].
  - rewrite append_nil in *. destruct acc; [congruence|reflexivity].
  - apply dot_free_neq in Hd. destruct Hd as [-> Hd]. rewrite IH; trivial; rewrite append_assoc; [reflexivity|].
    exact Hn.
Qed.

Lemma path_section u : dot_free u = true -> u <> ""%string ->
  path_of "" ("advertising." ++ u) = ["advertising"%string; u].
Proof. intros Hd Hn. cbn. now rewrite (path_dot_free "" u Hd Hn). Qed.

Lemma path_first u : exists r, path_of "" ("advertising." ++ u) = "advertising"%string :: r.
Proof. cbn. eauto. Qed.

Lemma split_dot_free u : dot_free u = true -> split_last u = None.
Proof.
  induction u as [|c u IH]; intros H; [reflexivity|]. apply dot_free_neq in H. destruct H as [E H].
  cbn [split_last]. now rewrite (IH H), E.
Qed.

Lemma split_section u : dot_free u = true -> split_last ("advertising." ++ u) = Some ("advertising"%string, u).
Proof. intros H. cbn. now rewrite (split_dot_free u H). Qed.

Lemma split_dots u : exists a b, split_last ("advertising." ++ u) = Some (a, b) /\
  (path_of "" a = ["advertising"%string] \/ exists x r, path_of "" a = "advertising"%string :: x :: r \/ path_of "" a = ["advertising"%string]).
Proof.
  cbn. destruct (split_last u) as [[a b]|].
  - do 2 eexists. split; [reflexivity|]. cbn. destruct (path_of "" a) as [|x r]; [now left|]. right. exists x, r. now left.
  - do 2 eexists. split; [reflexivity|]. now left.
Qed.

(** ** Children *)

Lemma sel_upd_same k f ch : sel k (upd_child k f ch) =
  match sel k ch with [] => [(k, f (PT "" []))] | (k', t) :: r => (k', f t) :: r end.
Proof.
  induction ch as [|[k' t] ch IH]; cbn; [now rewrite eqb_refl|].
  destruct (eqb k k') eqn:E; cbn; rewrite E; [reflexivity|exact IH].
Qed.

Lemma sel_upd_other k k' f ch : k' <> k -> sel k' (upd_child k f ch) = sel k' ch.
Proof.
  intros Hn. induction ch as [|[x t] ch IH]; cbn.
  - now rewrite (neqb Hn).
  - destruct (eqb k x) eqn:E; cbn.
    + apply eqb_eq in E. subst x. now rewrite (neqb Hn).
    + destruct (eqb k' x); [f_equal|]; exact IH.
Qed.

Lemma sel_map_same k f ch : sel k (map_first k f ch) =
  match sel k ch with [] => [] | (k', t) :: r => (k', f t) :: r end.
Proof.
  induction ch as [|[k' t] ch IH]; cbn; [reflexivity|].
  destruct (eqb k k') eqn:E; cbn; rewrite E; [reflexivity|exact IH].
Qed.

Lemma sel_map_other k k' f ch : k' <> k -> sel k' (map_first k f ch) = sel k' ch.
Proof.
  intros Hn. induction ch as [|[x t] ch IH]; cbn; [reflexivity|].
  destruct (eqb k x) eqn:E; cbn.
  - apply eqb_eq in E. subst x. now rewrite (neqb Hn).
  - destruct (eqb k' x); [f_equal|]; exact IH.
Qed.

Lemma sel_erase_same k t : sel k (pt_children (pt_erase k t)) = [].
Proof.
  unfold pt_erase, sel. cbn [pt_children]. induction (pt_children t) as [|[x u] ch IH]; [reflexivity|].
  cbn. destruct (eqb k x) eqn:E; cbn; [exact IH|]. now rewrite E.
Qed.

Lemma sel_erase_other k k' t : k' <> k -> sel k' (pt_children (pt_erase k t)) = sel k' (pt_children t).
Proof.
  intros Hn. unfold pt_erase, sel. cbn [pt_children]. induction (pt_children t) as [|[x u] ch IH]; [reflexivity|].
  cbn. destruct (eqb k x) eqn:E; cbn.
  - apply eqb_eq in E. subst x. rewrite (neqb Hn). exact IH.
  - destruct (eqb k' x); [f_equal|]; exact IH.
Qed.

(** ** One change of the tree *)

(** A tidy tree has no advertising section or one. *)
Lemma tidy_cases t : tidy t ->
  (sel "advertising" (pt_children t) = [] /\ forall u, saved t u = []) \/
  exists k sec, sel "advertising" (pt_children t) = [(k, sec)] /\
    forall u, saved t u = map (fun e => pt_data (snd e)) (sel u (pt_children sec)) /\
              (length (sel u (pt_children sec)) <= 1)%nat.
Proof.
  intros [H1 H2]. unfold saved in *. destruct (sel "advertising" (pt_children t)) as [|[k sec] [|? ?]].
  - left. auto.
  - right. exists k, sec. split; [reflexivity|]. intros u. specialize (H2 u). cbn in H2 |- *.
    rewrite app_nil_r in *. split; [reflexivity|]. now rewrite map_length in H2.
  - cbn in H1. lia.
Qed.

Lemma saved_one t k sec : sel "advertising" (pt_children t) = [(k, sec)] ->
  forall u, saved t u = map (fun e => pt_data (snd e)) (sel u (pt_children sec)).
Proof. intros E u. unfold saved. rewrite E. cbn. apply app_nil_r. Qed.

Lemma put_saved t u v : tidy t -> dot_free u = true -> u <> ""%string ->
  tidy (ed_put ("advertising." ++ u) v t) /\ saved (ed_put ("advertising." ++ u) v t) u = [v] /\
  forall u', u' <> u -> saved (ed_put ("advertising." ++ u) v t) u' = saved t u'.
Proof.
  intros T Hd Hn. unfold ed_put. rewrite (path_section Hd Hn).
  set (t' := pt_put _ v t).
  assert (E : exists k sec', sel "advertising" (pt_children t') = [(k, sec')] /\
             map (fun e => pt_data (snd e)) (sel u (pt_children sec')) = [v] /\
             forall u', u' <> u -> map (fun e => pt_data (snd e)) (sel u' (pt_children sec')) = saved t u').
  { unfold t'. cbn [pt_put pt_children]. rewrite sel_upd_same.
    destruct (tidy_cases T) as [[-> S]|(k & sec & -> & S)].
    - do 2 eexists. split; [reflexivity|]. cbn. rewrite eqb_refl. split; [reflexivity|].
      intros u' Hu. rewrite (neqb Hu), S. reflexivity.
    - do 2 eexists. split; [reflexivity|]. cbn [pt_children]. rewrite sel_upd_same. split.
      + destruct (S u) as [_ L]. destruct (sel u (pt_children sec)) as [|[k1 t1] [|? ?]]; cbn in *; [reflexivity|reflexivity|lia].
      + intros u' Hu. rewrite sel_upd_other by exact Hu. symmetry. apply S. }
  destruct E as (k & sec' & E1 & E2 & E3).
  assert (Sv := saved_one t' E1). split; [|split].
  - split; [rewrite E1; cbn; lia|]. intros u'. rewrite Sv.
    destruct (eq_dec u' u) as [-> |Hu]; [rewrite E2; cbn; lia|]. rewrite E3 by exact Hu. apply T.
  - now rewrite Sv.
  - intros u' Hu. rewrite Sv. now apply E3.
Qed.

Lemma remove_saved t u : tidy t -> dot_free u = true ->
  tidy (ed_remove ("advertising." ++ u) t) /\ saved (ed_remove ("advertising." ++ u) t) u = [] /\
  forall u', u' <> u -> saved (ed_remove ("advertising." ++ u) t) u' = saved t u'.
Proof.
  intros T Hd. unfold ed_remove. rewrite (split_section _ Hd).
  change (path_of "" "advertising") with ["advertising"%string].
  set (t' := pt_at _ _ t).
  destruct (tidy_cases T) as [[E S]|(k & sec & E & S)].
  - assert (E' : sel "advertising" (pt_children t') = []).
    { unfold t'. cbn [pt_at pt_children]. now rewrite sel_map_same, E. }
    assert (Sv : forall u, saved t' u = []) by (intros; unfold saved; now rewrite E').
    split; [|split; [apply Sv|]].
    + split; [rewrite E'; cbn; lia|]. intros u'. rewrite Sv. cbn. lia.
    + intros u' _. now rewrite Sv, S.
  - assert (E' : sel "advertising" (pt_children t') = [(k, pt_erase u sec)]).
    { unfold t'. cbn [pt_at pt_children]. now rewrite sel_map_same, E. }
    assert (Sv := saved_one t' E'). assert (X : saved t' u = []) by (rewrite Sv, sel_erase_same; reflexivity).
    assert (Y : forall u', u' <> u -> saved t' u' = saved t u').
    { intros u' Hu. rewrite Sv, sel_erase_other by exact Hu. symmetry. apply S. }
    split; [|auto]. split; [rewrite E'; cbn; lia|]. intros u'.
    destruct (eq_dec u' u) as [-> |Hu]; [rewrite X; cbn; lia|]. rewrite Y by exact Hu. apply T.
Qed.

(** Any URI, with dots or without, leaves the tree tidy. *)
Lemma put_tidy t u v : tidy t -> tidy (ed_put ("advertising." ++ u) v t).
Proof.
  intros T. unfold ed_put. destruct (path_first u) as [r ->]. set (t' := pt_put _ v t).
  destruct r as [|x r].
  - unfold t'. cbn [pt_put pt_children].
    destruct (tidy_cases T) as [[E0 S]|(k & sec & E0 & S)].
    + assert (E' : sel "advertising" (pt_children (pt_put ["advertising"%string] v t)) = [("advertising"%string, PT v [])]).
      { cbn [pt_put pt_children]. now rewrite sel_upd_same, E0. }
      split; [cbn [pt_put] in E'; rewrite E'; cbn; lia|]. intros u'. cbn [pt_put] in E'. rewrite (saved_one _ E'). cbn. lia.
    + assert (E' : sel "advertising" (pt_children (pt_put ["advertising"%string] v t)) = [(k, PT v (pt_children sec))]).
      { cbn [pt_put pt_children]. now rewrite sel_upd_same, E0. }
      split; [cbn [pt_put] in E'; rewrite E'; cbn; lia|]. intros u'. cbn [pt_put] in E'. rewrite (saved_one _ E').
      cbn [pt_children]. rewrite map_length. apply S.
  - assert (E : exists k sec', sel "advertising" (pt_children t') = [(k, sec')] /\
             forall u', (length (sel u' (pt_children sec')) <= 1)%nat).
    { unfold t'. cbn [pt_put pt_children]. rewrite sel_upd_same.
      assert (G : forall ch, (forall u', (length (sel u' ch) <= 1)%nat) ->
                forall f u', (length (sel u' (upd_child x f ch)) <= 1)%nat).
      { intros ch Hc f u'. destruct (eq_dec u' x) as [-> |Hu].
        - rewrite sel_upd_same. specialize (Hc x). destruct (sel x ch) as [|[? ?] ?]; cbn in *; lia.
        - rewrite sel_upd_other by exact Hu. apply Hc. }
      destruct (tidy_cases T) as [[-> S]|(k & sec & -> & S)]; do 2 eexists; (split; [reflexivity|]);
        cbn [pt_children]; apply G.
      - intros u'. cbn. lia.
      - intros u'. apply S. }
    destruct E as (k & sec' & E1 & E2). split; [rewrite E1; cbn; lia|].
    intros u'. rewrite (saved_one t' E1), map_length. apply E2.
Qed.

Lemma remove_tidy t u : tidy t -> tidy (ed_remove ("advertising." ++ u) t).
Proof.
  intros T. unfold ed_remove. destruct (split_dots u) as (a & b & -> & Hp).
  assert (G : forall r, tidy (pt_at ("advertising"%string :: r) (pt_erase b) t)).
  { intros r. set (t' := pt_at _ _ t).
    destruct (tidy_cases T) as [[E S]|(k & sec & E & S)].
    - assert (E' : sel "advertising" (pt_children t') = []).
      { unfold t'. cbn [pt_at pt_children]. now rewrite sel_map_same, E. }
      split; [rewrite E'; cbn; lia|]. intros u'. unfold saved. rewrite E'. cbn. lia.
    - assert (E' : sel "advertising" (pt_children t') = [(k, pt_at r (pt_erase b) sec)]).
      { unfold t'. cbn [pt_at pt_children]. now rewrite sel_map_same, E. }
      split; [rewrite E'; cbn; lia|]. intros u'. rewrite (saved_one t' E'), map_length.
      destruct r as [|x r]; cbn [pt_at pt_children].
      + destruct (eq_dec u' b) as [-> |Hu]; [rewrite sel_erase_same; cbn; lia|].
        rewrite sel_erase_other by exact Hu. apply S.
      + destruct (eq_dec u' x) as [-> |Hu].
        * rewrite sel_map_same. destruct (S x) as [_ L]. destruct (sel x (pt_children sec)) as [|[? ?] ?]; cbn in *; lia.
        * rewrite sel_map_other by exact Hu. apply S. }
  destruct Hp as [-> |(x & r & [-> | ->])]; apply G.
Qed.

(** ** Commands and runs *)

Section Runs.
Variable u : name -> string.
Variable c : conf.

Lemma do_cmd_file sys l m w s : p_file (fst (do_cmd u c sys l m w s)) =
  if saves m then snd (after_cmd u m w (p_file s)) else p_file s.
Proof.
  unfold do_cmd. destruct (list_cmd m (p_list s)) as [ch p'].
  destruct (if ch then _ else _) as [d' o]. destruct (saves m); [|reflexivity].
  destruct (after_cmd _ _ _ _). reflexivity.
Qed.

Lemma tidy_after m w f : tidy_file f -> (forall f', w = WFail f' -> tidy_file f') ->
  tidy_file (snd (after_cmd u m w f)).
Proof.
  intros Hf Hw. unfold after_cmd. destruct (m_proto m); [|exact Hf].
  assert (G : forall k b, tidy_file (snd (add_or_delete u (m_name m) k b w f))).
  { intros k b. unfold add_or_delete. destruct f as [[ls pt]|]; [|exact Hf].
    destruct b.
    - destruct (in_file _ _); [exact Hf|]. destruct pt as [t|]; [|exact Hf].
      destruct w as [|f']; cbn; [now apply put_tidy|now apply Hw].
    - destruct (negb _); [exact Hf|]. destruct pt as [t|]; [|exact Hf].
      destruct w as [|f']; cbn; [now apply remove_tidy|now apply Hw]. }
  destruct (m_add m); apply G.
Qed.

Lemma tidy_exec q now sys l p f evs : tidy_file f -> tidy_writes evs ->
  tidy_file (p_file (fst (pexec u c q now sys l p f evs))).
Proof.
  intros Hf. induction evs as [|x evs IH] using rev_ind; intros Hw.
  - rewrite pexec_fst. cbn [run fst]. unfold pinit. destruct (init _ _ _ _). exact Hf.
  - rewrite pexec_snoc. set (s := fst (pexec u c q now sys l p f evs)) in *.
    assert (T : tidy_file (p_file s)).
    { apply IH. intros sys0 l0 m f0 Hin. eapply Hw. apply in_app_iff. left. exact Hin. }
    unfold pstep. destruct (s_dead (p_db s)); [exact T|].
    destruct x as [sys' l' v|sys' l' m w]; cbn [pstep_live].
    + destruct v; try exact T; (destruct (step c (p_db s) _); exact T).
    + rewrite do_cmd_file. destruct (saves m); [|exact T]. apply tidy_after; [exact T|].
      intros f' ->. eapply Hw. apply in_app_iff. right. left. reflexivity.
Qed.

Lemma reply_205 sys l m w s face : saves m = true -> m_proto m = Nlsr ->
  In (205%N, face) (replies (snd (do_cmd u c sys l m w s))) ->
  fst (after_cmd u m w (p_file s)) = true.
Proof.
  intros Hs Hp. unfold do_cmd. destruct (list_cmd m (p_list s)) as [ch p'].
  destruct (if ch then _ else _) as [d' o]. rewrite Hs.
  destruct (after_cmd _ _ _ _) as [ok f']. cbn [fst snd]. unfold replies. rewrite flat_map_app, in_app_iff.
  intros [H|H].
  - exfalso. apply in_flat_map in H. destruct H as (x & Hx & H). apply in_map_iff in Hx.
    destruct Hx as (y & <- & _). destruct H.
  - cbn in H. destruct H as [H|[]]. destruct ok; [reflexivity|discriminate].
Qed.
End Runs.

(** One command answered 205. *)
Lemma saved_step u c s sys' l' m w face :
  let r := pstep u c s (PvCmd sys' l' m w) in
  tidy_file (p_file s) ->
  m_proto m = Nlsr -> m_flags m = Some 1%N -> dot_free (u (m_name m)) = true -> u (m_name m) <> ""%string ->
  In (205%N, face) (replies (snd r)) ->
  saved_in (p_file (fst r)) (u (m_name m)) =
    Some (if m_add m then [dec (match m_cost m with Some k => k | None => 0%N end)] else []) /\
  forall n, u n <> u (m_name m) -> saved_in (p_file (fst r)) (u n) = saved_in (p_file s) (u n).
Proof.
  intros r T Hp Hfl Hd Hn Hr.
  unfold r, pstep in *. destruct (s_dead (p_db s)); [destruct Hr|]. cbn [pstep_live] in *.
  assert (Hs : saves m = true) by (unfold saves; now rewrite Hfl).
  pose proof (reply_205 _ _ _ _ _ _ _ _ Hs Hp Hr) as Ok. rewrite do_cmd_file, Hs. clear Hr r.
  revert Ok. unfold after_cmd. rewrite Hp.
  destruct (m_add m).
  - unfold add_or_delete. destruct (p_file s) as [[ls pt]|] eqn:Ef; [|discriminate].
    destruct (in_file _ _); [discriminate|]. destruct pt as [t|]; [|discriminate].
    destruct w as [|f']; [|discriminate]. intros _. cbn [ed_save snd saved_in].
    destruct (@put_saved _ _ (dec match m_cost m with Some k => k | None => 0%N end) T Hd Hn) as (_ & A & B).
    split; [now rewrite A|]. intros n Hu. now rewrite B.
  - unfold add_or_delete. destruct (p_file s) as [[ls pt]|] eqn:Ef; [|discriminate].
    destruct (negb _); [discriminate|]. destruct pt as [t|]; [|discriminate].
    destruct w as [|f']; [|discriminate]. intros _. cbn [ed_save snd saved_in].
    destruct (@remove_saved _ _ T Hd) as (_ & A & B).
    split; [now rewrite A|]. intros n Hu. now rewrite B.
Qed.

(** After any history of commands on a tidy configuration: an advertise command with the save flag
    that is answered 205 leaves the prefix listed exactly once, with the command's cost, and changes
    no other listed prefix; a withdraw command with the delete flag that is answered 205 leaves it not
    listed, and changes no other.  For prefixes whose URI has no dot. *)
Theorem C46_saved_partial u c q now sys l p f evs sys' l' m w face :
  let s := fst (pexec u c q now sys l p f evs) in
  let r := pstep u c s (PvCmd sys' l' m w) in
  tidy_file f -> tidy_writes evs ->
  m_proto m = Nlsr -> m_flags m = Some 1%N -> dot_free (u (m_name m)) = true -> u (m_name m) <> ""%string ->
  In (205%N, face) (replies (snd r)) ->
  saved_in (p_file (fst r)) (u (m_name m)) =
    Some (if m_add m then [dec (match m_cost m with Some k => k | None => 0%N end)] else []) /\
  forall n, u n <> u (m_name m) -> saved_in (p_file (fst r)) (u n) = saved_in (p_file s) (u n).
Proof.
  intros s r Hf Hw Hp Hfl Hd Hn Hr.
  apply (saved_step u c s sys' l' m w face); trivial. now apply tidy_exec.
Qed.

(** Every other event leaves the file alone: database events, readvertise commands, commands without
    the flag, and commands that are answered 500 because of what the file holds. *)
Theorem C46_untouched u c s x :
  (forall sys l m w, x = PvCmd sys l m w -> m_proto m = Nlsr -> m_flags m <> Some 1%N) ->
  p_file (fst (pstep u c s x)) = p_file s.
Proof.
  intros H. unfold pstep. destruct (s_dead (p_db s)); [reflexivity|].
  destruct x as [sys l v|sys l m w]; cbn [pstep_live].
  - destruct v; try reflexivity; (destruct (step c (p_db s) _); reflexivity).
  - rewrite do_cmd_file. destruct (saves m) eqn:Es; [|reflexivity].
    unfold after_cmd. destruct (m_proto m) eqn:Ep; [|reflexivity]. exfalso.
    apply (H sys l m w eq_refl Ep). unfold saves in Es. destruct (m_flags m) as [x|]; [|discriminate].
    apply N.eqb_eq in Es. now subst.
Qed.

(** A prefix saved at cost 0 can be deleted again right away: the delete command is answered 205. *)
Lemma lines_saved t u k : saved t u <> [] -> In "0"%string (saved t u) -> u <> ""%string -> has_special u = false ->
  k = ("    " ++ u ++ " 0")%string -> In k (pt_lines 0 t).
Proof.
  intros _ H Hn Hs ->. unfold saved in H. apply in_flat_map in H. destruct H as ([a sec] & Ha & H).
  apply filter_In in Ha. destruct Ha as [Ha Ea]. cbn [fst] in Ea. apply eqb_eq in Ea. subst a.
  apply in_map_iff in H. destruct H as ([a v] & Ed & Hv). apply filter_In in Hv. destruct Hv as [Hv Ev].
  cbn [fst snd] in *. apply eqb_eq in Ev. subst a.
  destruct t as [d ch]. cbn [pt_children] in Ha. cbn [pt_lines]. apply in_flat_map.
  exists ("advertising"%string, sec). split; [exact Ha|]. right.
  destruct sec as [d1 ch1]. cbn [pt_children] in *. destruct ch1 as [|e ch1]; [destruct Hv|].
  apply in_app_iff. left. right.
  cbn [pt_lines]. apply in_flat_map. exists (u, v). split; [exact Hv|]. left.
  unfold out_key, out_data. rewrite (neqb Hn), Hs, Ed. reflexivity.
Qed.

Theorem C46_delete_again u c q now sys l p f evs sys1 l1 m1 sys2 l2 m2 face :
  let s := fst (pexec u c q now sys l p f evs) in
  let r1 := pstep u c s (PvCmd sys1 l1 m1 WOk) in
  let r2 := pstep u c (fst r1) (PvCmd sys2 l2 m2 WOk) in
  tidy_file f -> tidy_writes evs ->
  m_proto m1 = Nlsr -> m_add m1 = true -> m_flags m1 = Some 1%N ->
  (m_cost m1 = None \/ m_cost m1 = Some 0%N) ->
  m_proto m2 = Nlsr -> m_add m2 = false -> m_flags m2 = Some 1%N -> m_name m2 = m_name m1 ->
  dot_free (u (m_name m1)) = true -> u (m_name m1) <> ""%string -> has_special (u (m_name m1)) = false ->
  s_dead (p_db (fst r1)) = false ->
  In (205%N, face) (replies (snd r1)) ->
  In (205%N, face_of m2) (replies (snd r2)).
Proof.
  intros s r1 r2 Hf Hw P1 A1 F1 K1 P2 A2 F2 Nm Hd Hn Hs Hdead H1.
  destruct (@C46_saved_partial u c q now sys l p f evs sys1 l1 m1 WOk face Hf Hw P1 F1 Hd Hn H1) as [S _].
  fold s in S. fold r1 in S.
  assert (Z : dec match m_cost m1 with Some k => k | None => 0%N end = "0"%string)
    by (destruct K1 as [-> | ->]; reflexivity).
  rewrite A1, Z in S. unfold saved_in in S.
  destruct (p_file (fst r1)) as [[ls pt]|] eqn:Ef; [|discriminate]. destruct pt as [t|]; [|discriminate].
  injection S as S.
  assert (L : In ("    " ++ u (m_name m1) ++ " 0")%string ls).
  { assert (E : ls = pt_lines 0 t).
    { revert Ef. unfold r1, pstep. unfold r1, pstep in H1. destruct (s_dead (p_db s)); [destruct H1|].
      cbn [pstep_live] in *. assert (Hsv : saves m1 = true) by (unfold saves; now rewrite F1).
      pose proof (reply_205 _ _ _ _ _ _ _ _ Hsv P1 H1) as Ok. rewrite do_cmd_file, Hsv.
      revert Ok. unfold after_cmd. rewrite P1, A1. unfold add_or_delete.
      destruct (p_file s) as [[ls0 pt0]|]; [|discriminate].
      destruct (in_file _ _); [discriminate|]. destruct pt0 as [t0|]; [|discriminate].
      cbn [ed_save fst snd]. intros _ E. injection E as <- <-. reflexivity. }
    rewrite E. apply (lines_saved t (u := u (m_name m1))); trivial; rewrite S; [discriminate|now left]. }
  unfold r2, pstep. rewrite Hdead. cbn [pstep_live]. unfold do_cmd.
  destruct (list_cmd m2 (p_list (fst r1))) as [ch p'].
  destruct (if ch then _ else _) as [d' o].
  assert (Hsv : saves m2 = true) by (unfold saves; now rewrite F2). rewrite Hsv, Ef.
  unfold after_cmd. rewrite P2, A2. unfold add_or_delete. rewrite Nm. cbn [in_file].
  change (" " ++ dec 0)%string with " 0"%string.
  assert (X : existsb (eqb ("    " ++ u (m_name m1) ++ " 0")%string) ls = true) by (now apply existsb_In).
  rewrite X. cbn [negb ed_save snd]. unfold replies. rewrite flat_map_app, in_app_iff. right. left.
  f_equal. unfold reply_face, face_of, DEFAULT_FACE. destruct (m_face m2) as [x|]; [|reflexivity].
  destruct (N.ltb_spec 0 x), (N.eqb_spec x 0); try reflexivity; lia.
Qed.

(** ** Cases *)

Definition treeX : ptree := PT "" [("general", PT "" [("network", PT "/ndn" [])]); ("advertising", PT "" [("/ndn/video", PT "5" [])])]%string.
Definition fileX : cfile := Some (pt_lines 0 treeX, Some treeX).
Definition saveX (add : bool) (n : name) (k : N) : pev := PvCmd T0 adlX (cmdX Nlsr add n k (Some 1%N)) WOk.

Lemma tidy_X : tidy treeX.
Proof.
  split; [cbn; lia|]. intros u. unfold saved, treeX. cbn. destruct (eqb u "/ndn/video"%string); cbn; lia.
Qed.

Example C46_case :
  let s := fst (pX0 [saveX true p2X 3] fileX) in
  saved_in (p_file s) "/ndn/mail" = Some ["3"%string] /\ saved_in (p_file s) "/ndn/video" = Some ["5"%string] /\
  replies (snd (pX0 [saveX true p2X 0; saveX false p2X 0] fileX)) = [(205, 1); (205, 1)]%N /\
  tidy_file fileX /\ dot_free (uriX p2X) = true.
Proof.
  split; [vm_compute; reflexivity|]. split; [vm_compute; reflexivity|].
  split; [vm_compute; reflexivity|]. split; [exact tidy_X|reflexivity].
Qed.

(** The lines written for the example. *)
Example C46_lines :
  pt_lines 0 treeX = ["general"; "{"; "    network /ndn"; "}"; "advertising"; "{"; "    /ndn/video 5"; "}"]%string.
Proof. reflexivity. Qed.

(** A prefix saved at another cost than 0 cannot be deleted: the command is answered 500 and the
    prefix stays in the file, although it is withdrawn. *)
Theorem C46_delete_cost_refuted :
  let r := pX0 [saveX true p2X 3; saveX false p2X 3] fileX in
  replies (snd r) = [(205, 1); (500, 1)]%N /\ saved_in (p_file (fst r)) "/ndn/mail" = Some ["3"%string] /\
  ~ In p2X (pl_names (p_list (fst r))).
Proof.
  split; [vm_compute; reflexivity|]. split; [vm_compute; reflexivity|].
  intros H. vm_compute in H. destruct H as [H|[]]. discriminate H.
Qed.

(** A prefix whose URI has a dot is saved elsewhere, answered 205 though: it is not listed, and a prefix
    nobody advertised is listed with an empty cost, which the configuration reader rejects at the
    next start.  Deleting it removes only the inner node. *)
Theorem C46_dot_refuted :
  let n := nm ["ndn"; "v1.0"]%string in
  let r := pX0 [saveX true n 0] fileX in
  replies (snd r) = [(205, 1)]%N /\
  saved_in (p_file (fst r)) (uriX n) = Some [] /\
  saved_in (p_file (fst r)) "/ndn/v1" = Some [""%string].
Proof. split; [|split]; vm_compute; reflexivity. Qed.

(** In a file that lists a prefix twice, saving changes the first line only. *)
Theorem C46_untidy_refuted :
  let t := PT "" [("advertising", PT "" [("/ndn/mail", PT "5" []); ("/ndn/mail", PT "6" [])])]%string in
  let r := pX0 [saveX true p2X 3] (Some (pt_lines 0 t, Some t)) in
  replies (snd r) = [(205, 1)]%N /\ saved_in (p_file (fst r)) "/ndn/mail" = Some ["3"; "6"]%string.
Proof. split; vm_compute; reflexivity. Qed.

Print Assumptions C46_saved_partial.
Print Assumptions C46_untouched.
Print Assumptions C46_delete_again.
Print Assumptions C46_delete_cost_refuted.
Print Assumptions C46_dot_refuted.
Print Assumptions C46_untidy_refuted.

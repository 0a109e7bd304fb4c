(** C44, C45 and C47: advertised prefixes, commands and the own Name LSA. *)
From Verif Require Import Base M_Nexthop M_Tlv M_Adj M_Lsa M_Lsdb S_Lsdb L_Lsdb L_Lsdb2 L_Lsdb3 L_Lsdb4
  X_Lsdb M_Prefix S_Prefix L_Prefix.
Open Scope Z_scope.
Set Implicit Arguments.

(** ** C44 *)

(** A prefix is in the list exactly while some source has advertised it and not withdrawn it since. *)
Theorem C44_sources h n : In n (pl_names (after h)) <-> exists src, wants h n src = true.
Proof.
  rewrite (names_srcs n (wfp_after h)). split; intros [src H]; exists src; now apply srcs_after.
Qed.

(** Withdrawing for one source never cancels another source's advertisement. *)
Theorem C44_other_source h n src src' : wants h n src = true -> src' <> src ->
  In n (pl_names (after (h ++ [RWd n src']))).
Proof.
  intros H Hn. apply C44_sources. exists src. rewrite wants_snoc.
  rewrite (@neqb _ _ src src') by congruence. now rewrite andb_false_r.
Qed.

(** The listed cost is that of the latest request to advertise the prefix. *)
Theorem C44_cost h n k : In (n, k) (pl_info (after h)) -> last_cost None h n = Some k.
Proof.
  unfold pl_info. rewrite in_map_iff. intros ([n' [k' ss]] & E & Hin). cbn [fst snd] in E.
  injection E as -> ->. apply (@cost_after h n k ss). apply In_get; [apply (wfp_after h)|exact Hin].
Qed.

(** A request reports whether it changed what its source wants. *)
Theorem C44_return h r :
  fst (do_req (after h) r) =
  match r with
  | RAdv n src _ => negb (wants h n src)
  | RWd n src => wants h n src
  end.
Proof.
  assert (G : forall n src, existsb (eqb src) (srcs (after h) n) = wants h n src).
  { intros n src. pose proof (srcs_after h n src) as S. pose proof (existsb_In src (srcs (after h) n)) as X.
    destruct (wants h n src).
    - apply X, S. reflexivity.
    - apply existsb_In_false. intros Y. apply S in Y. discriminate. }
  destruct r; cbn [do_req]; [rewrite insert_ret|rewrite erase_ret]; now rewrite G.
Qed.

Example C44_case :
  let h := [RAdv pX "cfg" 1; RAdv pX "face7" 2; RWd pX "face7"; RAdv p2X "face7" 3; RWd p2X "face7"] in
  pl_info (after h) = [(pX, 2)] /\ wants h pX "cfg" = true /\ wants h p2X "face7" = false.
Proof. repeat split. Qed.

(** The program has only one source: configuration, commands and readvertise all use [""].  So the
    prefix is advertised exactly if the last command about it was an advertise command or, without
    one, if it is configured. *)
Lemma current_alive u c q now sys l cfg f evs :
  s_dead (p_db (fst (pexec u c q now sys l (configured cfg) f evs))) = false ->
  forall n, get n (p_list (fst (pexec u c q now sys l (configured cfg) f evs))) =
            option_map (fun k => (k, [""%string])) (current_cost (cfg_cost cfg n) evs n).
Proof.
  induction evs as [|x evs IH] using rev_ind; intros Hd n.
  - rewrite pexec_fst. apply (pinv_init c q now sys l cfg f).
  - rewrite pexec_snoc in *. set (s := fst (pexec u c q now sys l (configured cfg) f evs)) in *.
    assert (Hd0 : s_dead (p_db s) = false).
    { destruct (s_dead (p_db s)) eqn:E; [|reflexivity]. rewrite pstep_dead in Hd by exact E. congruence. }
    specialize (IH Hd0). rewrite current_cost_snoc. unfold pstep. rewrite Hd0.
    destruct x as [sys' l' v|sys' l' m w]; cbn [ev_cur pstep_live].
    + assert (G : forall d, p_list (Pst d (p_list s) (p_file s)) = p_list s) by reflexivity.
      destruct v; try apply IH; (destruct (step c (p_db s) _) as [dd oo]; apply IH).
    + destruct (do_cmd_db u c sys' l' m w s) as [Ep _]. rewrite Ep.
      destruct (list_cmd_get m (p_list s) (fun n => current_cost (cfg_cost cfg n) evs n) IH) as (L1 & _).
      apply L1.
Qed.

Lemma advertised_current b k evs n : (b = true <-> exists x, k = Some x) ->
  (advertised b evs n = true <-> exists x, current_cost k evs n = Some x).
Proof.
  revert b k. induction evs as [|[sys l v|sys l m w] evs IH]; intros b k H; cbn [advertised current_cost]; auto.
  apply IH. destruct (eqb n (m_name m)); [|exact H]. destruct (m_add m); split; eauto; try discriminate.
  intros [x E]. discriminate.
Qed.

Theorem C44_program u c q now sys l cfg f evs n :
  let s := fst (pexec u c q now sys l (configured cfg) f evs) in
  s_dead (p_db s) = false ->
  (In n (pl_names (p_list s)) <->
   advertised (existsb (fun e => eqb n (fst e)) cfg) evs n = true).
Proof.
  intros s Hd. unfold pl_names. rewrite get_Some_keys, (current_alive _ _ _ _ _ _ _ _ _ Hd).
  assert (B : existsb (fun e => eqb n (fst e)) cfg = true <-> exists x, cfg_cost cfg n = Some x).
  { clear. induction cfg as [|[n' k] cfg IH]; cbn [existsb cfg_cost fst]; [split; [discriminate|intros [x E]; discriminate]|].
    rewrite orb_true_iff, IH. destruct (cfg_cost cfg n).
    - split; eauto.
    - destruct (eqb n n'); split; eauto; intros [E|[x E]]; discriminate || eauto. }
  rewrite (advertised_current _ _ B). destruct (current_cost _ _ _); cbn; split; intros [x E]; eauto; discriminate.
Qed.

(** A readvertise unregistration cancels a prefix that the configuration still lists: one source
    cancels another. *)
Definition uriX (n : name) : string := fold_right (fun x r => ("/" ++ cval x ++ r)%string) ""%string n.
Definition cmdX (pr : proto) (add : bool) (n : name) (k : N) (fl : option N) : cmd :=
  Cmd pr add n (Some k) fl None.
Definition adlX : adl := [adjX farX SActive 0].
Definition pX0 (evs : list pev) (f : cfile) := pexec uriX (confX HOff) None 0 T0 adlX (configured [(pX, 5%N)]) f evs.

Theorem C44_shared_source_refuted :
  let s := fst (pX0 [PvCmd T0 adlX (cmdX Rib true pX 5 None) WOk; PvCmd T0 adlX (cmdX Rib false pX 5 None) WOk] None) in
  s_dead (p_db s) = false /\ ~ In pX (pl_names (p_list s)).
Proof. split; [vm_compute; reflexivity|]. intros H. vm_compute in H. exact H. Qed.

(** ** C45 *)

(** A live router answers every command exactly once.  It announces a new Name LSA, exactly one, if
    and only if the set of advertised prefixes changed, and the announced LSA is stored and lists
    exactly the advertised prefixes.  Without the save flag the answer is 200 if the set changed and
    204 if not. *)
Theorem C45_effect_partial u c q now sys l cfg f evs sys' l' m w :
  let s := fst (pexec u c q now sys l (configured cfg) f evs) in
  let s' := fst (pstep u c s (PvCmd sys' l' m w)) in
  let o := snd (pstep u c s (PvCmd sys' l' m w)) in
  pno_forged c evs -> s_dead (p_db s) = false ->
  (exists code, replies o = [(code, face_of m)] /\
     (saves m = false -> (list_changed s s' /\ code = 200%N) \/ (~ list_changed s s' /\ code = 204%N)) /\
     (saves m = true -> code = 205%N \/ code = 500%N)) /\
  ((list_changed s s' /\ exists n, announced_names o = [n] /\
      exists y, own_name_lsa c s' y /\ l_seq y = n /\
        forall p, In p (keys (body_names (l_body y))) <-> In p (pl_names (p_list s'))) \/
   (~ list_changed s s' /\ announced_names o = [])).
Proof.
  intros s s' o Hf Hd.
  pose proof (@pinv_exec u c q now sys l cfg f evs Hf Hd) as P. fold s in P.
  set (first := fun n => first_cost (cfg_cost cfg n) evs n) in P.
  set (cur := fun n => current_cost (cfg_cost cfg n) evs n) in P.
  assert (P' : pinv c s' (ev_first (PvCmd sys' l' m w) first) (ev_cur (PvCmd sys' l' m w) cur)).
  { apply pinv_step; [exact P|discriminate|exact Hd]. }
  assert (N : forall s f k, pinv c s f k -> forall n, In n (pl_names (p_list s)) <-> k n <> None).
  { clear. intros s f k P n. unfold pl_names. rewrite get_Some_keys, (pv_list P). destruct (k n); cbn.
    - split; [discriminate|eauto].
    - split; [intros [x E]; discriminate|tauto]. }
  assert (F : reply_face m = face_of m).
  { unfold reply_face, face_of, DEFAULT_FACE. destruct (m_face m) as [x|]; [|reflexivity].
    destruct (N.ltb_spec 0 x), (N.eqb_spec x 0); try reflexivity; lia. }
  destruct (list_cmd_get m (p_list s) cur (pv_list P)) as (_ & L2 & _).
  assert (Ch : list_changed s s' <-> fst (list_cmd m (p_list s)) = true).
  { rewrite L2. unfold list_changed. split.
    - intros [n Hn]. rewrite (N _ _ _ P n), (N _ _ _ P' n) in Hn. cbn [ev_cur] in Hn. unfold cur1 in Hn.
      eqb_case n (m_name m); [|tauto]. destruct (m_add m), (cur (m_name m)); try reflexivity;
        exfalso; apply Hn; split; try congruence; intros; discriminate.
    - intros E. exists (m_name m). rewrite (N _ _ _ P _), (N _ _ _ P' _). cbn [ev_cur]. unfold cur1.
      rewrite eqb_refl. destruct (m_add m), (cur (m_name m)); try discriminate E; intros [H1 H2].
      + apply H2; [discriminate|reflexivity].
      + apply H1; [discriminate|reflexivity]. }
  assert (O : exists dbo code, o = map PDb dbo ++ [PReply code (reply_face m)] /\
    (saves m = false -> code = if fst (list_cmd m (p_list s)) then 200%N else 204%N) /\
    (saves m = true -> code = 205%N \/ code = 500%N) /\
    dbo = if fst (list_cmd m (p_list s))
          then snd (build_name c (Env sys' (pl_info (snd (list_cmd m (p_list s)))) l') (p_db s)) else []).
  { unfold o, pstep. rewrite Hd. cbn [pstep_live]. unfold do_cmd.
    destruct (list_cmd m (p_list s)) as [ch p']. cbn [fst snd].
    destruct ch.
    - destruct (build_name _ _ _) as [d' oo]. destruct (saves m).
      + destruct (after_cmd _ _ _ _) as [ok f']. do 2 eexists. split; [reflexivity|].
        split; [discriminate|]. split; [destruct ok; auto|reflexivity].
      + do 2 eexists. split; [reflexivity|]. split; [reflexivity|]. split; [discriminate|reflexivity].
    - destruct (saves m).
      + destruct (after_cmd _ _ _ _) as [ok f']. exists [], (if ok then 205 else 500)%N. split; [reflexivity|].
        split; [discriminate|]. split; [destruct ok; auto|reflexivity].
      + exists [], 204%N. split; [reflexivity|]. split; [reflexivity|]. split; [discriminate|reflexivity]. }
  destruct O as (dbo & code & Eo & C1 & C2 & Ed).
  assert (R : forall x, replies (map PDb x) = []) by (clear; intros x; induction x; [reflexivity|exact IHx]).
  assert (R2 : forall a b, replies (a ++ b) = replies a ++ replies b) by (intros; apply flat_map_app).
  assert (A2 : forall a b, announced_names (a ++ b) = announced_names a ++ announced_names b) by (intros; apply flat_map_app).
  split.
  - exists code. rewrite Eo, R2, R. split; [cbn; now rewrite F|]. split; [|exact C2].
    intros Hs. specialize (C1 Hs). destruct (fst (list_cmd m (p_list s))).
    + left. split; [now apply Ch|exact C1].
    + right. split; [|exact C1]. intros X. apply Ch in X. discriminate.
  - destruct (fst (list_cmd m (p_list s))) eqn:E.
    + left. split; [now apply Ch|].
      destruct (pv_lsa P) as (y0 & Hy0 & Hq0 & _).
      destruct (build_name_own c (Env sys' (pl_info (snd (list_cmd m (p_list s)))) l') (pv_inv P) Hy0 Hq0) as (B1 & B2 & B3).
      destruct (pv_lsa P') as (y & Hy & Hq & Hg).
      exists (seq_get TName (s_seqs (p_db s)) + 1)%N. split.
      * rewrite Eo, A2, Ed, B3. unfold upd_notify. destruct (update_body _ _) as [[[b0 b1] b2] b3].
        destruct b0; reflexivity.
      * exists y. pose proof (find_key (pv_inv P') Hy) as K.
        split; [|split].
        -- split; [|unfold l_key in K; split; congruence].
           apply (In_contents _ (pv_inv P')). now rewrite K.
        -- rewrite Hq. unfold s', pstep. rewrite Hd. cbn [pstep_live].
           destruct (do_cmd_db u c sys' l' m w s) as [_ Edb]. rewrite Edb, E, B2. apply seq_get_set.
        -- intros p. rewrite get_Some_keys, Hg, (N _ _ _ P' p).
           pose proof (pv_same P' p) as Sm.
           destruct (ev_first _ _ p); split; intros X.
           ++ intros Y. apply Sm in Y. discriminate.
           ++ eauto.
           ++ destruct X; discriminate.
           ++ exfalso. apply X. now apply Sm.
    + right. split; [intros X; apply Ch in X; discriminate|].
      rewrite Eo, A2, Ed. reflexivity.
Qed.

Example C45_case :
  let r := pstep uriX (confX HOff) (fst (pX0 [] None)) (PvCmd T0 adlX (cmdX Nlsr true p2X 3 None) WOk) in
  replies (snd r) = [(200, 1)]%N /\ announced_names (snd r) = [2]%N /\
  pl_info (p_list (fst r)) = [(pX, of_int 5); (p2X, of_int 3)] /\
  replies (snd (pstep uriX (confX HOff) (fst r) (PvCmd T0 adlX (cmdX Nlsr false (nm ["other"]%string) 3 None) WOk))) = [(204, 1)]%N.
Proof. vm_compute. repeat split; reflexivity. Qed.

(** With the save flag the answer depends on the configuration file alone: 500 although the prefix
    is now advertised and announced, and 205 although nothing changed. *)
Theorem C45_save_refuted :
  (let r := pstep uriX (confX HOff) (fst (pX0 [] None)) (PvCmd T0 adlX (cmdX Nlsr true p2X 3 (Some 1%N)) WOk) in
   replies (snd r) = [(500, 1)]%N /\ announced_names (snd r) = [2]%N /\ In p2X (pl_names (p_list (fst r)))) /\
  (let s := fst (pX0 [] None) in
   let r := pstep uriX (confX HOff) s (PvCmd T0 adlX (cmdX Rib true pX 5 (Some 1%N)) WOk) in
   replies (snd r) = [(205, 1)]%N /\ announced_names (snd r) = [] /\ p_list (fst r) = p_list s).
Proof.
  split.
  - split; [vm_compute; reflexivity|]. split; [vm_compute; reflexivity|].
    apply (nth_error_In _ 1). vm_compute. reflexivity.
  - vm_compute. repeat split; reflexivity.
Qed.

(** Advertising a listed prefix at another cost changes the list, yet the answer is 204 and nothing
    is announced. *)
Theorem C45_cost_refuted :
  let s := fst (pX0 [] None) in
  let r := pstep uriX (confX HOff) s (PvCmd T0 adlX (cmdX Nlsr true pX 7 None) WOk) in
  replies (snd r) = [(204, 1)]%N /\ announced_names (snd r) = [] /\
  pl_info (p_list s) = [(pX, of_int 5)] /\ pl_info (p_list (fst r)) = [(pX, of_int 7)].
Proof. vm_compute. repeat split; reflexivity. Qed.

(** ** C47 *)

(** At every moment of every run without forged LSAs, the router stores exactly one own Name LSA; it
    lists exactly the advertised prefixes, each with the cost it had when it was last newly
    advertised. *)
Theorem C47_names_partial u c q now sys l cfg f evs :
  let s := fst (pexec u c q now sys l (configured cfg) f evs) in
  pno_forged c evs -> s_dead (p_db s) = false ->
  exists y, own_name_lsa c s y /\ (forall y', own_name_lsa c s y' -> y' = y) /\
    (forall p, In p (keys (body_names (l_body y))) <-> In p (pl_names (p_list s))) /\
    (forall p, get p (body_names (l_body y)) = first_cost (cfg_cost cfg p) evs p).
Proof.
  intros s Hf Hd. pose proof (@pinv_exec u c q now sys l cfg f evs Hf Hd) as P. fold s in P.
  destruct (pv_lsa P) as (y & Hy & _ & Hg). pose proof (find_key (pv_inv P) Hy) as K.
  exists y. split; [|split; [|split]].
  - split; [|unfold l_key in K; split; congruence]. apply (In_contents _ (pv_inv P)). now rewrite K.
  - intros y' (A & B & C). apply (In_contents _ (pv_inv P)) in A. unfold l_key in A. rewrite B, C in A. congruence.
  - intros p. rewrite get_Some_keys, Hg. unfold pl_names. rewrite get_Some_keys, (pv_list P).
    pose proof (pv_same P p) as Sm. cbn beta in Sm.
    destruct (first_cost _ _ p), (current_cost _ _ p); cbn; split; intros [x E]; eauto; try discriminate;
      exfalso; destruct Sm as [S1 S2]; [discriminate (S2 eq_refl)|discriminate (S1 eq_refl)].
  - exact Hg.
Qed.

(** If no command advertises a listed prefix at a cost other than its listed one, names and costs of
    the LSA are those of the list. *)
Definition costs_kept (cfg : list (name * N)) (evs : list pev) : Prop :=
  forall a sys l m w b k, evs = a ++ PvCmd sys l m w :: b -> m_add m = true ->
    current_cost (cfg_cost cfg (m_name m)) a (m_name m) = Some k -> k = cmd_cost m.

Theorem C47_costs_partial u c q now sys l cfg f evs y :
  let s := fst (pexec u c q now sys l (configured cfg) f evs) in
  pno_forged c evs -> s_dead (p_db s) = false -> costs_kept cfg evs -> own_name_lsa c s y ->
  forall p, get p (body_names (l_body y)) = get p (pl_info (p_list s)).
Proof.
  intros s Hf Hd Hk Hy p.
  destruct (@C47_names_partial u c q now sys l cfg f evs Hf Hd) as (y0 & _ & U & _ & G).
  rewrite (U _ Hy), G. rewrite get_info. unfold s. rewrite (current_alive _ _ _ _ _ _ _ _ _ Hd).
  assert (X : first_cost (cfg_cost cfg p) evs p = current_cost (cfg_cost cfg p) evs p).
  { clear - Hk. induction evs as [|x evs IH] using rev_ind; [reflexivity|].
    rewrite first_cost_snoc, current_cost_snoc.
    assert (Hk' : costs_kept cfg evs).
    { intros a sys l m w b k E. apply (Hk a sys l m w (b ++ [x])). rewrite E. now rewrite <- app_assoc. }
    specialize (IH Hk'). destruct x as [sys l v|sys l m w]; cbn [ev_first ev_cur]; [exact IH|].
    unfold first1, cur1. rewrite IH. eqb_case p (m_name m); [|reflexivity].
    destruct (m_add m) eqn:Ea; [|reflexivity].
    destruct (current_cost _ evs _) as [k|] eqn:Ek; [|reflexivity].
    f_equal. exact (Hk evs sys l m w [] k eq_refl Ea Ek). }
  rewrite X. destruct (current_cost _ evs p); reflexivity.
Qed.

Definition evsP : list pev :=
  [PvCmd T0 adlX (cmdX Nlsr true p2X 3 None) WOk; PvDb T0 adlX (ESync (syncX "r1" TName) 20 300);
   PvCmd T0 adlX (cmdX Nlsr false pX 0 None) WOk; PvDb T0 adlX (ETick (10 * SEC));
   PvCmd T0 adlX (cmdX Nlsr true pX 9 None) WOk].
Lemma C47_case_lsa :
  find_lsa (selfX, TName) (p_db (fst (pX0 evsP None))) =
  Some (Lsa selfX 23 (T0 + 3600 * SEC) (BName [(p2X, of_int 3); (pX, of_int 9)])).
Proof. vm_compute. reflexivity. Qed.
Example C47_case : pno_forged (confX HOff) evsP /\ s_dead (p_db (fst (pX0 evsP None))) = false /\
  costs_kept [(pX, 5%N)] evsP.
Proof.
  split; [|split; [vm_compute; reflexivity|]].
  - intros sys l fid y H. repeat (destruct H as [H|H]; [discriminate H|]). destruct H.
  - intros a sys l m w b k E Ea Ek. clear - E Ea Ek.
    unfold evsP in E.
    repeat match type of E with
    | _ :: _ = ?a ++ _ => destruct a as [|? ?]; cbn [app] in E;
        [injection E; clear E; intros; subst; cbn [cmdX m_add m_name] in *; try discriminate; try (vm_compute in Ek; discriminate Ek)
        |injection E; clear E; intros E ?; subst]
    | [] = ?a ++ _ => destruct a; discriminate E
    end.
Qed.

(** Otherwise the LSA keeps an outdated cost: /ndn/video is advertised at 5, then at 7 (answer 204),
    then another prefix is advertised; the LSA announced then still says 5 while the list says 7. *)
Theorem C47_cost_refuted :
  let s := fst (pX0 [PvCmd T0 adlX (cmdX Nlsr true pX 7 None) WOk; PvCmd T0 adlX (cmdX Nlsr true p2X 3 None) WOk] None) in
  find_lsa (selfX, TName) (p_db s) =
    Some (Lsa selfX 2 (T0 + 3600 * SEC) (BName [(pX, of_int 5); (p2X, of_int 3)])) /\
  pl_info (p_list s) = [(pX, of_int 7); (p2X, of_int 3)].
Proof. split; vm_compute; reflexivity. Qed.

Print Assumptions C44_sources.
Print Assumptions C44_other_source.
Print Assumptions C44_cost.
Print Assumptions C44_return.
Print Assumptions C44_program.
Print Assumptions C44_shared_source_refuted.
Print Assumptions C45_effect_partial.
Print Assumptions C45_save_refuted.
Print Assumptions C45_cost_refuted.
Print Assumptions C47_names_partial.
Print Assumptions C47_costs_partial.
Print Assumptions C47_cost_refuted.

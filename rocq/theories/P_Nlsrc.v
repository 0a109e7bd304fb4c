(** C78, C79, C80: the command line tool. *)
From Coq Require Import DecimalString DecimalN.
From Verif Require Import Base M_Nexthop M_Tlv M_Adj M_Lsa M_Lsdb S_Lsdb L_Lsdb2 P_Lsdb M_Prefix S_Prefix L_Prefix P_Prefix P_Prefix2
  M_Codec S_Codec L_Codec P_Codec M_Nlsrc S_Nlsrc L_LinkState X_Lsdb.
Set Implicit Arguments.
Open Scope Z_scope.

(** ** Decimal costs *)

Lemma digits_acc d : forall p, digits true (Zpos p) (NilEmpty.string_of_uint d) = Some (Zpos (Pos.of_uint_acc d p)).
Proof.
  induction d; intros p; [reflexivity|..];
    (cbn [NilEmpty.string_of_uint digits Pos.of_uint_acc]; rewrite <- IHd;
     match goal with |- match ?x with _ => _ end = _ => let v := eval vm_compute in x in change x with v end;
     cbv iota beta; f_equal; lia).
Qed.
Lemma digits_any d : forall seen, (seen = true \/ d <> Decimal.Nil) ->
  digits seen 0 (NilEmpty.string_of_uint d) = Some (Z.of_N (Pos.of_uint d)).
Proof.
  induction d; intros seen Hs; [destruct Hs as [->|Hs]; [reflexivity|congruence]|..];
    cbn [NilEmpty.string_of_uint digits]; cbn -[Z.mul Z.add].
  - apply (IHd true). now left.
  - apply (digits_acc d 1).
  - apply (digits_acc d 2).
  - apply (digits_acc d 3).
  - apply (digits_acc d 4).
  - apply (digits_acc d 5).
  - apply (digits_acc d 6).
  - apply (digits_acc d 7).
  - apply (digits_acc d 8).
  - apply (digits_acc d 9).
Qed.

Lemma to_uint_nil n : N.to_uint n <> Decimal.Nil.
Proof.
  destruct n as [|p]; [discriminate|]. cbn. unfold Pos.to_uint. intros H.
  pose proof (DecimalPos.Unsigned.to_uint_nonnil p) as X. now apply X.
Qed.
Lemma stoi_dec k : (k < 2 ^ 31)%N -> stoi (dec k) = Some (Z.of_N k).
Proof.
  intros Hk. unfold stoi, dec.
  assert (E : digits false 0 (NilEmpty.string_of_uint (N.to_uint k)) = Some (Z.of_N k)).
  { rewrite digits_any by (right; apply to_uint_nil). f_equal. f_equal. apply (DecimalN.Unsigned.of_to k). }
  pose proof (to_uint_nil k) as Hn.
  assert (R : (match skip_space (NilEmpty.string_of_uint (N.to_uint k)) with
     | String c s' => if Ascii.eqb c "-" then option_map Z.opp (digits false 0 s')
                      else if Ascii.eqb c "+" then digits false 0 s' else digits false 0 (String c s')
     | EmptyString => None end) = Some (Z.of_N k)).
  { rewrite <- E. destruct (N.to_uint k); [congruence|..]; reflexivity. }
  rewrite R. replace (- 2 ^ 31 <=? Z.of_N k) with true by (symmetry; apply Z.leb_le; lia).
  replace (Z.of_N k <? 2 ^ 31) with true by (symmetry; apply Z.ltb_lt; lia). reflexivity.
Qed.
(** Blanks: space, tab, newline, vertical tab, form feed, carriage return. *)
Definition blanks (s : string) : Prop := forall c, In c (list_ascii_of_string s) -> In (N_of_ascii c) [32; 9; 10; 11; 12; 13]%N.
Lemma blank_space c : In (N_of_ascii c) [32; 9; 10; 11; 12; 13]%N -> is_space c = true.
Proof.
  intros H. rewrite <- (ascii_N_embedding c). cbn [In] in H. destruct H as [<-|[<-|[<-|[<-|[<-|[<-|[]]]]]]]; reflexivity.
Qed.
Lemma skip_blanks sp s : blanks sp -> skip_space (sp ++ s) = skip_space s.
Proof.
  induction sp as [|c sp IH]; intros B; [reflexivity|]. cbn [String.append skip_space]. rewrite blank_space by (apply B; now left).
  apply IH. intros x Hx. apply B. now right.
Qed.
Lemma stoi_padded sp sg k : blanks sp -> sg = ""%string \/ sg = "+"%string -> stoi (sp ++ sg ++ dec k) = stoi (dec k).
Proof.
  intros B S. unfold stoi. rewrite skip_blanks by exact B. destruct S as [->| ->]; [reflexivity|].
  pose proof (to_uint_nil k) as Hn. cbn [String.append skip_space]. change (is_space "+") with false. cbn match. change (Ascii.eqb "+" "-") with false. change (Ascii.eqb "+" "+") with true. cbn match.
  unfold dec. destruct (N.to_uint k); [congruence|..]; reflexivity.
Qed.
Lemma u64_small k : (k < 2 ^ 31)%N -> to_u64 (Z.of_N k) = k.
Proof. intros H. unfold to_u64. rewrite Z.mod_small by lia. lia. Qed.

(** ** C78 *)

Section Tool.
Variable to_name : string -> option name.
Variable validator_ok : string -> bool.
Variable time_parse : string -> option Z.
Variable uri_parse : string -> option uri.
Notation TS := (tstep time_parse uri_parse).
Notation TR := (trun to_name validator_ok time_parse uri_parse).
Notation ST := (start to_name validator_ok).

(** Options that only choose the router lead to the dispatcher. *)
Lemma options_plain r f k l a : plain_opts to_name l ->
  let r' := fold_left (fun r o => match o with ORouter u => match to_name u with Some n => n | None => r end | _ => r end) l r in
  let f' := fold_left (fun r o => match o with OConf f => f | _ => r end) l f in
  r' = LOCALHOST \/ k = true \/ In ONoCheck l \/ validator_ok f' = true -> a <> [] ->
  options to_name validator_ok r f k l a =
  match dispatch to_name r' a with
  | DUsage => stop r' (TExit 2) [TUsage]
  | DThrow => stop r' (TExit 1) [TError]
  | DRun s o => (s, o)
  end.
Proof.
  revert r f k. induction l as [|o l IH]; intros r f k P r' f' V Ha.
  - cbn [options]. destruct a as [|v a]; [congruence|]. cbn [fold_left] in *. subst r' f'.
    assert (E : negb (eqb r LOCALHOST) && negb k && negb (validator_ok f) = false).
    { destruct V as [->|[->|[[]| ->]]]; [rewrite eqb_refl; reflexivity|now rewrite andb_false_r|now rewrite !andb_false_r]. }
    rewrite E. reflexivity.
  - assert (P' : plain_opts to_name l) by (intros x Hx; apply P; now right).
    destruct (P o) as [->|[[f0 ->]|(u & n & -> & En)]]; [now left|..]; cbn [options fold_left] in *.
    + apply IH; [exact P'|auto|exact Ha].
    + apply IH; [exact P'| |exact Ha]. destruct V as [V|[V|[[V|V]|V]]]; auto; discriminate V.
    + unfold r' in *. rewrite En in *. apply IH; [exact P'| |exact Ha]. destruct V as [V|[V|[[V|V]|V]]]; auto; discriminate V.
Qed.

Lemma start_plain l a : plain_opts to_name l -> verifiable to_name validator_ok l -> a <> [] ->
  ST l a = match dispatch to_name (target to_name l) a with
  | DUsage => stop (target to_name l) (TExit 2) [TUsage]
  | DThrow => stop (target to_name l) (TExit 1) [TError]
  | DRun s o => (s, o)
  end.
Proof.
  intros P V Ha. unfold start. rewrite (@options_plain LOCALHOST DEFAULT_CONF false l a P); [reflexivity| |exact Ha].
  destruct V as [V|[V|V]]; auto.
Qed.

(** A documented command line sends exactly one command, to the chosen router, with the prefix, the
    cost and the flag that were asked for, and waits for the answer. *)
Theorem C78_request l a add u n k save :
  asks a add u k save -> to_name u = Some n -> plain_opts to_name l -> verifiable to_name validator_ok l ->
  exists m, snd (TR l a []) = [TCommand (target to_name l) m] /\ t_pc (fst (TR l a [])) = TCmd /\
    m_proto m = Nlsr /\ m_add m = add /\ m_name m = n /\ cmd_cost m = of_int (Z.of_N k) /\ saves m = save /\
    (m_cost m = None <-> k = 0%N) /\ m_face m = None.
Proof using.
  intros A E P V. unfold trun. rewrite start_plain by (try assumption; destruct A; discriminate).
  assert (D : dispatch to_name (target to_name l) a = send_update to_name (target to_name l) add u save k).
  { destruct A; try reflexivity;
    (unfold dispatch; change (eqb "advertise"%string "advertise"%string) with true;
       change (eqb "cost"%string "cost"%string) with true; try change (eqb "save"%string "save"%string) with true; cbn [negb];
       rewrite stoi_dec by assumption; rewrite u64_small by assumption; reflexivity). }
  rewrite D. unfold send_update. rewrite E. cbn [run fst snd app t_pc].
  assert (K : add = false -> k = 0%N) by (destruct A; congruence).
  eexists. split; [reflexivity|]. split; [reflexivity|].
  unfold update_cmd, cmd_cost, saves. cbn [m_proto m_add m_name m_cost m_flags m_face].
  split; [reflexivity|]. split; [reflexivity|]. split; [reflexivity|].
  assert (X : add && (0 <? k)%N = (0 <? k)%N).
  { destruct add; [reflexivity|]. rewrite K by reflexivity. reflexivity. }
  rewrite X. destruct (N.ltb_spec 0 k) as [L|L].
  - repeat split; try reflexivity; try (destruct save; reflexivity); intros Z; [discriminate Z|lia].
  - assert (k = 0%N) by lia. subst k. repeat split; try reflexivity; destruct save; reflexivity.
Qed.

(** The cost may have any number of blanks and a plus sign in front: the command line does what it does without them. *)
Theorem C78_padded l u sp sg k rest evs : blanks sp -> sg = ""%string \/ sg = "+"%string -> plain_opts to_name l -> verifiable to_name validator_ok l ->
  TR l ("advertise" :: u :: "cost" :: (sp ++ sg ++ dec k) :: rest)%string evs = TR l ("advertise" :: u :: "cost" :: dec k :: rest)%string evs.
Proof using.
  intros B S P V. unfold trun. rewrite !start_plain by (try assumption; discriminate). unfold dispatch. rewrite (@stoi_padded sp sg k B S). reflexivity.
Qed.


(** What [dispatch] can yield. *)
Definition cmd_line (a : list string) (m : cmd) : Prop :=
  exists u n, to_name u = Some n /\ m_proto m = Nlsr /\ m_name m = n /\ m_face m = None /\
  ((a = ["withdraw"; u]%string /\ m_add m = false /\ m_cost m = None /\ m_flags m = None) \/
   (a = ["withdraw"; u; "delete"]%string /\ m_add m = false /\ m_cost m = None /\ m_flags m = Some 1%N) \/
   (a = ["advertise"; u]%string /\ m_add m = true /\ m_cost m = None /\ m_flags m = None) \/
   (a = ["advertise"; u; "save"]%string /\ m_add m = true /\ m_cost m = None /\ m_flags m = Some 1%N) \/
   (exists v z, stoi v = Some z /\ m_add m = true /\ cmd_cost m = of_int (z mod 2 ^ 64) /\
     ((a = ["advertise"; u; "cost"; v]%string /\ m_flags m = None) \/
      (a = ["advertise"; u; "cost"; v; "save"]%string /\ m_flags m = Some 1%N)))).

Lemma send_cases a r add u fl k :
  (forall n, to_name u = Some n -> cmd_line a (update_cmd add n fl k)) ->
  send_update to_name r add u fl k = DThrow \/
  exists m, send_update to_name r add u fl k = DRun (Tool r [] [] None TCmd) [TCommand r m] /\ cmd_line a m.
Proof. intros H. unfold send_update. destruct (to_name u) as [n|]; [right; eauto|now left]. Qed.

Lemma cost_line z fl n : cmd_cost (update_cmd true n fl (to_u64 z)) = of_int (z mod 2 ^ 64).
Proof.
  unfold cmd_cost, update_cmd. cbn [m_cost andb]. f_equal. unfold to_u64.
  pose proof (Z.mod_pos_bound z (2 ^ 64) eq_refl). destruct (N.ltb_spec 0 (Z.to_N (z mod 2 ^ 64))); lia.
Qed.

Lemma dispatch_cases r a :
  dispatch to_name r a = DUsage \/ dispatch to_name r a = DThrow \/
  (exists m, dispatch to_name r a = DRun (Tool r [] [] None TCmd) [TCommand r m] /\ cmd_line a m) \/
  (exists st s, In (a, st) [(["lsdb"]%string, [FLsa TAdj; FLsa TCoord; FLsa TName; PLsdb]);
     (["routing"]%string, [FRt; PRt]);
     (["status"]%string, [FLsa TAdj; FLsa TCoord; FLsa TName; FRt; PAll])] /\
     s = Tool r st [] None (TExit 0) /\ dispatch to_name r a = DRun (fst (next s)) (snd (next s))).
Proof.
  destruct a as [|v a]; [now left|]. unfold dispatch. fold (eqb v "advertise"%string).
  eqb_case v "advertise"%string.
  { assert (T : forall u fl k, (forall n, to_name u = Some n -> cmd_line ("advertise"%string :: a) (update_cmd true n fl k)) ->
      send_update to_name r true u fl k = DUsage \/ send_update to_name r true u fl k = DThrow \/
      (exists m, send_update to_name r true u fl k = DRun (Tool r [] [] None TCmd) [TCommand r m] /\ cmd_line ("advertise"%string :: a) m) \/
      (exists st s, In ("advertise"%string :: a, st) [(["lsdb"]%string, [FLsa TAdj; FLsa TCoord; FLsa TName; PLsdb]);
     (["routing"]%string, [FRt; PRt]);
     (["status"]%string, [FLsa TAdj; FLsa TCoord; FLsa TName; FRt; PAll])] /\
     s = Tool r st [] None (TExit 0) /\ send_update to_name r true u fl k = DRun (fst (next s)) (snd (next s)))).
    { intros u fl k H. destruct (@send_cases _ r true u fl k H) as [X|X]; [right; now left|right; right; now left]. }
    destruct a as [|u [|w [|x [|y [|? ?]]]]]; try (now left).
    - apply T. intros n En. exists u, n. unfold update_cmd; cbn. intuition.
    - eqb_case w "save"%string; cbn [negb]; [|now left].
      apply T. intros n En. exists u, n. unfold update_cmd; cbn. intuition.
    - eqb_case w "cost"%string; cbn [negb]; [|now left].
      destruct (stoi x) as [z|] eqn:Ez; [|now left].
      apply T. intros n En. exists u, n. split; [exact En|]. split; [reflexivity|]. split; [reflexivity|]. split; [reflexivity|].
      do 4 right. exists x, z. split; [exact Ez|]. split; [reflexivity|].
      split; [apply cost_line|]. left. split; reflexivity.
    - eqb_case y "save"%string; cbn [negb]; [|now left].
      eqb_case w "cost"%string; cbn [negb]; [|now left].
      destruct (stoi x) as [z|] eqn:Ez; [|now left].
      apply T. intros n En. exists u, n. split; [exact En|]. split; [reflexivity|]. split; [reflexivity|]. split; [reflexivity|].
      do 4 right. exists x, z. split; [exact Ez|]. split; [reflexivity|].
      split; [apply cost_line|]. right. split; reflexivity. }
  eqb_case v "withdraw"%string.
  { destruct a as [|u [|w [|? ?]]]; try (now left).
    - destruct (@send_cases ["withdraw"%string; u] r false u false 0%N) as [X|X]; [|right; now left|right; right; now left].
      intros n En. exists u, n. unfold update_cmd; cbn. intuition.
    - eqb_case w "delete"%string; cbn [negb]; [|now left].
      destruct (@send_cases ["withdraw"; u; "delete"]%string r false u true 0%N) as [X|X]; [|right; now left|right; right; now left].
      intros n En. exists u, n. unfold update_cmd; cbn. intuition. }
  eqb_case v "lsdb"%string.
  { destruct a; [|now left]. do 3 right. do 2 eexists. split; [left; reflexivity|]. split; reflexivity. }
  eqb_case v "routing"%string.
  { destruct a; [|now left]. do 3 right. do 2 eexists. split; [right; left; reflexivity|]. split; reflexivity. }
  eqb_case v "status"%string.
  { destruct a; [|now left]. do 3 right. do 2 eexists. split; [right; right; left; reflexivity|]. split; reflexivity. }
  now left.
Qed.

Lemma options_cases l a : forall r f k, let ST := options to_name validator_ok r f k in
  (exists r pc o, ST l a = stop r pc o /\
     ((pc = TExit 0 /\ (In OHelp l /\ o = [TUsage] \/ In OVersion l /\ o = [TVersion])) \/
      (pc = TExit 1 /\ o = [TError]) \/ (pc = TExit 2 /\ o = [TUsage]) \/ (pc = TAbort /\ o = []))) \/
  (exists r m, ST l a = (Tool r [] [] None TCmd, [TCommand r m]) /\ cmd_line a m) \/
  (exists r st s, In (a, st) [(["lsdb"]%string, [FLsa TAdj; FLsa TCoord; FLsa TName; PLsdb]);
     (["routing"]%string, [FRt; PRt]);
     (["status"]%string, [FLsa TAdj; FLsa TCoord; FLsa TName; FRt; PAll])] /\
     s = Tool r st [] None (TExit 0) /\ ST l a = next s).
Proof.
  induction l as [|o l IH]; intros r f k ST; unfold ST; cbn [options].
  - destruct a as [|v a0].
    { left. exists r, (TExit 2), [TUsage]. auto 9. }
    destruct (_ && _ && _).
    { left. exists r, (TExit 1), [TError]. auto 9. }
    destruct (dispatch_cases r (v :: a0)) as [E|[E|[(m & E & C)|(st & s & I & Es & E)]]]; rewrite E.
    + left. exists r, (TExit 2), [TUsage]. auto 9.
    + left. exists r, (TExit 1), [TError]. auto 9.
    + right. left. eauto.
    + right. right. exists r, st, s. split; [exact I|]. split; [exact Es|]. now destruct (next s).
  - destruct o as [| |u|f0| |].
    + left. exists r, (TExit 0), [TUsage]. cbn. auto 9.
    + left. exists r, (TExit 0), [TVersion]. cbn. auto 9.
    + destruct (to_name u) as [n|].
      * destruct (IH n f k) as [(r' & pc & o & E & C)|X]; [|right; exact X]. left. exists r', pc, o. split; [exact E|]. cbn. tauto.
      * left. exists r, TAbort, []. auto 9.
    + destruct (IH r f0 k) as [(r' & pc & o & E & C)|X]; [|right; exact X]. left. exists r', pc, o. split; [exact E|]. cbn. tauto.
    + destruct (IH r f true) as [(r' & pc & o & E & C)|X]; [|right; exact X]. left. exists r', pc, o. split; [exact E|]. cbn. tauto.
    + left. exists r, (TExit 2), [TUsage]. auto 9.
Qed.

Lemma start_cases l a :
  (exists r pc o, ST l a = stop r pc o /\
     ((pc = TExit 0 /\ (In OHelp l /\ o = [TUsage] \/ In OVersion l /\ o = [TVersion])) \/
      (pc = TExit 1 /\ o = [TError]) \/ (pc = TExit 2 /\ o = [TUsage]) \/ (pc = TAbort /\ o = []))) \/
  (exists r m, ST l a = (Tool r [] [] None TCmd, [TCommand r m]) /\ cmd_line a m) \/
  (exists r st s, In (a, st) [(["lsdb"]%string, [FLsa TAdj; FLsa TCoord; FLsa TName; PLsdb]);
     (["routing"]%string, [FRt; PRt]);
     (["status"]%string, [FLsa TAdj; FLsa TCoord; FLsa TName; FRt; PAll])] /\
     s = Tool r st [] None (TExit 0) /\ ST l a = next s).
Proof. apply options_cases. Qed.

(** Once the tool has exited it does nothing. *)
Lemma run_done s xs : (exists k, t_pc s = TExit k) \/ t_pc s = TAbort -> run TS s xs = (s, []).
Proof.
  intros H. induction xs as [|x xs IH]; [reflexivity|]. cbn [run]. unfold tstep at 1.
  destruct H as [[k H]|H]; rewrite H; [rewrite IH by eauto|rewrite IH by auto]; reflexivity.
Qed.

(** The answers after the first reply do not matter. *)
Lemma on_reply_exit s r : exists k, t_pc (fst (on_reply s r)) = TExit k /\
  (snd (on_reply s r) = [TError] \/ snd (on_reply s r) = [TApplied]) /\
  (k = 0%N <-> exists nack code, r = CData nack code /\
     (nack = true \/ code = Some 200%N \/ code = Some 204%N \/ code = Some 205%N)) /\
  (k <> 0%N -> k = 1%N).
Proof.
  destruct r as [[|] code|]; cbn [on_reply].
  - exists 0%N. cbn. repeat split; eauto 8. lia.
  - destruct code as [code|]; cbn [on_reply].
    + destruct (N.eqb_spec code 200) as [->|H1]; cbn [negb andb].
      { exists 0%N. cbn. repeat split; eauto 8. lia. }
      destruct (N.eqb_spec code 205) as [->|H2]; cbn [negb andb].
      { exists 0%N. cbn. repeat split; eauto 8. lia. }
      destruct (N.eqb_spec code 204) as [->|H3].
      { exists 0%N. cbn. repeat split; eauto 8. lia. }
      exists 1%N. cbn. split; [reflexivity|]. split; [auto|]. split; [|auto]. split; [discriminate|].
      intros (nack & c & E & H). injection E as <- <-.
      destruct H as [H|[H|[H|H]]]; [discriminate H|injection H as H; lia..].
    + exists 1%N. cbn. split; [reflexivity|]. split; [auto|]. split; [|auto]. split; [discriminate|].
      intros (nack & c & E & H). injection E as <- <-. destruct H as [H|[H|[H|H]]]; discriminate H.
  - exists 1%N. cbn. split; [reflexivity|]. split; [auto|]. split; [|auto]. split; [discriminate|].
    intros (nack & c & E & H). discriminate E.
Qed.

Lemma commands_app a b : commands (a ++ b) = commands a ++ commands b.
Proof. apply flat_map_app. Qed.

(** A reply is waited for: nothing else is sent. *)
Lemma run_cmd s xs : t_pc s = TCmd -> commands (snd (run TS s xs)) = [].
Proof.
  induction xs as [|x xs IH]; intros H; [reflexivity|]. cbn [run]. unfold tstep at 1. rewrite H. destruct x as [r|r].
  - destruct (on_reply_exit s r) as (k & E & O & _). destruct (on_reply s r) as [s' o]. cbn [fst snd] in *.
    rewrite run_done by eauto. cbn [snd]. rewrite app_nil_r. now destruct O as [-> | ->].
  - destruct (run TS s xs). cbn [snd app]. now apply IH.
Qed.

(** The status steps send no command. *)
Lemma next_cmd s : commands (snd (next s)) = [].
Proof. unfold next. destruct (t_steps s) as [|[t| | | |] r]; reflexivity. Qed.
Lemma next_pc s : t_pc (fst (next s)) <> TCmd.
Proof. unfold next. destruct (t_steps s) as [|[t| | | |] r]; discriminate. Qed.
Lemma read_all_out A (d : elt -> option A) rec n b s o s' o' : read_all d rec n b s o = Some (s', o') -> o' = o \/ o' = o ++ [TError].
Proof.
  revert b s. induction n as [|n IH]; intros b s; destruct b as [|c b]; cbn [read_all]; try (intros [= _ <-]; auto).
  destruct (read_elt _) as [[e r]|]; [|intros [= _ <-]; auto]. destruct (d e); [apply IH|discriminate].
Qed.
Lemma on_fetched_cmd w s r : commands (snd (on_fetched time_parse uri_parse w s r)) = [] /\
  t_pc (fst (on_fetched time_parse uri_parse w s r)) <> TCmd.
Proof.
  unfold on_fetched. destruct r as [b|]; [|split; [reflexivity|discriminate]].
  assert (X : forall rd, (forall s' o', rd = Some (s', o') -> commands o' = []) ->
    commands (snd (match rd with None => fin s 1 [TError] | Some (s', o) => let (s'', o') := next s' in (s'', o ++ o') end)) = [] /\
    t_pc (fst (match rd with None => fin s 1 [TError] | Some (s', o) => let (s'', o') := next s' in (s'', o ++ o') end)) <> TCmd).
  { intros [[s' o]|] H; [|split; [reflexivity|discriminate]]. pose proof (next_cmd s') as N1. pose proof (next_pc s') as N2.
    destruct (next s') as [s'' o']. cbn [fst snd] in *. rewrite commands_app, N1, (H s' o eq_refl). auto. }
  apply X. intros s' o' H.
  destruct w; apply read_all_out in H; destruct H as [-> | ->]; reflexivity.
Qed.
Lemma run_status s xs : t_pc s <> TCmd -> commands (snd (run TS s xs)) = [].
Proof.
  revert s. induction xs as [|x xs IH]; intros s H; [reflexivity|]. cbn [run].
  assert (X : commands (snd (TS s x)) = [] /\ t_pc (fst (TS s x)) <> TCmd).
  { unfold tstep. destruct (t_pc s) eqn:E; [congruence|..]; destruct x; cbn [fst snd]; try (split; [reflexivity|congruence]).
    apply on_fetched_cmd. }
  destruct (TS s x) as [s1 o1]. cbn [fst snd] in X. specialize (IH s1 (proj2 X)). destruct (run TS s1 xs). cbn [snd] in *.
  rewrite commands_app, IH. now rewrite (proj1 X).
Qed.

(** The tool sends at most one command in a run, and only what its command line says.  (The text of
    the cost is read as std::stoi reads it and converted to 64 bits, see C78_cost_refuted.) *)
Theorem C78_only l a xs :
  commands (snd (TR l a xs)) = [] \/
  exists r m, commands (snd (TR l a xs)) = [(r, m)] /\ cmd_line a m.
Proof using.
  unfold trun. destruct (start_cases l a) as [(r & pc & o & E & C)|[(r & m & E & C)|(r & st & s & I & Es & E)]]; rewrite E.
  - left. unfold stop. rewrite run_done.
    + cbn [snd]. rewrite app_nil_r. destruct C as [[_ [[_ ->]|[_ ->]]]|[[_ ->]|[[_ ->]|[_ ->]]]]; reflexivity.
    + cbn [t_pc]. destruct C as [[-> _]|[[-> _]|[[-> _]|[-> _]]]]; eauto.
  - right. exists r, m. split; [|exact C]. pose proof (@run_cmd (Tool r [] [] None TCmd) xs eq_refl) as X.
    destruct (run TS _ xs). cbn [snd] in *. rewrite commands_app, X. reflexivity.
  - left. pose proof (next_cmd s) as N1. pose proof (next_pc s) as N2. destruct (next s) as [s1 o1]. cbn [fst snd] in *.
    pose proof (@run_status s1 xs N2) as X. destruct (run TS s1 xs). cbn [snd] in *. now rewrite commands_app, N1, X.
Qed.

(** A command line that asks for nothing ends the tool at once with a status other than 0, unless
    help or the version was asked for. *)
Theorem C78_rejected l a : commands (snd (TR l a [])) = [] -> a <> ["lsdb"]%string -> a <> ["routing"]%string -> a <> ["status"]%string ->
  t_pc (fst (TR l a [])) = TExit 1 \/ t_pc (fst (TR l a [])) = TExit 2 \/ t_pc (fst (TR l a [])) = TAbort \/ In OHelp l \/ In OVersion l.
Proof using.
  unfold trun. destruct (start_cases l a) as [(r & pc & o & E & C)|[(r & m & E & C)|(r & st & s & I & Es & E)]]; rewrite E.
  - intros _ _ _ _. cbn. tauto.
  - discriminate.
  - intros _ H1 H2 H3. exfalso. destruct I as [I|[I|[I|[]]]]; congruence.
Qed.

(** The status after a command: 0 if and only if the router answers that the command was applied
    (200), had no effect (204) or was applied and saved (205), or answers with a Nack packet;
    otherwise 1. *)
Theorem C78_status l a rep xs : commands (snd (TR l a [])) <> [] ->
  exists k, t_pc (fst (TR l a (TReply rep :: xs))) = TExit k /\
  (k = 0%N <-> exists nack code, rep = CData nack code /\
     (nack = true \/ code = Some 200%N \/ code = Some 204%N \/ code = Some 205%N)) /\
  (k <> 0%N -> k = 1%N).
Proof using.
  unfold trun. destruct (start_cases l a) as [(r & pc & o & E & C)|[(r & m & E & C)|(r & st & s & I & Es & E)]]; rewrite E.
  - intros H. exfalso. apply H. cbn. rewrite app_nil_r. destruct C as [[_ [[_ ->]|[_ ->]]]|[[_ ->]|[[_ ->]|[_ ->]]]]; reflexivity.
  - intros _. set (s := Tool r [] [] None TCmd). cbn [run]. unfold tstep at 1. cbn [t_pc s].
    destruct (on_reply_exit s rep) as (k & E1 & _ & E2 & E3). exists k. unfold s in *.
    destruct (on_reply _ rep) as [s' o']. cbn [fst] in *. rewrite run_done by eauto. cbn [fst]. auto.
  - intros H. exfalso. apply H. cbn. pose proof (next_cmd s). destruct (next s). cbn in *. now rewrite app_nil_r.
Qed.

End Tool.

(** The tool and a router together: the router executes the command the tool sent and the tool gets
    the router's answer.  Then the prefix is advertised at the cost the user gave, or is no longer
    advertised, and the router's Name LSA lists it or does not list it, whatever the tool's exit
    status is; the status is 0 except that it is 1 if the configuration file could not be changed as
    asked. *)
Theorem C78_effect_partial to_name validator_ok time_parse uri_parse opts a add uri n k save
    u c q now sys l cfg f evs sys' l' w :
  let s := fst (pexec u c q now sys l (configured cfg) f evs) in
  let tool := trun to_name validator_ok time_parse uri_parse opts a in
  asks a add uri k save -> to_name uri = Some n -> plain_opts to_name opts -> verifiable to_name validator_ok opts ->
  pno_forged c evs -> s_dead (p_db s) = false ->
  exists m code,
    let s' := fst (pstep u c s (PvCmd sys' l' m w)) in
    commands (snd (tool [])) = [(target to_name opts, m)] /\
    replies (snd (pstep u c s (PvCmd sys' l' m w))) = [(code, 1%N)] /\
    get n (pl_info (p_list s')) = (if add then Some (of_int (Z.of_N k)) else None) /\
    (forall n', n' <> n -> get n' (pl_info (p_list s')) = get n' (pl_info (p_list s))) /\
    (exists y, own_name_lsa c s' y /\ (In n (keys (body_names (l_body y))) <-> add = true)) /\
    t_pc (fst (tool [TReply (CData false (Some code))])) = TExit (if (code =? 500)%N then 1 else 0) /\
    (code = 500%N -> save = true).
Proof.
  intros s tool A En P V Hf Hd.
  destruct (@C78_request to_name validator_ok time_parse uri_parse opts a add uri n k save A En P V) as (m & O & Pc & M1 & M2 & M3 & M4 & M5 & _ & M6).
  exists m. pose proof (@pinv_exec u c q now sys l cfg f evs Hf Hd) as I. fold s in I.
  set (first := fun n => first_cost (cfg_cost cfg n) evs n) in I.
  set (cur := fun n => current_cost (cfg_cost cfg n) evs n) in I.
  assert (I' : pinv c (fst (pstep u c s (PvCmd sys' l' m w))) (ev_first (PvCmd sys' l' m w) first) (ev_cur (PvCmd sys' l' m w) cur)).
  { apply pinv_step; [exact I|discriminate|exact Hd]. }
  destruct (@C45_effect_partial u c q now sys l cfg f evs sys' l' m w Hf Hd) as [(code & R & C1 & C2) _]. fold s in R, C1.
  exists code. cbv zeta. fold s.
  set (s' := fst (pstep u c s (PvCmd sys' l' m w))) in *.
  assert (F : face_of m = 1%N) by (unfold face_of; now rewrite M6).
  split; [unfold tool; rewrite O; reflexivity|]. split; [rewrite R, F; reflexivity|].
  split; [|split; [|split; [|split]]].
  - rewrite get_info, (pv_list I'). cbn [ev_cur]. unfold cur1. rewrite M3, eqb_refl, M2, M4. now destruct add.
  - intros n' Hn. rewrite !get_info, (pv_list I'), (pv_list I). cbn [ev_cur]. unfold cur1. rewrite M3.
    eqb_case n' n; [congruence|reflexivity].
  - destruct (pv_lsa I') as (y & Hy & _ & Hg). pose proof (find_key (pv_inv I') Hy) as K. exists y. split.
    + split; [|unfold l_key in K; split; congruence]. apply (In_contents _ (pv_inv I')). now rewrite K.
    + rewrite get_Some_keys, Hg. pose proof (pv_same I' n) as Sm. cbn [ev_cur] in Sm. unfold cur1 in Sm. rewrite M3, eqb_refl, M2, M4 in Sm.
      destruct (ev_first _ _ n) eqn:E; destruct add; split; intros X; try reflexivity; eauto;
        exfalso; destruct Sm as [S1 S2]; first [discriminate X|discriminate (S1 eq_refl)|discriminate (S2 eq_refl)|destruct X; discriminate].
  - assert (Hc : commands (snd (tool [])) <> []) by (unfold tool; rewrite O; discriminate).
    destruct (@C78_status to_name validator_ok time_parse uri_parse opts a (CData false (Some code)) [] Hc) as (x & E & X1 & X2).
    unfold tool. rewrite E. f_equal. destruct (N.eqb_spec code 500) as [->|Hn].
    + apply X2. intros X. apply X1 in X. destruct X as (b & d & E1 & D). injection E1 as <- <-.
      destruct D as [D|[D|[D|D]]]; discriminate D.
    + apply X1. do 2 eexists. split; [reflexivity|].
      destruct (saves m); [destruct (C2 eq_refl) as [->|]; [auto|contradiction]|].
      destruct (C1 eq_refl) as [[_ ->]|[_ ->]]; auto.
  - intros ->. rewrite <- M5. destruct (saves m); [reflexivity|]. destruct (C1 eq_refl) as [[_ X]|[_ X]]; discriminate X.
Qed.

(** If in addition the user asked to save and the tool's status is 0, the configuration file lists
    the prefix at that cost, or no longer lists it (C46: the file is tidy, the URI has no dot). *)
Theorem C78_saved_partial to_name validator_ok time_parse uri_parse opts a add uri n k
    u c q now sys l p f evs sys' l' m w code face :
  let s := fst (pexec u c q now sys l p f evs) in
  let r := pstep u c s (PvCmd sys' l' m w) in
  let tool := trun to_name validator_ok time_parse uri_parse opts a in
  asks a add uri k true -> to_name uri = Some n -> plain_opts to_name opts -> verifiable to_name validator_ok opts ->
  commands (snd (tool [])) = [(target to_name opts, m)] ->
  In (code, face) (replies (snd r)) ->
  t_pc (fst (tool [TReply (CData false (Some code))])) = TExit 0 ->
  tidy_file f -> tidy_writes evs -> dot_free (u n) = true -> u n <> ""%string ->
  saved_in (p_file (fst r)) (u n) = Some (if add then [dec k] else []).
Proof.
  intros s r tool A En P V Hc Hr He Hf Hw Hd Hu.
  destruct (@C78_request to_name validator_ok time_parse uri_parse opts a add uri n k true A En P V) as (m' & O & Pc & M1 & M2 & M3 & M4 & M5 & M7 & M6).
  unfold tool in Hc. rewrite O in Hc. cbn in Hc. injection Hc as <-.
  assert (Hc : commands (snd (tool [])) <> []) by (unfold tool; rewrite O; discriminate).
  destruct (@C78_status to_name validator_ok time_parse uri_parse opts a (CData false (Some code)) [] Hc) as (x & E & X1 & X2).
  unfold tool in He. rewrite E in He. injection He as ->. destruct (proj1 X1 eq_refl) as (b & d & E1 & D). injection E1 as <- <-.
  assert (C : code = 205%N).
  { unfold r, pstep in Hr. destruct (s_dead (p_db s)); [destruct Hr|]. cbn [pstep_live] in Hr. unfold do_cmd in Hr. rewrite M5 in Hr.
    destruct (list_cmd m' (p_list s)) as [ch pl]. destruct (if ch then _ else _) as [d' o]. destruct (after_cmd u m' w (p_file s)) as [ok f'].
    cbn [snd] in Hr. unfold replies in Hr. rewrite flat_map_app in Hr. apply in_app_or in Hr. destruct Hr as [Hr|Hr].
    - exfalso. apply in_flat_map in Hr. destruct Hr as (z & Hz & Hr). apply in_map_iff in Hz. destruct Hz as (y & <- & _). destruct Hr.
    - destruct Hr as [Hr|[]]. injection Hr as <- _. destruct ok; [reflexivity|]. destruct D as [D|[D|[D|D]]]; discriminate D. }
  subst code.
  assert (Fl : m_flags m' = Some 1%N).
  { unfold saves in M5. destruct (m_flags m') as [z|]; [|discriminate]. apply N.eqb_eq in M5. now rewrite M5. }
  assert (D1 : dot_free (u (m_name m')) = true) by now rewrite M3. assert (U1 : u (m_name m') <> ""%string) by now rewrite M3.
  destruct (@C46_saved_partial u c q now sys l p f evs sys' l' m' w face Hf Hw M1 Fl D1 U1 Hr) as [S _].
  fold s r in S. rewrite M3, M2 in S. rewrite S. destruct add; [|reflexivity]. do 3 f_equal.
  unfold cmd_cost in M4. destruct (m_cost m') as [z|] eqn:Ez.
  - apply of_int_inj in M4. lia.
  - symmetry. now apply M7.
Qed.

(** Concrete instances: a router name table with two entries. *)
Definition tnX (s : string) : option name :=
  if eqb s "/ndn/video"%string then Some pX else if eqb s "/ndn/mail"%string then Some p2X
  else if eqb s "/ndn/site/r2"%string then Some farX else None.
Definition toolX := trun tnX (fun _ => true) tp8 Some.

Example C78_case : asks ["advertise"; "/ndn/mail"; "cost"; "40"; "save"]%string true "/ndn/mail" 40 true /\
  asks ["withdraw"; "/ndn/video"]%string false "/ndn/video" 0 false /\
  tnX "/ndn/mail" = Some p2X /\ plain_opts tnX [ORouter "/ndn/site/r2"; ONoCheck] /\
  verifiable tnX (fun _ => false) [ORouter "/ndn/site/r2"; ONoCheck] /\
  target tnX [ORouter "/ndn/site/r2"; ONoCheck] = farX /\
  pno_forged (confX HOff) evsP /\ s_dead (p_db (fst (pX0 evsP None))) = false.
Proof.
  split; [apply (@asks_save_cost "/ndn/mail" 40); reflexivity|]. split; [constructor|]. split; [reflexivity|].
  split; [|split; [|split; [reflexivity|split; apply C47_case]]].
  - intros o [<-|[<-|[]]]; [right; right; do 2 eexists; split; reflexivity|now left].
  - right. left. cbn. auto.
Qed.
Example C78_case_bad : t_pc (fst (toolX [] ["advertise"; "/ndn/mail"; "cost"; "x"]%string [])) = TExit 2 /\
  t_pc (fst (toolX [] ["advertise"; "bad"]%string [])) = TExit 1 /\
  t_pc (fst (toolX [ORouter "bad"] ["lsdb"]%string [])) = TAbort /\
  t_pc (fst (toolX [] ["advertise"; "/ndn/mail"]%string [TReply (CData false (Some 403%N))])) = TExit 1.
Proof. vm_compute. repeat split; reflexivity. Qed.

(** The claim "status 0 means that the router did what was asked" is false: for an answer of the Nack
    type the tool prints that run-time updates are disabled and exits with 0. *)
Theorem C78_disabled_refuted :
  toolX [] ["advertise"; "/ndn/mail"]%string [TReply (CData true None)] =
    (Tool LOCALHOST [] [] None (TExit 0), [TCommand LOCALHOST (Cmd Nlsr true p2X None None None); TError]).
Proof. vm_compute. reflexivity. Qed.

Example C78_padded_case : blanks "   "%string /\
  commands (snd (toolX [] ["advertise"; "/ndn/mail"; "cost"; "   +12"]%string [])) = [(LOCALHOST, Cmd Nlsr true p2X (Some 12%N) None None)].
Proof. split; [|vm_compute; reflexivity]. intros c H. cbn in H. destruct H as [<-|[<-|[<-|[]]]]; now left. Qed.

(** Costs that are not numbers are not rejected: "-1" is sent as 2^64 - 1, "12abc" as 12. *)
Theorem C78_cost_refuted :
  commands (snd (toolX [] ["advertise"; "/ndn/mail"; "cost"; "-1"]%string [])) =
    [(LOCALHOST, Cmd Nlsr true p2X (Some (2 ^ 64 - 1)%N) None None)] /\
  commands (snd (toolX [] ["advertise"; "/ndn/mail"; "cost"; "12abc"]%string [])) =
    [(LOCALHOST, Cmd Nlsr true p2X (Some 12%N) None None)].
Proof. vm_compute. split; reflexivity. Qed.

(** ** C79 *)

(** A list of LSAs with at most one of each origin and type. *)
Definition one_each (ls : list lsa) : Prop :=
  forall x y, In x ls -> In y ls -> l_origin x = l_origin y -> l_type x = l_type y -> x = y.

Lemma shows_record l d o t : shows (record_lsa l d) o t = if eqb (o, t) (l_origin l, l_type l) then Some l else shows d o t.
Proof.
  unfold shows, record_lsa. rewrite get_set. eqb_case o (l_origin l).
  - eqb_case (l_origin l, t) (l_origin l, l_type l).
    + assert (t = l_type l) by congruence. subst t. destruct (get (l_origin l) d) as [r|]; destruct (l_type l); reflexivity.
    + assert (t <> l_type l) by congruence.
      destruct (get (l_origin l) d) as [r|]; destruct (l_type l), t; try reflexivity; congruence.
  - eqb_case (o, t) (l_origin l, l_type l); [congruence|reflexivity].
Qed.
Lemma keys_record l d : NoDup (keys d) -> NoDup (keys (record_lsa l d)) /\
  forall o, In o (keys (record_lsa l d)) <-> o = l_origin l \/ In o (keys d).
Proof.
  intros H. unfold record_lsa. split; [now apply NoDup_set|]. intros o. apply in_keys_set.
Qed.

(** Reading a dataset that decodes records its elements in order. *)
Lemma read_all_dec A (d : elt -> option A) rec b es : dec_elts b = Some es ->
  forall ys, fold_right (fun e k => obind (d e) (fun l => obind k (fun r => Some (l :: r)))) (Some []) es = Some ys ->
  forall n s o, (String.length b <= n)%nat -> read_all d rec n b s o = Some (fold_left (fun s x => rec x s) ys s, o).
Proof.
  revert b es. apply (dec_elts_ind (fun b es => forall ys,
    fold_right (fun e k => obind (d e) (fun l => obind k (fun r => Some (l :: r)))) (Some []) es = Some ys ->
    forall n s o, (String.length b <= n)%nat -> read_all d rec n b s o = Some (fold_left (fun s x => rec x s) ys s, o))).
  - intros ys F n s o _. injection F as <-. destruct n; reflexivity.
  - intros b e r l R _ IH ys F n s o L. pose proof (read_len R) as L'.
    destruct b as [|c b]; [cbn in L'; lia|]. destruct n as [|n]; [cbn in L; lia|].
    cbn [read_all]. rewrite R. cbn [fold_right] in F. destruct (d e) as [y|]; [|discriminate F].
    cbn [obind] in F. destruct (fold_right _ _ l) as [ys'|]; [|discriminate F]. injection F as <-.
    apply (IH ys' eq_refl). cbn [String.length] in *. lia.
Qed.

Definition recorded (ls : list lsa) (d : routers) : routers := fold_left (fun d l => record_lsa l d) ls d.
Lemma recorded_tool ls s : fold_left (fun s l => with_lsa l s) ls s =
  Tool (t_router s) (t_steps s) (recorded ls (t_db s)) (t_rt s) (t_pc s).
Proof.
  revert s. induction ls as [|l ls IH]; intros s; cbn [fold_left]; [now destruct s|]. rewrite IH. reflexivity.
Qed.
Lemma recorded_keys ls d : NoDup (keys d) -> NoDup (keys (recorded ls d)) /\
  forall o, In o (keys (recorded ls d)) <-> In o (map l_origin ls) \/ In o (keys d).
Proof.
  revert d. induction ls as [|l ls IH]; intros d H; cbn [recorded fold_left map In]; [tauto|].
  destruct (@keys_record l d H) as [H1 H2]. destruct (IH _ H1) as [H3 H4]. split; [exact H3|].
  intros o. unfold recorded in H4. rewrite H4, H2. intuition.
Qed.
(** LSAs of one type, at most one per origin: each is shown, and what was recorded of other types
    stays. *)
Lemma recorded_shows ls t d : (forall l, In l ls -> l_type l = t) -> one_each ls ->
  (forall l, In l ls -> shows (recorded ls d) (l_origin l) t = Some l) /\
  (forall o t', (t' <> t \/ ~ In o (map l_origin ls)) -> shows (recorded ls d) o t' = shows d o t').
Proof.
  revert d. induction ls as [|l ls IH] using rev_ind; intros d Ht H1; [split; [intros l []|reflexivity]|].
  unfold recorded. rewrite fold_left_app. cbn [fold_left]. fold (recorded ls d).
  destruct (IH d) as [A B].
  { intros x Hx. apply Ht, in_or_app. now left. }
  { intros x y Hx Hy. apply H1; apply in_or_app; now left. }
  assert (Tl : l_type l = t) by (apply Ht, in_or_app; cbn; auto).
  split.
  - intros x Hx. rewrite shows_record. rewrite Tl. eqb_case (l_origin x, t) (l_origin l, t).
    + f_equal. apply H1; [apply in_or_app; cbn; auto|exact Hx|congruence|]. rewrite Tl. symmetry. now apply Ht.
    + apply in_app_or in Hx. destruct Hx as [Hx|[<-|[]]]; [now apply A|congruence].
  - intros o t' Ho. rewrite shows_record. eqb_case (o, t') (l_origin l, l_type l).
    + exfalso. destruct Ho as [Ho|Ho]; [congruence|]. apply Ho. rewrite map_app. apply in_or_app. right. left. congruence.
    + apply B. destruct Ho as [Ho|Ho]; [now left|]. right. intros X. apply Ho. rewrite map_app. apply in_or_app. now left.
Qed.

Lemma one_adv ls t : one_each ls -> one_each (map advertised (filter (fun l => eqb (l_type l) t) ls)).
Proof.
  intros H x y Hx Hy E1 E2. apply in_map_iff in Hx. destruct Hx as (x0 & <- & Hx). apply in_map_iff in Hy. destruct Hy as (y0 & <- & Hy).
  apply filter_In in Hx, Hy. destruct Hx as [Hx Tx], Hy as [Hy Ty]. apply (proj1 (eqb_eq _ _)) in Tx, Ty.
  f_equal. apply H; try assumption; congruence.
Qed.
Lemma adv_type l : l_type (advertised l) = l_type l.
Proof. unfold advertised, l_type. cbn. now destruct (l_body l). Qed.

Section Status.
Variable to_name : string -> option name.
Variable validator_ok : string -> bool.
Variable time_str : Z -> string.
Variable time_parse : string -> option Z.
Variable uri_parse : string -> option uri.
Notation TR := (trun to_name validator_ok time_parse uri_parse).

(** One dataset of the router arrives. *)
Lemma fetched_lsas t ls s : t_pc s = TFetch (FLsa t) ->
  (forall l, In l ls -> encodable time_str time_parse uri_parse l) -> fits (enc_dataset time_str t ls) ->
  tstep time_parse uri_parse s (TFetched (Some (enc_dataset time_str t ls))) =
  next (Tool (t_router s) (t_steps s) (recorded (map advertised (filter (fun l => eqb (l_type l) t) ls)) (t_db s)) (t_rt s) (t_pc s)).
Proof.
  intros Hp He Hs. unfold tstep. rewrite Hp. unfold on_fetched.
  pose proof (@C62_dataset time_str time_parse uri_parse t ls He Hs) as D. unfold dec_dataset in D.
  destruct (dec_elts (enc_dataset time_str t ls)) as [es|] eqn:E; [|discriminate D]. cbn [obind] in D.
  rewrite (@read_all_dec _ (dec_lsa_elt time_parse uri_parse t) with_lsa _ _ E _ D) by lia.
  rewrite recorded_tool. rewrite Hp. destruct (next _). reflexivity.
Qed.

(** The routing table arrives. *)
Lemma fetched_table rt s w : t_pc s = TFetch FRt -> dec_rt uri_parse w = Some rt ->
  tstep time_parse uri_parse s (TFetched (Some w)) =
  next (Tool (t_router s) (t_steps s) (t_db s) (Some rt) (t_pc s)).
Proof.
  intros Hp D. unfold tstep. rewrite Hp. unfold on_fetched. unfold dec_rt, dec_block in D.
  destruct (read_elt w) as [[e [|c r]]|] eqn:E; try discriminate D. cbn [obind] in D.
  assert (E' : dec_elts w = Some [e]) by (rewrite (dec_elts_cons E); reflexivity).
  assert (F : fold_right (fun e k => obind (dec_rt_elt uri_parse e) (fun l => obind k (fun r => Some (l :: r)))) (Some []) [e] = Some [rt]).
  { cbn [fold_right]. change (dec_rt_elt uri_parse e = Some rt) in D. rewrite D. reflexivity. }
  rewrite (@read_all_dec _ (dec_rt_elt uri_parse) with_rt _ _ E' _ F) by lia.
  cbn [fold_left app]. unfold with_rt. destruct (next _). reflexivity.
Qed.

(** What is shown for three datasets that were fetched one after the other. *)
Lemma shown_three la lc ln : one_each la -> one_each lc -> one_each ln ->
  let sel t ls := map advertised (filter (fun l => eqb (l_type l) t) ls) in
  let d := recorded (sel TName ln) (recorded (sel TCoord lc) (recorded (sel TAdj la) [])) in
  NoDup (keys d) /\
  (forall o t y, shows d o t = Some y <->
     exists x, In x (match t with TAdj => la | TCoord => lc | TName => ln end) /\ l_origin x = o /\ l_type x = t /\ y = advertised x) /\
  (forall o, In o (keys d) -> exists t y, shows d o t = Some y).
Proof.
  intros Ha Hc Hn sel d.
  assert (T : forall t ls x, In x (sel t ls) -> l_type x = t).
  { intros t ls x Hx. apply in_map_iff in Hx. destruct Hx as (x0 & <- & Hx). apply filter_In in Hx. rewrite adv_type.
    now apply (proj1 (eqb_eq _ _)). }
  destruct (@recorded_shows (sel TAdj la) TAdj [] (T TAdj la) (one_adv TAdj Ha)) as [A1 A2].
  destruct (@recorded_shows (sel TCoord lc) TCoord (recorded (sel TAdj la) []) (T TCoord lc) (one_adv TCoord Hc)) as [C1 C2].
  destruct (@recorded_shows (sel TName ln) TName (recorded (sel TCoord lc) (recorded (sel TAdj la) [])) (T TName ln) (one_adv TName Hn)) as [N1 N2].
  destruct (@recorded_keys (sel TAdj la) [] (NoDup_nil _)) as [K1 K1'].
  destruct (@recorded_keys (sel TCoord lc) _ K1) as [K2 K2'].
  destruct (@recorded_keys (sel TName ln) _ K2) as [K3 K3']. fold d in N1, N2, K3, K3'.
  set (dc := recorded (sel TCoord lc) (recorded (sel TAdj la) [])) in *. set (da := recorded (sel TAdj la) []) in *.
  assert (SA : forall o, shows d o TAdj = shows da o TAdj).
  { intros o. rewrite N2 by (left; discriminate). apply C2. left. discriminate. }
  assert (SC : forall o, shows d o TCoord = shows dc o TCoord) by (intros o; apply N2; left; discriminate).
  assert (G : forall t ls dd, (forall l, In l (sel t ls) -> shows dd (l_origin l) t = Some l) ->
    (forall o, ~ In o (map l_origin (sel t ls)) -> shows dd o t = None) ->
    forall o y, shows dd o t = Some y <-> exists x, In x ls /\ l_origin x = o /\ l_type x = t /\ y = advertised x).
  { intros t ls dd H1 H2 o y. split.
    - intros E. destruct (in_dec eq_dec o (map l_origin (sel t ls))) as [I|I]; [|rewrite H2 in E by exact I; discriminate].
      apply in_map_iff in I. destruct I as (x & <- & Hx). rewrite H1 in E by exact Hx. injection E as <-.
      apply in_map_iff in Hx. destruct Hx as (x0 & <- & Hx). apply filter_In in Hx. destruct Hx as [Hx Tx].
      apply (proj1 (eqb_eq _ _)) in Tx. exists x0. auto.
    - intros (x & Hx & Ho & Tx & ->). subst o. change (l_origin x) with (l_origin (advertised x)). apply H1.
      apply in_map. apply filter_In. split; [exact Hx|]. apply (proj2 (eqb_eq _ _)). exact Tx. }
  split; [exact K3|]. split.
  - intros o t y. destruct t.
    + rewrite SA. apply G; [exact A1|]. intros o' Ho. rewrite A2 by now right. reflexivity.
    + rewrite SC. apply G; [exact C1|]. intros o' Ho. rewrite C2 by now right. rewrite A2 by (left; discriminate). reflexivity.
    + apply G; [exact N1|]. intros o' Ho. rewrite N2 by now right. rewrite C2 by (left; discriminate).
      rewrite A2 by (left; discriminate). reflexivity.
  - intros o Ho. apply K3' in Ho. destruct Ho as [Ho|Ho].
    { apply in_map_iff in Ho. destruct Ho as (x & <- & Hx). exists TName, x. now apply N1. }
    apply K2' in Ho. destruct Ho as [Ho|Ho].
    { apply in_map_iff in Ho. destruct Ho as (x & <- & Hx). exists TCoord, x. rewrite SC. now apply C1. }
    apply K1' in Ho. destruct Ho as [Ho|[]].
    apply in_map_iff in Ho. destruct Ho as (x & <- & Hx). exists TAdj, x. rewrite SA. now apply A1.
Qed.

(** The steps of a status command, one dataset each. *)
Lemma show_lsas l a la lc ln rest : plain_opts to_name l -> verifiable to_name validator_ok l ->
  (forall x, In x (la ++ lc ++ ln) -> encodable time_str time_parse uri_parse x) ->
  fits (enc_dataset time_str TAdj la) -> fits (enc_dataset time_str TCoord lc) -> fits (enc_dataset time_str TName ln) ->
  dispatch to_name (target to_name l) a = get_status (target to_name l) (FLsa TAdj :: FLsa TCoord :: FLsa TName :: rest) -> a <> [] ->
  forall xs,
  let sel t ls := map advertised (filter (fun l => eqb (l_type l) t) ls) in
  let d := recorded (sel TName ln) (recorded (sel TCoord lc) (recorded (sel TAdj la) [])) in
  let r := next (Tool (target to_name l) rest d None (TFetch (FLsa TName))) in
  TR l a (TFetched (Some (enc_dataset time_str TAdj la)) :: TFetched (Some (enc_dataset time_str TCoord lc))
          :: TFetched (Some (enc_dataset time_str TName ln)) :: xs) =
  (fst (run (tstep time_parse uri_parse) (fst r) xs),
   [TFetchLsas (target to_name l) TAdj; TFetchLsas (target to_name l) TCoord; TFetchLsas (target to_name l) TName]
   ++ snd r ++ snd (run (tstep time_parse uri_parse) (fst r) xs)).
Proof.
  intros P V E F1 F2 F3 D Ha xs sel d r. unfold trun. rewrite start_plain by assumption. rewrite D. unfold get_status. cbn [next t_steps t_router t_db t_rt].
  cbn [run]. rewrite (@fetched_lsas TAdj la); [|reflexivity| |exact F1].
  2: { intros x Hx. apply E, in_or_app. now left. }
  cbn [next t_steps t_router t_db t_rt t_pc].
  rewrite (@fetched_lsas TCoord lc); [|reflexivity| |exact F2].
  2: { intros x Hx. apply E, in_or_app. right. apply in_or_app. now left. }
  cbn [next t_steps t_router t_db t_rt t_pc].
  rewrite (@fetched_lsas TName ln); [|reflexivity| |exact F3].
  2: { intros x Hx. apply E, in_or_app. right. apply in_or_app. now right. }
  cbn [t_steps t_router t_db t_rt t_pc]. fold (sel TAdj la) (sel TCoord lc) (sel TName ln). fold d. fold r.
  destruct r as [s1 o1]. cbn [fst snd]. destruct (run _ s1 xs) as [s2 o2]. reflexivity.
Qed.

(** "nlsrc lsdb" shows exactly the LSAs of the router's database: for each router and type the LSA
    stored when that dataset was served, with the content it announces, nothing else and every
    router once; the status is 0. *)
Theorem C79_lsdb l c sa sc sn : plain_opts to_name l -> verifiable to_name validator_ok l ->
  reachable c sa -> reachable c sc -> reachable c sn ->
  (forall x, In x (contents sa ++ contents sc ++ contents sn) -> encodable time_str time_parse uri_parse x) ->
  fits (enc_dataset time_str TAdj (contents sa)) -> fits (enc_dataset time_str TCoord (contents sc)) ->
  fits (enc_dataset time_str TName (contents sn)) ->
  let r := TR l ["lsdb"]%string
    [TFetched (Some (enc_dataset time_str TAdj (contents sa))); TFetched (Some (enc_dataset time_str TCoord (contents sc)));
     TFetched (Some (enc_dataset time_str TName (contents sn)))] in
  t_pc (fst r) = TExit 0 /\
  exists d, databases (snd r) = [d] /\ NoDup (keys d) /\
    (forall o t y, shows d o t = Some y <->
       exists x, In x (contents (match t with TAdj => sa | TCoord => sc | TName => sn end)) /\
         l_origin x = o /\ l_type x = t /\ y = advertised x) /\
    (forall o, In o (keys d) -> exists t y, shows d o t = Some y).
Proof using.
  intros P V Ra Rc Rn E F1 F2 F3 r.
  assert (U : forall s, reachable c s -> one_each (contents s)).
  { intros s R x y Hx Hy Eo Et. pose proof (reachable_inv R) as I. apply (In_contents _ I) in Hx, Hy.
    unfold l_key in *. rewrite Eo, Et in Hx. congruence. }
  unfold r. rewrite (@show_lsas l ["lsdb"]%string (contents sa) (contents sc) (contents sn) [PLsdb] P V E F1 F2 F3); [|reflexivity|discriminate].
  cbn [run next t_steps fst snd t_pc]. split; [reflexivity|]. eexists. split; [reflexivity|].
  destruct (shown_three (U _ Ra) (U _ Rc) (U _ Rn)) as (A & B & C). split; [exact A|]. split; [|exact C].
  intros o t y. rewrite B. destruct t; reflexivity.
Qed.

(** The status is 0 only if all three datasets arrived; otherwise nothing is shown. *)
Theorem C79_failed l rs :
  let r := TR l ["lsdb"]%string (map TFetched rs) in
  (databases (snd r) <> [] -> t_pc (fst r) = TExit 0) /\
  (t_pc (fst r) = TExit 0 -> ~ In OHelp l -> ~ In OVersion l ->
   exists b1 b2 b3 rest, rs = Some b1 :: Some b2 :: Some b3 :: rest /\ databases (snd r) <> []).
Proof using.
  assert (DA : forall a b, databases (a ++ b) = databases a ++ databases b) by (intros; apply flat_map_app).
  intros r. unfold r, trun.
  destruct (@start_cases to_name validator_ok time_parse uri_parse l ["lsdb"]%string) as [(r0 & pc & o & E & C)|[(r0 & m & E & C)|(r0 & st & s & I & Es & E)]]; rewrite E.
  - unfold stop. rewrite run_done by (cbn [t_pc]; destruct C as [[-> _]|[[-> _]|[[-> _]|[-> _]]]]; eauto).
    cbn [fst snd t_pc]. rewrite app_nil_r. split.
    + intros H. exfalso. apply H. destruct C as [[_ [[_ ->]|[_ ->]]]|[[_ ->]|[[_ ->]|[_ ->]]]]; reflexivity.
    + intros -> H1 H2. exfalso. destruct C as [[_ [[H _]|[H _]]]|[[H _]|[[H _]|[H _]]]]; try contradiction; discriminate H.
  - exfalso. destruct C as (u & n & _ & _ & _ & _ & C). destruct C as [[C _]|[[C _]|[[C _]|[[C _]|(v & z & _ & _ & _ & [[C _]|[C _]])]]]]; discriminate C.
  - assert (st = [FLsa TAdj; FLsa TCoord; FLsa TName; PLsdb]) by (destruct I as [I|[I|[I|[]]]]; congruence). subst st s.
    cbn [next t_steps t_router t_db t_rt].
    assert (G : forall t rest db b, (exists o, on_fetched time_parse uri_parse (FLsa t) (Tool r0 rest db None (TFetch (FLsa t))) b = (Tool r0 rest db None (TExit 1), o) /\ databases o = []) \/
      (exists b' db' o, b = Some b' /\ on_fetched time_parse uri_parse (FLsa t) (Tool r0 rest db None (TFetch (FLsa t))) b =
         (fst (next (Tool r0 rest db' None (TFetch (FLsa t)))), o ++ snd (next (Tool r0 rest db' None (TFetch (FLsa t))))) /\ databases o = [])).
    { intros t rest db [b|]; [|left; eexists; split; reflexivity]. unfold on_fetched.
      destruct (read_all _ with_lsa _ b _ []) as [[s' o]|] eqn:R; [right|left; eexists; split; reflexivity].
      assert (S : exists db', s' = Tool r0 rest db' None (TFetch (FLsa t)) /\ databases o = []).
      { clear - R. revert R. generalize (String.length b) as n. intros n. revert b db. induction n as [|n IH]; intros b db; destruct b as [|c b]; cbn [read_all];
          try (intros [= <- <-]; eexists; split; reflexivity).
        destruct (read_elt _) as [[e q]|]; [|intros [= <- <-]; eexists; split; reflexivity].
        destruct (dec_lsa_elt _ _ _ _) as [y|]; [|discriminate]. apply IH. }
      destruct S as (db' & -> & Ho). exists b, db', o. split; [reflexivity|]. split; [|exact Ho]. destruct (next (Tool r0 rest db' None (TFetch (FLsa t)))). reflexivity. }
    assert (Fin : forall rest db k xs, run (tstep time_parse uri_parse) (Tool r0 rest db None (TExit k)) xs = (Tool r0 rest db None (TExit k), []))
      by (intros; apply run_done; cbn; eauto).
    assert (SF : forall r1 r2 r3 r4 w x, tstep time_parse uri_parse (Tool r1 r2 r3 r4 (TFetch w)) (TFetched x) =
      on_fetched time_parse uri_parse w (Tool r1 r2 r3 r4 (TFetch w)) x) by reflexivity.
    destruct rs as [|b1 rs]; [(split; [intros H; exfalso; now apply H|cbn [map run fst snd t_pc]; (let X := fresh in intros X; discriminate X)])|]. cbn [map run]. rewrite SF.
    destruct (G TAdj [FLsa TCoord; FLsa TName; PLsdb] [] b1) as [(o1 & -> & D1)|(c1 & d1 & o1 & -> & -> & D1)].
    { rewrite Fin. cbn [fst snd]. rewrite !DA, D1. (split; [intros H; exfalso; now apply H|cbn [map run fst snd t_pc]; (let X := fresh in intros X; discriminate X)]). }
    cbn [next t_steps t_router t_db t_rt fst snd].
    destruct rs as [|b2 rs]; [cbn [map run fst snd t_pc]; rewrite !DA, D1; (split; [intros H; exfalso; now apply H|cbn [map run fst snd t_pc]; (let X := fresh in intros X; discriminate X)])|]. cbn [map run]. rewrite SF.
    destruct (G TCoord [FLsa TName; PLsdb] d1 b2) as [(o2 & -> & D2)|(c2 & d2 & o2 & -> & -> & D2)].
    { rewrite Fin. cbn [fst snd]. rewrite !DA, D1, D2. (split; [intros H; exfalso; now apply H|cbn [map run fst snd t_pc]; (let X := fresh in intros X; discriminate X)]). }
    cbn [next t_steps t_router t_db t_rt fst snd].
    destruct rs as [|b3 rs]; [cbn [map run fst snd t_pc]; rewrite !DA, D1, D2; (split; [intros H; exfalso; now apply H|cbn [map run fst snd t_pc]; (let X := fresh in intros X; discriminate X)])|]. cbn [map run]. rewrite SF.
    destruct (G TName [PLsdb] d2 b3) as [(o3 & -> & D3)|(c3 & d3 & o3 & -> & -> & D3)].
    { rewrite Fin. cbn [fst snd]. rewrite !DA, D1, D2, D3. (split; [intros H; exfalso; now apply H|cbn [map run fst snd t_pc]; (let X := fresh in intros X; discriminate X)]). }
    cbn [next t_steps t_router t_db t_rt fst snd]. rewrite Fin. cbn [fst snd t_pc]. split; [reflexivity|].
    intros _ _ _. exists c1, c2, c3, rs. split; [reflexivity|]. rewrite !DA, D1, D2, D3. discriminate.
Qed.

(** ** C80 *)

(** "nlsrc routing" shows the tables the router's dataset encodes: those of the router if every
    destination of the dry-run table is also in the main table (see C43). *)
Theorem C80_routing_partial l rt dry : plain_opts to_name l -> verifiable to_name validator_ok l ->
  (forall r, In r (rt ++ dry) -> plain_entry uri_parse r) -> NoDup (map fst rt) ->
  (forall x, In x (map fst dry) -> In x (map fst rt)) -> fits (enc_rt rt dry) ->
  TR l ["routing"]%string [TFetched (Some (enc_rt rt dry))] =
  (Tool (target to_name l) [] [] (Some (rt, dry)) (TExit 0),
   [TFetchTable (target to_name l); TShowTable (Some (rt, dry))]).
Proof using.
  intros P V H1 H2 H3 H4. unfold trun. rewrite start_plain by (assumption || discriminate).
  change (dispatch to_name (target to_name l) ["routing"%string]) with (get_status (target to_name l) [FRt; PRt]).
  unfold get_status. cbn [next t_steps t_router t_db t_rt run].
  rewrite (@fetched_table (rt, dry)); [reflexivity|reflexivity|]. now apply C43_roundtrip_partial.
Qed.

(** "nlsrc status" shows both. *)
Theorem C80_status_partial l c sa sc sn rt dry : plain_opts to_name l -> verifiable to_name validator_ok l ->
  reachable c sa -> reachable c sc -> reachable c sn ->
  (forall x, In x (contents sa ++ contents sc ++ contents sn) -> encodable time_str time_parse uri_parse x) ->
  fits (enc_dataset time_str TAdj (contents sa)) -> fits (enc_dataset time_str TCoord (contents sc)) ->
  fits (enc_dataset time_str TName (contents sn)) ->
  (forall r, In r (rt ++ dry) -> plain_entry uri_parse r) -> NoDup (map fst rt) ->
  (forall x, In x (map fst dry) -> In x (map fst rt)) -> fits (enc_rt rt dry) ->
  let r := TR l ["status"]%string
    [TFetched (Some (enc_dataset time_str TAdj (contents sa))); TFetched (Some (enc_dataset time_str TCoord (contents sc)));
     TFetched (Some (enc_dataset time_str TName (contents sn))); TFetched (Some (enc_rt rt dry))] in
  t_pc (fst r) = TExit 0 /\ tables (snd r) = [Some (rt, dry)] /\
  exists d, databases (snd r) = [d] /\ NoDup (keys d) /\
    (forall o t y, shows d o t = Some y <->
       exists x, In x (contents (match t with TAdj => sa | TCoord => sc | TName => sn end)) /\
         l_origin x = o /\ l_type x = t /\ y = advertised x) /\
    (forall o, In o (keys d) -> exists t y, shows d o t = Some y).
Proof using.
  intros P V Ra Rc Rn E F1 F2 F3 H1 H2 H3 H4 r.
  assert (U : forall s, reachable c s -> one_each (contents s)).
  { intros s R x y Hx Hy Eo Et. pose proof (reachable_inv R) as I. apply (In_contents _ I) in Hx, Hy.
    unfold l_key in *. rewrite Eo, Et in Hx. congruence. }
  unfold r. rewrite (@show_lsas l ["status"]%string (contents sa) (contents sc) (contents sn) [FRt; PAll] P V E F1 F2 F3); [|reflexivity|discriminate].
  cbn [run next t_steps t_router t_db t_rt fst snd t_pc].
  rewrite (@fetched_table (rt, dry)); [|reflexivity|now apply C43_roundtrip_partial].
  cbn [run next t_steps t_router t_db t_rt fst snd t_pc]. split; [reflexivity|]. split; [reflexivity|]. eexists. split; [reflexivity|].
  destruct (shown_three (U _ Ra) (U _ Rc) (U _ Rn)) as (A & B & C). split; [exact A|]. split; [|exact C].
  intros o t y. rewrite B. destruct t; reflexivity.
Qed.
End Status.

(** A database with an own Name LSA and a fetched one, shown by the tool. *)
Definition dbX : st := fst (exec (confX HOff) None 0 envX evsX).
Example C79_case : reachable (confX HOff) dbX /\ plain_opts tnX [] /\ verifiable tnX (fun _ => false) [] /\
  fits (enc_dataset ts8 TName (contents dbX)) /\
  (exists d, databases (snd (toolX [] ["lsdb"]%string
     [TFetched (Some (enc_dataset ts8 TAdj (contents dbX))); TFetched (Some (enc_dataset ts8 TCoord (contents dbX)));
      TFetched (Some (enc_dataset ts8 TName (contents dbX)))])) = [d] /\
   keys d = [selfX; farX] /\ shows d farX TName = Some (nlsaX 6 [(pX, 7); (p2X, 1)])).
Proof.
  split; [exists None, 0, envX, evsX; reflexivity|]. split; [intros o []|]. split; [now left|]. split; [vm_compute; reflexivity|].
  eexists. split; [vm_compute; reflexivity|]. split; vm_compute; reflexivity.
Qed.
Lemma contents_dbX : contents dbX = [Lsa selfX 1 (T0 + 3600 * SEC) (BName [(pX, 0)]); nlsaX 6 [(pX, 7); (p2X, 1)]].
Proof. vm_compute. reflexivity. Qed.
Lemma small_double z : Z.abs z < 2 ^ 53 -> is_double z.
Proof. intros Hz. exists z, 0. split; [lia|]. split; [exact Hz|lia]. Qed.
Lemma encX o q p : (q < 2 ^ 64)%N -> NoDup (map fst p) -> (forall x, In x p -> legal_name (fst x) /\ is_double (snd x)) -> legal_name o ->
  encodable ts8 tp8 Some (Lsa o q (T0 + 3600 * SEC) (BName p)).
Proof. intros H1 H2 H3 H4. split; [exact H4|]. split; [exact H1|]. split; [vm_compute; reflexivity|]. split; [exact H2|exact H3]. Qed.
(** The LSAs of [contents_dbX]. *)
Example C79_case_encodable x : In x [Lsa selfX 1 (T0 + 3600 * SEC) (BName [(pX, 0)]); nlsaX 6 [(pX, 7); (p2X, 1)]] -> encodable ts8 tp8 Some x.
Proof.
  intros [<-|[<-|[]]].
  - apply encX; [reflexivity| | |apply legal_nm].
    + repeat constructor; simpl; intuition discriminate.
    + intros y [<-|[]]. split; [apply legal_nm|]. apply small_double. reflexivity.
  - apply encX; [reflexivity| | |apply legal_nm].
    + repeat constructor; simpl; intuition discriminate.
    + intros y [<-|[<-|[]]]; (split; [apply legal_nm|]; apply small_double; reflexivity).
Qed.

(** A dataset that ends in the middle of an element is shown as if it were complete; the status is 0. *)
Theorem C79_broken_refuted :
  let r := toolX [] ["lsdb"]%string [TFetched (Some EmptyString); TFetched (Some EmptyString);
    TFetched (Some (enc_lsa ts8 (nlsaX 6 []) ++ substring 0 20 (enc_lsa ts8 (Lsa selfX 1 0 (BName []))))%string)] in
  t_pc (fst r) = TExit 0 /\ exists d, databases (snd r) = [d] /\ keys d = [farX].
Proof. split; [vm_compute; reflexivity|]. eexists. split; vm_compute; reflexivity. Qed.

(** A router that has no routes yet: the tool shows an empty table instead of saying that there is
    none.  A dry-run table is shown as the main table (C43). *)
Theorem C80_tables_refuted :
  snd (toolX [] ["routing"]%string [TFetched (Some (enc_rt [] []))]) = [TFetchTable LOCALHOST; TShowTable (Some ([], []))] /\
  exists e, plain_entry Some e /\
    snd (toolX [] ["routing"]%string [TFetched (Some (enc_rt [] [e]))]) = [TFetchTable LOCALHOST; TShowTable (Some ([e], []))].
Proof.
  split; [vm_compute; reflexivity|]. destruct C43_dry_run_refuted as (e & A & B & C). exists e. split; [exact A|].
  unfold toolX, trun. rewrite start_plain by (try (intros o []); try (now left); discriminate).
  change (dispatch tnX (target tnX []) ["routing"%string]) with (get_status (target tnX []) [FRt; PRt]).
  unfold get_status. cbn [next t_steps t_router t_db t_rt run].
  rewrite (@fetched_table tp8 Some ([e], [])); [reflexivity|reflexivity|exact C].
Qed.

Print Assumptions C78_request.
Print Assumptions C78_padded.
Print Assumptions C78_only.
Print Assumptions C78_rejected.
Print Assumptions C78_status.
Print Assumptions C78_effect_partial.
Print Assumptions C78_saved_partial.
Print Assumptions C78_disabled_refuted.
Print Assumptions C78_cost_refuted.
Print Assumptions C79_lsdb.
Print Assumptions C79_failed.
Print Assumptions C79_broken_refuted.
Print Assumptions C80_routing_partial.
Print Assumptions C80_status_partial.
Print Assumptions C80_tables_refuted.

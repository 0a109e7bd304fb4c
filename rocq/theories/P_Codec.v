(** Properties C41-C43 and C62: wire formats. *)
From Verif Require Import Base M_Nexthop M_Tlv M_Adj M_Lsa M_Codec S_Codec L_Nexthop L_Codec L_Lsdb9 X_Lsdb.
From Coq Require Import Sorting.Sorted.
Set Implicit Arguments.
Open Scope N_scope.

Lemma is_double_spec z : is_double z <-> double z.
Proof.
  split.
  - intros (m & k & -> & Hm & Hk). unfold double. cbv zeta.
    rewrite Z.abs_mul, (Z.abs_eq (2 ^ k)) by (apply Z.pow_nonneg; lia).
    rewrite Z2N.inj_mul by (try apply Z.abs_nonneg; apply Z.pow_nonneg; lia).
    rewrite Z2N.inj_pow by lia. change (Z.to_N 2) with 2.
    assert (Ha : Z.to_N (Z.abs m) < 2 ^ 53) by (change (2 ^ 53) with (Z.to_N (2 ^ 53)); apply Z2N.inj_lt; lia).
    assert (Hk' : Z.to_N k <= 2045) by lia.
    set (a := Z.to_N (Z.abs m)) in *. set (j := Z.to_N k) in *. clearbody a j.
    destruct (N.eq_dec a 0) as [->|Hn]; [left; rewrite N.mul_0_l; reflexivity|].
    assert (La : N.log2 a <= 52) by (change 52 with (N.log2 (N.pred (2 ^ 53))); apply N.log2_le_mono; lia).
    assert (L : N.log2 (a * 2 ^ j) = j + N.log2 a) by (apply N.log2_mul_pow2; lia).
    right. rewrite L. split; [|lia]. set (i := j + N.log2 a - 52). assert (Hi : i <= j) by (unfold i; lia).
    rewrite (@pow_split j i Hi), N.mul_assoc, (N.mul_comm a), <- N.mul_assoc, N.mul_comm.
    apply N.mod_mul. apply N.pow_nonzero. lia.
  - unfold double. cbv zeta. set (a := Z.to_N (Z.abs z)).
    assert (G : forall q i, a = q * 2 ^ i -> q < 2 ^ 53 -> i <= 2045 -> is_double z).
    { intros q i E Hq Hi. exists (Z.sgn z * Z.of_N q)%Z, (Z.of_N i). split; [|split; [|lia]].
      - rewrite <- Z.mul_assoc. replace (Z.of_N q * 2 ^ Z.of_N i)%Z with (Z.of_N a).
        + unfold a. rewrite Z2N.id by apply Z.abs_nonneg. now rewrite Z.mul_comm, Z.abs_sgn.
        + rewrite E, N2Z.inj_mul, N2Z.inj_pow. reflexivity.
      - rewrite Z.abs_mul. change (2 ^ 53)%Z with (Z.of_N (2 ^ 53)).
        destruct z; cbn [Z.sgn Z.abs]; lia. }
    intros [H|[H1 H2]].
    + apply (G a 0); [rewrite N.pow_0_r; lia|eapply N.lt_trans; [exact H|reflexivity]|lia].
    + set (i := N.log2 a - 52) in *. apply (G (a / 2 ^ i) i).
      * assert (P : 2 ^ i <> 0) by (apply N.pow_nonzero; lia). pose proof (N.div_mod a (2 ^ i) P) as D. rewrite H1 in D.
        rewrite N.mul_comm. lia.
      * assert (P : 2 ^ i <> 0) by (apply N.pow_nonzero; lia). apply N.div_lt_upper_bound; [exact P|].
        destruct (N.eq_dec a 0) as [->|Hn].
        { apply N.mul_pos_pos; [lia|reflexivity]. }
        destruct (N.log2_spec a) as [_ S]; [lia|]. eapply N.lt_le_trans; [exact S|]. rewrite <- N.pow_add_r.
        apply N.pow_le_mono_r; [lia|]. unfold i. lia.
      * unfold i. lia.
Qed.

Lemma legal_wf n : legal_name n <-> wf_name n. Proof. reflexivity. Qed.
Lemma fits_small s : fits s <-> small s. Proof. reflexivity. Qed.

(** ** Encoding of the parts *)

Ltac codes := unfold T_Name, T_Lsa, T_SequenceNumber, T_AdjacencyLsa, T_Adjacency, T_CoordinateLsa, T_CostDouble,
  T_HyperbolicRadius, T_HyperbolicAngle, T_NameLsa, T_ExpirationTime, T_Cost, T_Uri, T_NextHop, T_RoutingTable,
  T_RoutingTableEntry, T_PrefixInfo in *; lia.

Lemma dec_elts_end t v : 1 <= t < 2 ^ 32 -> small v -> dec_elts (tlv t v) = Some [(t, v)].
Proof. intros Ht Hv. rewrite <- (string_app_nil (tlv t v)), dec_elts_tlv, dec_elts_nil by assumption. reflexivity. Qed.

Lemma expect_hit t v es : expect t ((t, v) :: es) = Some (v, es).
Proof. unfold expect. now rewrite N.eqb_refl. Qed.

Lemma dec_list_map A B t (f : string -> option B) (g : A -> string) (h : A -> B) l :
  (forall x, In x l -> f (g x) = Some (h x)) -> dec_list t f (map (fun x => (t, g x)) l) = Some (map h l).
Proof.
  induction l as [|x l IH]; intros H; [reflexivity|]. cbn [map dec_list]. rewrite N.eqb_refl, (H x) by now left.
  cbn [obind]. rewrite IH by (intros y Hy; apply H; now right). reflexivity.
Qed.

(** Elements of one kind, one after another *)
Lemma dec_elts_map A t (g : A -> string) l : 1 <= t < 2 ^ 32 -> small (cat (map (fun x => tlv t (g x)) l)) ->
  dec_elts (cat (map (fun x => tlv t (g x)) l)) = Some (map (fun x => (t, g x)) l).
Proof.
  intros Ht Hs.
  assert (E : map (fun x => tlv t (g x)) l = map (fun e => tlv (fst e) (snd e)) (map (fun x => (t, g x)) l)) by now rewrite map_map.
  rewrite E, <- (string_app_nil (cat _)), dec_elts_cat.
  - rewrite dec_elts_nil. cbn [option_map]. now rewrite app_nil_r.
  - intros e He. apply in_map_iff in He. destruct He as (x & <- & Hx). cbn [fst snd]. split; [exact Ht|].
    apply (@small_tlv t (g x)). eapply small_cat; [|exact Hs]. apply in_map_iff. eauto.
Qed.

Section RT.
Variable time_str : Z -> string.
Variable time_parse : string -> option Z.
Variable uri_parse : string -> option uri.

Lemma rt_hdr o q t : wf_name o -> q < 2 ^ 64 -> time_parse (time_str t) = Some t -> small (enc_hdr time_str o q t) ->
  dec_hdr time_parse (enc_name o ++ tlv T_SequenceNumber (nni_enc q) ++ tlv T_ExpirationTime (time_str t)) = Some (o, q, t).
Proof.
  intros Ho Hq Ht Hs. apply small_tlv in Hs. apply small_app in Hs. destruct Hs as [S1 S]. apply small_app in S. destruct S as [S2 S3].
  unfold dec_hdr. unfold enc_name at 1. rewrite dec_elts_tlv by (try codes; exact (small_tlv S1)).
  rewrite dec_elts_tlv by (try codes; exact (small_tlv S2)). rewrite dec_elts_end by (try codes; exact (small_tlv S3)).
  cbn [option_map obind]. rewrite expect_hit. cbn [obind]. rewrite dec_enc_name by assumption. cbn [obind].
  rewrite expect_hit. cbn [obind]. rewrite nni_dec_enc by assumption. cbn [obind]. rewrite expect_hit. cbn [obind]. now rewrite Ht.
Qed.

Lemma rt_adj a : legal_name (a_name a) -> uri_parse (a_uri a) = Some (a_uri a) -> is_double (a_cost a) -> small (enc_adj a) ->
  dec_adj uri_parse (enc_name (a_name a) ++ tlv T_Uri (a_uri a) ++ tlv T_Cost (enc_dbl (a_cost a))) = Some (advertised_adj a).
Proof.
  intros Ho Hu Hd Hs. apply is_double_spec in Hd.
  apply small_tlv in Hs. apply small_app in Hs. destruct Hs as [S1 S]. apply small_app in S. destruct S as [S2 S3].
  unfold dec_adj. unfold enc_name at 1. rewrite dec_elts_tlv by (try codes; exact (small_tlv S1)).
  rewrite dec_elts_tlv by (try codes; exact (small_tlv S2)). rewrite dec_elts_end by (try codes; exact (small_tlv S3)).
  cbn [option_map obind]. rewrite expect_hit. cbn [obind]. rewrite dec_enc_name by assumption. cbn [obind].
  rewrite expect_hit. cbn [obind]. rewrite Hu. cbn [obind]. rewrite expect_hit. cbn [obind]. now rewrite (dec_enc_dbl Hd).
Qed.

Lemma rt_prefix p : legal_name (fst p) -> is_double (snd p) -> small (enc_prefix p) ->
  dec_prefix (enc_name (fst p) ++ tlv T_Cost (enc_dbl (snd p))) = Some p.
Proof.
  intros Ho Hd Hs. apply is_double_spec in Hd. apply small_tlv in Hs. apply small_app in Hs. destruct Hs as [S1 S2].
  unfold dec_prefix. unfold enc_name at 1. rewrite dec_elts_tlv by (try codes; exact (small_tlv S1)).
  rewrite dec_elts_end by (try codes; exact (small_tlv S2)).
  cbn [option_map obind]. rewrite expect_hit. cbn [obind]. rewrite dec_enc_name by assumption. cbn [obind].
  rewrite expect_hit. cbn [obind]. rewrite (dec_enc_dbl Hd). cbn [obind]. now destruct p.
Qed.

Lemma adl_of_list_id l : NoDup (map a_name l) -> adl_of_list l = l.
Proof.
  intros H. unfold adl_of_list.
  assert (G : forall m, NoDup (map a_name (m ++ l)) -> fold_left (fun m a => snd (adl_insert a m)) l m = m ++ l).
  { clear H. induction l as [|a l IH]; intros m H; [now rewrite app_nil_r|]. cbn [fold_left].
    assert (E : adl_insert a m = (true, m ++ [a])).
    { unfold adl_insert. destruct (adl_find (a_name a) m) as [b|] eqn:E; [|reflexivity].
      apply adl_find_some in E. destruct E as [E1 E2]. rewrite map_app in H. cbn [map] in H. apply NoDup_remove_2 in H.
      exfalso. apply H. apply in_app_iff. left. rewrite <- E2. now apply in_map. }
    rewrite E. cbn [snd]. rewrite IH by (now rewrite <- app_assoc). now rewrite <- app_assoc. }
  now apply G.
Qed.

Lemma npl_of_list_id (l : npl) : NoDup (map fst l) -> npl_of_list l = l.
Proof.
  intros H. unfold npl_of_list.
  assert (S : forall (k : name) (v : Z) m, ~ In k (map fst m) -> set k v m = m ++ [(k, v)]).
  { induction m as [|[k' v'] m IH]; intros Hn; [reflexivity|]. cbn [set]. eqb_case k k'; [exfalso; apply Hn; now left|].
    cbn [app]. f_equal. apply IH. intros X. apply Hn. now right. }
  assert (G : forall m : npl, NoDup (map fst (m ++ l)) -> fold_left (fun m p => set (fst p) (snd p) m) l m = m ++ l).
  { clear H. induction l as [|[k v] l IH]; intros m H; [now rewrite app_nil_r|]. cbn [fold_left fst snd].
    rewrite S.
    - rewrite IH by (now rewrite <- app_assoc). now rewrite <- app_assoc.
    - rewrite map_app in H. cbn [map fst] in H. apply NoDup_remove_2 in H. intros X. apply H. apply in_app_iff. now left. }
  now apply (G []).
Qed.

Lemma advertised_names l : map a_name (map advertised_adj l) = map a_name l.
Proof. rewrite map_map. reflexivity. Qed.

Lemma rt_body l : encodable time_str time_parse uri_parse l -> small (enc_body (l_body l)) ->
  exists es, dec_elts (enc_body (l_body l)) = Some es /\ dec_body uri_parse (l_type l) es = Some (advertised_body (l_body l)).
Proof.
  intros (_ & _ & _ & H) Hs. unfold l_type. destruct (l_body l) as [a|r an|p]; cbn [enc_body body_type dec_body advertised_body] in *.
  - eexists. split; [apply (@dec_elts_map _ T_Adjacency (fun a => (enc_name (a_name a) ++ tlv T_Uri (a_uri a) ++ tlv T_Cost (enc_dbl (a_cost a)))%string) a); [codes|exact Hs]|].
    destruct H as [Hn H]. rewrite (@dec_list_map _ _ _ _ _ advertised_adj).
    + cbn [option_map]. rewrite adl_of_list_id; [reflexivity|]. now rewrite advertised_names.
    + intros x Hx. destruct (H x Hx) as (H1 & H2 & H3). apply rt_adj; try assumption.
      eapply small_cat; [|exact Hs]. now apply in_map.
  - destruct H as [H1 H2]. apply small_app in Hs. destruct Hs as [S1 S2].
    eexists. split.
    + rewrite dec_elts_tlv by (try codes; exact (small_tlv S1)).
      rewrite (@dec_elts_map _ T_HyperbolicAngle enc_dbl an) by (try codes; exact S2). reflexivity.
    + rewrite expect_hit. cbn [obind]. rewrite (dec_enc_dbl (proj1 (is_double_spec _) H1)). cbn [obind].
      rewrite (@dec_list_map _ _ _ _ _ (fun x => x)); [cbn [obind]; now rewrite map_id|].
      intros x Hx. apply dec_enc_dbl. apply is_double_spec. auto.
  - eexists. split; [apply (@dec_elts_map _ T_PrefixInfo (fun p => (enc_name (fst p) ++ tlv T_Cost (enc_dbl (snd p)))%string) p); [codes|exact Hs]|].
    destruct H as [Hn H]. rewrite (@dec_list_map _ _ _ _ _ (fun x => x)).
    + cbn [option_map]. rewrite map_id, npl_of_list_id by exact Hn. reflexivity.
    + intros x Hx. destruct (H x Hx) as (H1 & H2). apply rt_prefix; try assumption.
      eapply small_cat; [|exact Hs]. now apply in_map.
Qed.

Lemma code_ok t : 1 <= type_code t < 2 ^ 32. Proof. destruct t; cbn [type_code]; codes. Qed.
Lemma code_inj t t' : type_code t = type_code t' -> t = t'. Proof. destruct t, t'; try reflexivity; discriminate. Qed.

Lemma rt_elt l : encodable time_str time_parse uri_parse l -> small (enc_lsa time_str l) ->
  dec_lsa_elt time_parse uri_parse (l_type l)
    (type_code (l_type l), (enc_hdr time_str (l_origin l) (l_seq l) (l_exp l) ++ enc_body (l_body l))%string) = Some (advertised l).
Proof.
  intros He Hs. apply small_tlv in Hs. apply small_app in Hs. destruct Hs as [S1 S2].
  destruct (rt_body He S2) as (es & E1 & E2). destruct He as (H1 & H2 & H3 & _).
  unfold dec_lsa_elt. cbn [fst snd]. rewrite N.eqb_refl. unfold enc_hdr at 1. rewrite dec_elts_tlv by (try codes; exact (small_tlv S1)).
  rewrite E1. cbn [option_map obind]. rewrite expect_hit. cbn [obind]. rewrite rt_hdr by assumption. cbn [obind]. rewrite E2. reflexivity.
Qed.
End RT.

(** ** C41 *)

(** Decoding the encoding of an LSA gives the LSA back, up to the local hello state of neighbours, for
    every LSA and every text format that is faithful on its expiration time and URIs. *)
Theorem C41_roundtrip time_str time_parse uri_parse l :
  encodable time_str time_parse uri_parse l -> fits (enc_lsa time_str l) ->
  dec_lsa time_parse uri_parse (l_type l) (enc_lsa time_str l) = Some (advertised l).
Proof.
  intros He Hs. unfold dec_lsa, enc_lsa. rewrite dec_block_tlv by (try apply code_ok; exact (small_tlv Hs)).
  cbn [obind]. now apply rt_elt.
Qed.

(** An encoded LSA is never taken for one of another type. *)
Theorem C41_type time_str time_parse uri_parse l t : fits (enc_lsa time_str l) -> t <> l_type l ->
  dec_lsa time_parse uri_parse t (enc_lsa time_str l) = None.
Proof.
  intros Hs Ht. unfold dec_lsa, enc_lsa. rewrite dec_block_tlv by (try apply code_ok; exact (small_tlv Hs)).
  cbn [obind]. unfold dec_lsa_elt. cbn [fst]. destruct (N.eqb_spec (type_code (l_type l)) (type_code t)) as [E|_]; [|reflexivity].
  apply code_inj in E. congruence.
Qed.

(** ** C42 *)

(** Different LSAs (as advertised) have different encodings. *)
Theorem C42_injective time_str time_parse uri_parse l l' :
  encodable time_str time_parse uri_parse l -> encodable time_str time_parse uri_parse l' ->
  fits (enc_lsa time_str l) -> enc_lsa time_str l = enc_lsa time_str l' -> advertised l = advertised l'.
Proof.
  intros H H' Hs E. pose proof (C41_roundtrip H Hs) as R.
  assert (Hs' : fits (enc_lsa time_str l')) by (now rewrite <- E). pose proof (C41_roundtrip H' Hs') as R'.
  assert (Et : l_type l = l_type l').
  { destruct (ltac:(repeat decide equality) : {l_type l = l_type l'} + {l_type l <> l_type l'}) as [X|X]; [exact X|exfalso].
    rewrite E in R. rewrite (@C41_type time_str time_parse uri_parse l' _ Hs' X) in R. discriminate. }
  rewrite E, Et in R. congruence.
Qed.

(** No proper prefix of an encoded LSA is accepted, and nothing may follow it. *)
Theorem C42_truncated time_str time_parse uri_parse l t p q : fits (enc_lsa time_str l) ->
  enc_lsa time_str l = (p ++ q)%string -> q <> EmptyString -> dec_lsa time_parse uri_parse t p = None.
Proof.
  intros Hs E Hq. unfold dec_lsa. destruct (dec_block p) as [e|] eqn:Ep; [exfalso|reflexivity].
  apply (dec_block_whole p) with (q := q) in Ep; [|exact Hq]. rewrite <- E in Ep. unfold enc_lsa in Ep.
  rewrite dec_block_tlv in Ep by (try apply code_ok; exact (small_tlv Hs)). discriminate.
Qed.
Theorem C42_trailing time_str time_parse uri_parse l t q : fits (enc_lsa time_str l) -> q <> EmptyString ->
  dec_lsa time_parse uri_parse t (enc_lsa time_str l ++ q) = None.
Proof.
  intros Hs Hq. unfold dec_lsa, enc_lsa. rewrite (@dec_block_whole _ (type_code (l_type l), _) q (dec_block_tlv (code_ok _) (small_tlv Hs)) Hq). reflexivity.
Qed.

(** Whatever octets are accepted, the result is an LSA of the requested type that could have been sent
    as it is, and encoding and decoding it again changes nothing: a router that passes it on passes
    on what it understood. *)
Lemma npl_of_list_spec l : NoDup (map fst (npl_of_list l)) /\ forall p, In p (npl_of_list l) -> In p l.
Proof.
  unfold npl_of_list.
  assert (G : forall (m : npl), NoDup (map fst m) -> let r := fold_left (fun m p => set (fst p) (snd p) m) l m in
    NoDup (map fst r) /\ forall p, In p r -> In p m \/ In p l).
  { induction l as [|[k v] l IH]; intros m Hm; cbn [fold_left fst snd]; [auto|].
    assert (N1 : NoDup (map fst (set k v m))) by (apply (@NoDup_set _ _ _ k v m); exact Hm).
    destruct (IH _ N1) as [A B]. split; [exact A|]. intros p Hp. apply B in Hp. destruct Hp as [Hp|Hp]; [|right; now right].
    assert (S : In p (set k v m) -> p = (k, v) \/ In p m).
    { clear. induction m as [|[k' v'] m IH]; cbn [set]; [intros [<-|[]]; auto|].
      eqb_case k k'; simpl; intros [<-|X]; auto. destruct (IH X) as [Y|Y]; auto. }
    apply S in Hp. destruct Hp as [->|Hp]; [right; now left|now left]. }
  destruct (G [] (NoDup_nil _)) as [A B]. split; [exact A|]. intros p Hp. destruct (B p Hp) as [[]|X]. exact X.
Qed.

Lemma nni_dec_lt s n : nni_dec s = Some n -> n < 2 ^ 64.
Proof.
  unfold nni_dec, be_dec.
  assert (G : forall s a, be_dec_acc a s < (a + 1) * 256 ^ N.of_nat (String.length s)).
  { clear. induction s as [|c s IH]; intros a; [cbn; lia|]. cbn [be_dec_acc String.length].
    eapply N.lt_le_trans; [apply IH|]. rewrite Nat2N.inj_succ, N.pow_succ_r', N.mul_assoc. apply N.mul_le_mono_r.
    pose proof (N_of_ascii_lt c). lia. }
  specialize (G s 0). rewrite N.add_0_l, N.mul_1_l in G.
  destruct (String.length s) as [|[|[|[|[|[|[|[|[|k]]]]]]]]]; try discriminate; intros [= <-];
    (eapply N.lt_le_trans; [exact G|]; vm_compute; discriminate).
Qed.

Lemma dec_list_spec A t (f : string -> option A) es l : dec_list t f es = Some l ->
  forall x, In x l -> exists v, f v = Some x.
Proof.
  revert l. induction es as [|[t' v] es IH]; intros l; cbn [dec_list]; [intros [= <-] x []|].
  destruct (t =? t'); [|discriminate]. destruct (f v) as [y|] eqn:E; [|discriminate]. cbn [obind].
  destruct (dec_list t f es) as [r|]; [|discriminate]. cbn [obind]. intros [= <-] x [<-|Hx]; [eauto|]. now apply (IH r).
Qed.

Ltac dstep H := 
  match type of H with
  | obind ?m _ = Some _ => let E := fresh "E" in destruct m eqn:E; [|discriminate H]; cbn [obind] in H
  | (let (_, _) := ?p in _) = Some _ => destruct p
  | (let (_, _) := ?p in _) _ = Some _ => destruct p
  | match ?p with pair _ _ => _ end = Some _ => destruct p
  end.

Theorem C42_faithful time_str time_parse uri_parse t s l :
  (forall s x, time_parse s = Some x -> time_parse (time_str x) = Some x) ->
  (forall s u, uri_parse s = Some u -> uri_parse u = Some u) ->
  dec_lsa time_parse uri_parse t s = Some l ->
  l_type l = t /\ encodable time_str time_parse uri_parse l /\ advertised l = l /\
  (fits (enc_lsa time_str l) -> dec_lsa time_parse uri_parse t (enc_lsa time_str l) = Some l).
Proof.
  intros Ht Hu H.
  assert (G : l_type l = t /\ encodable time_str time_parse uri_parse l /\ advertised l = l).
  { unfold dec_lsa in H. dstep H. unfold dec_lsa_elt in H. destruct (_ =? _); [|discriminate].
    repeat dstep H. injection H as <-.
    assert (Hdr : wf_name n /\ n0 < 2 ^ 64 /\ time_parse (time_str z) = Some z).
    { match goal with E : dec_hdr _ _ = _ |- _ => unfold dec_hdr in E; rename E into D end. repeat dstep D. injection D as -> -> ->.
      split; [|split].
      - match goal with E : dec_name _ = Some n |- _ => exact (dec_name_wf _ E) end.
      - match goal with E : nni_dec _ = Some n0 |- _ => exact (nni_dec_lt _ E) end.
      - match goal with E : time_parse _ = Some z |- _ => exact (Ht _ _ E) end. }
    destruct Hdr as (H1 & H2 & H3). unfold l_type, advertised, encodable. cbn [l_origin l_seq l_exp l_body].
    match goal with E : dec_body _ _ _ = _ |- _ => rename E into D end. destruct t; cbn [dec_body] in D.
    - destruct (dec_list _ _ _) as [la|] eqn:El in D; [|discriminate]. injection D as <-. cbn [body_type advertised_body].
      destruct (adl_of_list_spec la) as (A1 & A2 & _).
      assert (X : forall x, In x (adl_of_list la) -> advertised_adj x = x /\ legal_name (a_name x) /\ uri_parse (a_uri x) = Some (a_uri x) /\ is_double (a_cost x)).
      { intros x Hx. apply A2 in Hx. destruct (dec_list_spec _ _ _ El x Hx) as [v Hv]. unfold dec_adj in Hv. repeat dstep Hv.
        injection Hv as <-. cbn [a_name a_uri a_cost]. split; [reflexivity|]. split; [|split].
        - match goal with E : dec_name _ = Some ?m |- legal_name ?m => exact (dec_name_wf _ E) end.
        - match goal with E : uri_parse _ = Some ?m |- uri_parse ?m = _ => exact (Hu _ _ E) end.
        - apply is_double_spec. match goal with E : dec_dbl _ = Some ?m |- double ?m => exact (dec_dbl_double _ E) end. }
      split; [reflexivity|]. split.
      + do 3 (split; [assumption|]). split; [exact A1|]. intros x Hx. destruct (X x Hx) as (_ & X1). exact X1.
      + do 2 f_equal. rewrite (map_ext_in _ (fun x => x)); [apply map_id|]. intros x Hx. now apply X.
    - repeat dstep D. injection D as <-. cbn [body_type advertised_body]. split; [reflexivity|]. split; [|reflexivity].
      do 3 (split; [assumption|]). split.
      + apply is_double_spec. match goal with E : dec_dbl _ = Some ?m |- double ?m => exact (dec_dbl_double _ E) end.
      + intros a Ha. match goal with E : dec_list _ _ _ = Some _ |- _ => destruct (dec_list_spec _ _ _ E a Ha) as [v Hv] end.
        apply is_double_spec. exact (dec_dbl_double _ Hv).
    - destruct (dec_list _ _ _) as [la|] eqn:El in D; [|discriminate]. injection D as <-. cbn [body_type advertised_body].
      destruct (npl_of_list_spec la) as (A1 & A2). split; [reflexivity|]. split; [|reflexivity].
      do 3 (split; [assumption|]). split; [exact A1|].
      intros x Hx. apply A2 in Hx. destruct (dec_list_spec _ _ _ El x Hx) as [v Hv]. unfold dec_prefix in Hv. repeat dstep Hv.
      injection Hv as <-. cbn [fst snd]. split.
      + match goal with E : dec_name _ = Some ?m |- legal_name ?m => exact (dec_name_wf _ E) end.
      + apply is_double_spec. match goal with E : dec_dbl _ = Some ?m |- double ?m => exact (dec_dbl_double _ E) end. }
  destruct G as (G1 & G2 & G3). split; [exact G1|]. split; [exact G2|]. split; [exact G3|].
  intros Hs. rewrite <- G1, (C41_roundtrip G2 Hs). now rewrite G3.
Qed.

(** ** C62 *)

(** The LSDB datasets of the management interface: what a client decodes is exactly the LSAs of the
    requested type, each once, in order. *)
Theorem C62_dataset time_str time_parse uri_parse t ls :
  (forall l, In l ls -> encodable time_str time_parse uri_parse l) -> fits (enc_dataset time_str t ls) ->
  dec_dataset time_parse uri_parse t (enc_dataset time_str t ls) = Some (map advertised (filter (fun l => eqb (l_type l) t) ls)).
Proof.
  unfold enc_dataset. intros H. set (fs := filter (fun l => eqb (l_type l) t) ls).
  assert (Hf : forall l, In l fs -> encodable time_str time_parse uri_parse l /\ l_type l = t).
  { intros l Hl. apply filter_In in Hl. destruct Hl as [A B]. split; [auto|]. now apply (proj1 (eqb_eq _ _)). }
  clearbody fs. clear H ls. intros Hs. unfold dec_dataset.
  set (g := fun l => (enc_hdr time_str (l_origin l) (l_seq l) (l_exp l) ++ enc_body (l_body l))%string).
  assert (E : map (enc_lsa time_str) fs = map (fun l => tlv (type_code t) (g l)) fs).
  { apply map_ext_in. intros l Hl. unfold enc_lsa. destruct (Hf l Hl) as [_ ->]. reflexivity. }
  rewrite E in *. rewrite dec_elts_map by (try apply code_ok; exact Hs). cbn [obind].
  clear E. revert Hf Hs. induction fs as [|l fs IH]; intros Hf Hs; [reflexivity|]. cbn [map cat fold_right] in *.
  destruct (Hf l) as [E1 E2]; [now left|]. apply small_app in Hs. destruct Hs as [S1 S2].
  assert (X : dec_lsa_elt time_parse uri_parse t (type_code t, g l) = Some (advertised l)).
  { rewrite <- E2. apply rt_elt; [exact E1|]. unfold enc_lsa. now rewrite E2. }
  rewrite X. cbn [obind]. rewrite IH; [reflexivity| |exact S2]. intros x Hx. apply Hf. now right.
Qed.

(** ** C43 *)

(** A routing table entry as link-state calculation leaves it: hops added one by one, none of them
    hyperbolic, with representable costs and URIs. *)
Definition plain_entry (uri_parse : string -> option uri) (r : rte) : Prop :=
  legal_name (fst r) /\ (exists hs, snd r = fold_left (fun l h => nhl_addc h l) hs []) /\
  forall h, In h (snd r) -> nh_hyp h = false /\ uri_parse (nh_uri h) = Some (nh_uri h) /\ is_double (nh_cost h).

Lemma sset_append lt x m : (forall y, In y m -> lt y x = true) -> (forall y, In y m -> lt x y = false) -> sset_insert lt x m = m ++ [x].
Proof.
  induction m as [|y m IH]; intros H1 H2; [reflexivity|]. cbn [sset_insert].
  rewrite (H2 y) by now left. rewrite (H1 y) by now left. cbn [app]. f_equal. apply IH; intros z Hz; [apply H1|apply H2]; now right.
Qed.

Lemma nh_ltb_asym a b : nh_ltb a b = true -> nh_ltb b a = false.
Proof.
  intros H. destruct (nh_ltb b a) eqn:E; [|reflexivity]. pose proof (nh_ltb_trans _ _ _ H E) as X.
  now rewrite nh_ltb_irrefl in X.
Qed.

Lemma readd l : nhl_valid nh_ltb l -> fold_left (fun l h => nhl_addc h l) l [] = l.
Proof.
  intros [Hs Hn].
  assert (G : forall m, (forall x y, In x m -> In y l -> nh_ltb x y = true) -> NoDup (map nh_uri (m ++ l)) ->
    fold_left (fun l h => nhl_addc h l) l m = m ++ l).
  { revert Hs. clear Hn. induction l as [|x l IH]; intros Hs m Hm Hn; [now rewrite app_nil_r|]. cbn [fold_left].
    inversion Hs as [|? ? Hs' Hall]; subst. rewrite Forall_forall in Hall.
    assert (E : nhl_addc x m = m ++ [x]).
    { unfold nhl_addc, nhl_add. destruct (find_uri (nh_uri x) m) as [h|] eqn:Ef.
      - apply find_uri_Some in Ef. destruct Ef as [F1 F2]. exfalso. rewrite map_app in Hn. cbn [map] in Hn.
        apply NoDup_remove_2 in Hn. apply Hn. apply in_app_iff. left. rewrite <- F2. now apply in_map.
      - apply sset_append; intros y Hy; [apply Hm; simpl; auto|apply nh_ltb_asym; apply Hm; simpl; auto]. }
    rewrite E, IH.
    - now rewrite <- app_assoc.
    - exact Hs'.
    - intros a b Ha Hb. apply in_app_iff in Ha. destruct Ha as [Ha|[<-|[]]]; [apply Hm; [exact Ha|now right]|now apply Hall].
    - now rewrite <- app_assoc. }
  apply (G []); [intros ? ? []|exact Hn].
Qed.

Lemma rt_nh uri_parse h : nh_hyp h = false -> uri_parse (nh_uri h) = Some (nh_uri h) -> is_double (nh_cost h) -> small (enc_nh h) ->
  dec_nh uri_parse (tlv T_Uri (nh_uri h) ++ tlv T_CostDouble (enc_dbl (nh_cost h))) = Some h.
Proof.
  intros Hh Hu Hd Hs. apply is_double_spec in Hd. apply small_tlv in Hs. apply small_app in Hs. destruct Hs as [S1 S2].
  unfold dec_nh. rewrite dec_elts_tlv by (try codes; exact (small_tlv S1)). rewrite dec_elts_end by (try codes; exact (small_tlv S2)).
  cbn [option_map obind]. rewrite expect_hit. cbn [obind]. rewrite Hu. cbn [obind]. rewrite expect_hit. cbn [obind].
  rewrite (dec_enc_dbl Hd). cbn [obind]. destruct h as [u k y]. cbn in *. now subst y.
Qed.

Lemma rt_rte uri_parse r : plain_entry uri_parse r -> small (enc_rte r) ->
  dec_rte uri_parse (enc_name (fst r) ++ cat (map enc_nh (snd r))) = Some r.
Proof.
  intros (H1 & (hs & Hhs) & H2) Hs. apply small_tlv in Hs. apply small_app in Hs. destruct Hs as [S1 S2].
  unfold dec_rte. unfold enc_name at 1. rewrite dec_elts_tlv by (try codes; exact (small_tlv S1)).
  unfold enc_nh. rewrite (@dec_elts_map _ T_NextHop (fun h => (tlv T_Uri (nh_uri h) ++ tlv T_CostDouble (enc_dbl (nh_cost h)))%string)) by (try codes; exact S2).
  cbn [option_map obind]. rewrite expect_hit. cbn [obind]. rewrite dec_enc_name by assumption. cbn [obind].
  rewrite (@dec_list_map _ _ _ _ _ (fun x => x)).
  - cbn [obind]. rewrite map_id, readd; [now destruct r|]. rewrite Hhs.
    apply (@nhl_adds_spec nh_ltb nh_ltb_trans nh_ltb_total hs [] (nhl_valid_nil nh_ltb)).
  - intros h Hh. destruct (H2 h Hh) as (A & B & C). apply rt_nh; try assumption. eapply small_cat; [|exact S2]. now apply in_map.
Qed.

Lemma existsb_in (x : name) l : existsb (eqb x) l = true <-> In x l.
Proof.
  rewrite existsb_exists. split.
  - intros (y & Hy & E). apply (proj1 (eqb_eq _ _)) in E. now subst y.
  - intros H. exists x. split; [exact H|apply eqb_refl].
Qed.

Lemma split_tables_spec rt dry : forall seen, NoDup (map fst rt) -> (forall x, In x (map fst rt) -> ~ In x seen) ->
  (forall x, In x (map fst dry) -> In x (map fst rt) \/ In x seen) -> split_tables seen (rt ++ dry) = (rt, dry).
Proof.
  induction rt as [|r rt IH]; intros seen Hn Hd Hs; cbn [app].
  - induction dry as [|d dry IHd]; [reflexivity|]. cbn [split_tables].
    rewrite (proj2 (existsb_in _ _)); [|destruct (Hs (fst d)) as [[]|X]; [now left|exact X]].
    rewrite IHd; [reflexivity|]. intros x Hx. apply Hs. now right.
  - cbn [split_tables]. destruct (existsb (eqb (fst r)) seen) eqn:E.
    + apply existsb_in in E. exfalso. apply (Hd (fst r)); [now left|exact E].
    + inversion Hn as [|? ? N1 N2]; subst. rewrite IH; [reflexivity|exact N2| |].
      * intros x Hx [<-|X]; [contradiction|]. apply (Hd x); [now right|exact X].
      * intros x Hx. destruct (Hs x Hx) as [[<-|X]|X]; [right; now left|now left|right; now right].
Qed.

(** The routing table dataset is decoded exactly, in both parts, if every destination of the dry-run
    table is also in the main table and no hop is hyperbolic.  Missing: the other cases, where the
    claim is false (below). *)
Theorem C43_roundtrip_partial uri_parse rt dry :
  (forall r, In r (rt ++ dry) -> plain_entry uri_parse r) -> NoDup (map fst rt) ->
  (forall x, In x (map fst dry) -> In x (map fst rt)) -> fits (enc_rt rt dry) ->
  dec_rt uri_parse (enc_rt rt dry) = Some (rt, dry).
Proof.
  intros H Hn Hd Hs. unfold dec_rt, enc_rt. rewrite dec_block_tlv by (try codes; exact (small_tlv Hs)).
  cbn [obind fst snd]. rewrite N.eqb_refl. unfold enc_rt in Hs. apply small_tlv in Hs.
  assert (E : (cat (map enc_rte rt) ++ cat (map enc_rte dry))%string = cat (map enc_rte (rt ++ dry))).
  { clear. induction rt as [|r rt IH]; [reflexivity|]. cbn [map cat app]. now rewrite append_assoc, IH. }
  rewrite E in *. unfold enc_rte.
  rewrite (@dec_elts_map _ T_RoutingTableEntry (fun r => (enc_name (fst r) ++ cat (map enc_nh (snd r)))%string)) by (try codes; exact Hs).
  cbn [obind]. rewrite (@dec_list_map _ _ _ _ _ (fun x => x)).
  - cbn [obind]. rewrite map_id, split_tables_spec; auto.
  - intros r Hr. apply rt_rte; [auto|]. eapply small_cat; [|exact Hs]. now apply in_map.
Qed.

(** A destination known only to the dry-run calculation is reported as a route of the main table. *)
Theorem C43_dry_run_refuted : exists r, plain_entry Some r /\ fits (enc_rt [] [r]) /\ dec_rt Some (enc_rt [] [r]) = Some ([r], []).
Proof.
  exists (farX, [mk_nh "udp4://10.0.0.2:6363"%string (of_int 10)]). split; [|split; [vm_compute; reflexivity|vm_compute; reflexivity]].
  split; [|split].
  - intros c Hc. repeat (destruct Hc as [<-|Hc]; [vm_compute; split; discriminate || reflexivity|]). destruct Hc.
  - exists [mk_nh "udp4://10.0.0.2:6363"%string (of_int 10)]. reflexivity.
  - intros h [<-|[]]. split; [reflexivity|]. split; [reflexivity|]. apply is_double_spec, double_int. reflexivity.
Qed.
(** Hyperbolic hops are reported in a different order: they are ordered by cost to three decimals, but
    decoded as ordinary hops, whose order ignores fractions. *)
Theorem C43_hyperbolic_refuted : exists r r', fits (enc_rt [r] []) /\
  (exists hs, snd r = fold_left (fun l h => nhl_addc h l) hs []) /\
  dec_rt Some (enc_rt [r] []) = Some ([r'], []) /\ map nh_uri (snd r') <> map nh_uri (snd r).
Proof.
  set (h1 := NH "b"%string (UNIT + 2 ^ 1072) true). set (h2 := NH "a"%string (UNIT + 2 ^ 1073) true).
  exists (farX, [h1; h2]), (farX, [mk_nh "a"%string (UNIT + 2 ^ 1073); mk_nh "b"%string (UNIT + 2 ^ 1072)]).
  split; [vm_compute; reflexivity|]. split; [exists [h1; h2]; vm_compute; reflexivity|]. split; [vm_compute; reflexivity|].
  discriminate.
Qed.

(** ** Concrete instances *)

Definition ts8 (t : Z) : string := be_enc 8 (Z.to_N t).
Definition tp8 (s : string) : option Z := if Nat.eqb (String.length s) 8 then Some (Z.of_N (be_dec s)) else None.
Lemma legal_nm l : legal_name (nm l).
Proof. intros c Hc. apply in_map_iff in Hc. destruct Hc as (x & <- & _). cbn. lia. Qed.

Definition alsaX : lsa := Lsa selfX 7 T0 (BAdj [adjX farX SActive 0; Adj (nm ["ndn"; "site"; "r3"]%string) "tcp4://10.0.0.3:6363"%string (UNIT / 4) SInactive 2 9]).
Example C41_example : encodable ts8 tp8 Some alsaX /\ fits (enc_lsa ts8 alsaX) /\
  encodable ts8 tp8 Some (nlsaX 5 [(pX, 0%Z); (p2X, of_int 7)]) /\
  dec_lsa tp8 Some TAdj (enc_lsa ts8 alsaX) <> None.
Proof.
  assert (D0 : is_double 0) by (exists 0%Z, 0%Z; repeat split; lia).
  assert (DI : forall k, (Z.abs k < 2 ^ 53)%Z -> is_double (of_int k)) by (intros k Hk; apply is_double_spec; now apply double_int).
  split; [|split; [vm_compute; reflexivity|split]].
  - split; [apply legal_nm|]. split; [reflexivity|]. split; [vm_compute; reflexivity|]. split.
    + repeat constructor; simpl; intuition discriminate.
    + intros x [<-|[<-|[]]]; (split; [apply legal_nm|]); (split; [reflexivity|]).
      * apply (DI 10%Z). reflexivity.
      * exists 1%Z, 1072%Z. split; [vm_compute; reflexivity|]. split; [reflexivity|lia].
  - split; [apply legal_nm|]. split; [reflexivity|]. split; [vm_compute; reflexivity|]. split.
    + repeat constructor; simpl; intuition discriminate.
    + intros x [<-|[<-|[]]]; (split; [apply legal_nm|]); [exact D0|apply (DI 7%Z); reflexivity].
  - vm_compute. discriminate.
Qed.
Example C42_example : (forall s x, tp8 s = Some x -> tp8 (ts8 x) = Some x) /\
  (exists p q, enc_lsa ts8 alsaX = (p ++ q)%string /\ q <> EmptyString /\ (0 < String.length p)%nat) /\
  dec_lsa tp8 Some TName (String (ascii_of_N 137) (String (ascii_of_N 0) EmptyString)) = None.
Proof.
  split; [|split; [|vm_compute; reflexivity]].
  - intros s x. unfold tp8, ts8. destruct (Nat.eqb _ _) eqn:E; [|discriminate]. intros [= <-]. rewrite be_enc_length, N2Z.id. cbn [Nat.eqb].
    do 2 f_equal. apply be_dec_enc. change (256 ^ N.of_nat 8) with (2 ^ 64).
    apply (@nni_dec_lt s). unfold nni_dec. apply Nat.eqb_eq in E. now rewrite E.
  - exists (substring 0 20 (enc_lsa ts8 alsaX)), (substring 20 300 (enc_lsa ts8 alsaX)). split; [vm_compute; reflexivity|].
    split; [vm_compute; discriminate|vm_compute; lia].
Qed.
Example C43_example : exists rt dry, rt <> [] /\ dry <> [] /\ (forall r, In r (rt ++ dry) -> plain_entry Some r) /\
  NoDup (map fst rt) /\ (forall x, In x (map fst dry) -> In x (map fst rt)) /\ fits (enc_rt rt dry).
Proof.
  set (h u k := mk_nh u (of_int k)).
  exists [(farX, [h "a"%string 1%Z; h "b"%string 5%Z]); (nm ["x"]%string, [h "b"%string 5%Z])], [(farX, [h "a"%string 2%Z])].
  assert (P : forall (n : list string) hs, (forall x, In x hs -> exists u k, x = h u k /\ (Z.abs k < 2 ^ 53)%Z) ->
    fold_left (fun l h => nhl_addc h l) hs [] = hs -> plain_entry Some (nm n, hs)).
  { intros n hs Hh E. split; [apply legal_nm|]. split; [exists hs; now rewrite E|].
    intros x Hx. destruct (Hh x Hx) as (u & k & -> & Hk). split; [reflexivity|]. split; [reflexivity|]. apply is_double_spec, double_int. exact Hk. }
  split; [discriminate|]. split; [discriminate|]. split; [|split; [|split]].
  - intros r [<-|[<-|[<-|[]]]]; (apply P; [|vm_compute; reflexivity]);
      intros x Hx; repeat (destruct Hx as [<-|Hx]; [do 2 eexists; split; [reflexivity|reflexivity]|]); destruct Hx.
  - repeat constructor; simpl; intuition discriminate.
  - intros x [<-|[]]. now left.
  - vm_compute. reflexivity.
Qed.
Example C62_example : dec_dataset tp8 Some TName (enc_dataset ts8 TName [alsaX; nlsaX 5 [(pX, 0%Z)]; nlsaX 6 []])
  = Some [nlsaX 5 [(pX, 0%Z)]; nlsaX 6 []].
Proof. vm_compute. reflexivity. Qed.

Print Assumptions C41_roundtrip.
Print Assumptions C41_type.
Print Assumptions C42_injective.
Print Assumptions C42_truncated.
Print Assumptions C42_trailing.
Print Assumptions C42_faithful.
Print Assumptions C43_roundtrip_partial.
Print Assumptions C43_dry_run_refuted.
Print Assumptions C43_hyperbolic_refuted.
Print Assumptions C62_dataset.

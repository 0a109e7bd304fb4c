(** Lemmas about the codec. *)
From Verif Require Import Base M_Nexthop M_Tlv M_Adj M_Lsa M_Codec L_Nexthop.
Set Implicit Arguments.
Open Scope N_scope.

(** ** Blocks *)

Definition small (s : string) : Prop := slen s < 2 ^ 64.

Lemma slen_app a b : slen (a ++ b)%string = slen a + slen b.
Proof. unfold slen. rewrite string_length_app. lia. Qed.

Lemma small_app a b : small (a ++ b)%string -> small a /\ small b.
Proof. unfold small. rewrite slen_app. lia. Qed.

Lemma small_tlv t v : small (tlv t v) -> small v.
Proof. unfold tlv. intros H. now apply small_app in H as [_ [_ H]%small_app]. Qed.
Arguments small_tlv {t v} _.

Lemma append_assoc (a b c : string) : ((a ++ b) ++ c = a ++ (b ++ c))%string.
Proof. symmetry. apply string_app_assoc. Qed.

Lemma read_tlv t v r : 1 <= t < 2 ^ 32 -> small v -> read_elt (tlv t v ++ r)%string = Some ((t, v), r).
Proof.
  intros Ht Hv. unfold tlv, read_elt. rewrite !append_assoc.
  rewrite var_dec_enc by (destruct Ht as [_ Ht]; eapply N.lt_trans; [exact Ht|reflexivity]).
  destruct (N.leb_spec 1 t); [|lia]. destruct (N.ltb_spec t (2 ^ 32)); [|lia]. cbn [andb].
  rewrite var_dec_enc by exact Hv.
  destruct (N.leb_spec (slen v) (slen (v ++ r))) as [_|L]; [|rewrite slen_app in L; lia].
  unfold slen at 1. rewrite Nat2N.id, split_app. reflexivity.
Qed.

Lemma var_dec_len s n r : var_dec s = Some (n, r) -> (String.length r < String.length s)%nat.
Proof.
  unfold var_dec. destruct s as [|c s]; [discriminate|]. cbn [String.length].
  destruct (N_of_ascii c <? 253).
  - intros [= <- <-]. lia.
  - destruct (split _ s) as [[a r']|] eqn:E; [|discriminate]. intros [= <- <-].
    apply split_spec in E. destruct E as [-> _]. rewrite string_length_app. lia.
Qed.

Lemma read_len s e r : read_elt s = Some (e, r) -> (String.length r + String.length (snd e) < String.length s)%nat.
Proof.
  unfold read_elt. destruct (var_dec s) as [[t s1]|] eqn:E1; [|discriminate]. destruct (_ && _); [|discriminate].
  destruct (var_dec s1) as [[n s2]|] eqn:E2; [|discriminate]. destruct (n <=? _); [|discriminate].
  destruct (split _ s2) as [[v r']|] eqn:E3; [|discriminate]. intros [= <- <-].
  apply var_dec_len in E1. apply var_dec_len in E2. apply split_spec in E3. destruct E3 as [-> _].
  rewrite string_length_app in E2. cbn [snd]. lia.
Qed.
Arguments read_len {s e r} _.

Lemma read_type s e r : read_elt s = Some (e, r) -> 1 <= fst e < 2 ^ 32.
Proof.
  unfold read_elt. destruct (var_dec s) as [[t s1]|] eqn:E1; [|discriminate].
  destruct (N.leb_spec 1 t); [|discriminate]. destruct (N.ltb_spec t (2 ^ 32)); [|discriminate]. cbn [andb].
  destruct (var_dec s1) as [[n s2]|] eqn:E2; [|discriminate]. destruct (n <=? _); [|discriminate].
  destruct (split _ s2) as [[v r']|] eqn:E3; [|discriminate]. intros [= <- <-]. cbn [fst]. lia.
Qed.
Arguments read_type {s e r} _.

(** Appending octets does not change what was read before them. *)
Lemma split_more k s a b q : split k s = Some (a, b) -> split k (s ++ q)%string = Some (a, (b ++ q)%string).
Proof.
  intros H. apply split_spec in H. destruct H as [-> <-]. rewrite append_assoc. apply split_app.
Qed.
Arguments split_more {k s a b} q _.
Lemma var_dec_more s n r q : var_dec s = Some (n, r) -> var_dec (s ++ q)%string = Some (n, (r ++ q)%string).
Proof.
  unfold var_dec. destruct s as [|c s]; [discriminate|]. cbn [append].
  destruct (N_of_ascii c <? 253).
  - now intros [= <- <-].
  - destruct (split _ s) as [[a r']|] eqn:E; [|discriminate]. intros [= <- <-]. now rewrite (split_more q E).
Qed.
Arguments var_dec_more {s n r} q _.
Lemma read_more s e r q : read_elt s = Some (e, r) -> read_elt (s ++ q)%string = Some (e, (r ++ q)%string).
Proof.
  unfold read_elt. destruct (var_dec s) as [[t s1]|] eqn:E1; [|discriminate]. rewrite (var_dec_more q E1).
  destruct (_ && _); [|discriminate].
  destruct (var_dec s1) as [[n s2]|] eqn:E2; [|discriminate]. rewrite (var_dec_more q E2).
  destruct (N.leb_spec n (slen s2)) as [L|L]; [|discriminate].
  destruct (N.leb_spec n (slen (s2 ++ q))) as [_|L']; [|rewrite slen_app in L'; lia].
  destruct (split _ s2) as [[v r']|] eqn:E3; [|discriminate]. rewrite (split_more q E3). now intros [= <- <-].
Qed.
Arguments read_more {s e r} q _.

Lemma dec_elts_fuel n : forall s k, (String.length s <= n)%nat -> (String.length s <= k)%nat -> dec_elts_f k s = dec_elts_f n s.
Proof.
  induction n as [|n IH]; intros s k Hn Hk.
  - destruct s; [now destruct k|cbn in Hn; lia].
  - destruct s as [|c s]; [now destruct k|]. destruct k as [|k]; [cbn in Hk; lia|]. cbn [dec_elts_f].
    destruct (read_elt (String c s)) as [[e r]|] eqn:E; [|reflexivity]. apply read_len in E.
    rewrite (IH r k); [reflexivity|lia|lia].
Qed.

Lemma dec_elts_nil : dec_elts EmptyString = Some []. Proof. reflexivity. Qed.
Lemma dec_elts_cons s e r : read_elt s = Some (e, r) -> dec_elts s = option_map (cons e) (dec_elts r).
Proof.
  intros E. unfold dec_elts at 1. pose proof (read_len E) as L.
  destruct s as [|c s]; [cbn in L; lia|]. cbn [dec_elts_f String.length]. rewrite E. f_equal.
  unfold dec_elts. apply dec_elts_fuel; cbn [String.length] in L; lia.
Qed.
Arguments dec_elts_cons {s e r} _.
Lemma dec_elts_tlv t v r : 1 <= t < 2 ^ 32 -> small v -> dec_elts (tlv t v ++ r)%string = option_map (cons (t, v)) (dec_elts r).
Proof. intros Ht Hv. apply dec_elts_cons. now apply read_tlv. Qed.

Lemma dec_elts_cat (l : list elt) r : (forall e, In e l -> 1 <= fst e < 2 ^ 32 /\ small (snd e)) ->
  dec_elts (cat (map (fun e => tlv (fst e) (snd e)) l) ++ r)%string = option_map (app l) (dec_elts r).
Proof.
  induction l as [|[t v] l IH]; intros H; cbn [map cat append].
  - destruct (dec_elts r); reflexivity.
  - destruct (H (t, v)) as [H1 H2]; [now left|]. cbn [fst snd] in *. rewrite append_assoc, dec_elts_tlv by assumption.
    rewrite IH by (intros e He; apply H; now right). destruct (dec_elts r); reflexivity.
Qed.

Lemma dec_elts_ind (P : string -> list elt -> Prop) :
  P EmptyString [] -> (forall s e r l, read_elt s = Some (e, r) -> dec_elts r = Some l -> P r l -> P s (e :: l)) ->
  forall s l, dec_elts s = Some l -> P s l.
Proof.
  intros P0 PS s. remember (String.length s) as n eqn:En. assert (L : (String.length s <= n)%nat) by lia. clear En.
  revert s L. induction n as [|n IH]; intros s L l H.
  - destruct s; [|cbn in L; lia]. rewrite dec_elts_nil in H. now injection H as <-.
  - destruct s as [|c s]; [rewrite dec_elts_nil in H; now injection H as <-|].
    destruct (read_elt (String c s)) as [[e r]|] eqn:E.
    + rewrite (dec_elts_cons E) in H. destruct (dec_elts r) as [l'|] eqn:E'; [|discriminate].
      injection H as <-. apply (PS _ _ _ _ E E'). apply IH; [|exact E']. apply read_len in E. cbn in *. lia.
    + exfalso. unfold dec_elts in H. cbn [dec_elts_f String.length] in H. now rewrite E in H.
Qed.

Lemma dec_elts_wf s l : dec_elts s = Some l ->
  (forall e, In e l -> 1 <= fst e < 2 ^ 32 /\ (String.length (snd e) < String.length s)%nat).
Proof.
  revert s l. apply (dec_elts_ind (fun s l => forall e, In e l -> 1 <= fst e < 2 ^ 32 /\ (String.length (snd e) < String.length s)%nat)).
  - intros e [].
  - intros s e r l E _ IH x [<-|Hx].
    + split; [exact (read_type E)|apply read_len in E; lia].
    + apply IH in Hx. destruct Hx as [A B]. split; [exact A|]. apply read_len in E. lia.
Qed.
Arguments dec_elts_wf {s l} _ e _.

Lemma dec_block_tlv t v : 1 <= t < 2 ^ 32 -> small v -> dec_block (tlv t v) = Some (t, v).
Proof.
  intros Ht Hv. unfold dec_block. rewrite <- (string_app_nil (tlv t v)), read_tlv by assumption. reflexivity.
Qed.

Lemma dec_block_whole s e q : dec_block s = Some e -> q <> EmptyString -> dec_block (s ++ q)%string = None.
Proof.
  unfold dec_block. destruct (read_elt s) as [[e' [|]]|] eqn:E; try discriminate. intros _ Hq.
  rewrite (read_more q E). cbn [append]. destruct q; [congruence|reflexivity].
Qed.

(** ** Names *)

Definition wf_name (n : name) : Prop := forall c, In c n -> 1 <= ctype c < 2 ^ 32.

Lemma comps_elts n : map (fun c => tlv (ctype c) (cval c)) n =
  map (fun e => tlv (fst e) (snd e)) (map (fun c => (ctype c, cval c)) n).
Proof. rewrite map_map. reflexivity. Qed.

Lemma small_cat l x : In x l -> small (cat l) -> small x.
Proof.
  induction l as [|a l IH]; [intros []|]. cbn [cat]. intros [<-|H] Hs; apply small_app in Hs; tauto.
Qed.

Lemma dec_enc_name n : wf_name n -> small (enc_name n) ->
  dec_name (cat (map (fun c => tlv (ctype c) (cval c)) n)) = Some n.
Proof.
  intros Hw Hs. apply small_tlv in Hs. unfold dec_name. 
  rewrite <- (string_app_nil (cat _)), comps_elts, dec_elts_cat.
  - rewrite dec_elts_nil. cbn [option_map]. rewrite app_nil_r, map_map. cbn [fst snd].
    rewrite (map_ext _ (fun c => c)) by (intros []; reflexivity). now rewrite map_id.
  - intros e He. apply in_map_iff in He. destruct He as (c & <- & Hc). cbn [fst snd].
    split; [now apply Hw|]. apply (@small_tlv (ctype c) (cval c)). eapply small_cat; [|exact Hs].
    apply in_map_iff. exists c. auto.
Qed.

Lemma dec_name_wf v n : dec_name v = Some n -> wf_name n.
Proof.
  unfold dec_name. destruct (dec_elts v) as [l|] eqn:E; [|discriminate]. intros [= <-] c Hc.
  apply in_map_iff in Hc. destruct Hc as (e & <- & He). cbn [ctype]. now apply (dec_elts_wf E).
Qed.

(** ** Doubles *)

(** The doubles: at most 53 significant bits and an exponent in range. *)
Definition double (z : Z) : Prop :=
  let a := Z.to_N (Z.abs z) in a < 2 ^ 52 \/ (a mod 2 ^ (N.log2 a - 52) = 0 /\ N.log2 a <= 2097).

Lemma pow_split a k : k <= a -> 2 ^ a = 2 ^ k * 2 ^ (a - k).
Proof. intros H. rewrite <- N.pow_add_r. f_equal. lia. Qed.

Definition emag (a : N) : N :=
  if a <? 2 ^ 52 then a else let k := N.log2 a - 52 in (k + 1) * 2 ^ 52 + (N.shiftr a k - 2 ^ 52).
Definition dmag (e m : N) : N := if e =? 0 then m else (m + 2 ^ 52) * 2 ^ (e - 1).

Lemma emag_spec a : (a < 2 ^ 52 \/ (a mod 2 ^ (N.log2 a - 52) = 0 /\ N.log2 a <= 2097)) ->
  emag a < 2047 * 2 ^ 52 /\ dmag (emag a / 2 ^ 52) (emag a mod 2 ^ 52) = a.
Proof.
  intros H. unfold emag. destruct (N.ltb_spec a (2 ^ 52)) as [L|L].
  - rewrite N.div_small, N.mod_small by assumption. split; [|reflexivity]. eapply N.lt_trans; [exact L|reflexivity].
  - destruct H as [H|[H1 H2]]; [lia|]. cbv zeta. rewrite N.shiftr_div_pow2. set (k := N.log2 a - 52) in *.
    assert (Ha : 0 < a) by (eapply N.lt_le_trans; [|exact L]; reflexivity).
    assert (L52 : 52 <= N.log2 a) by (change 52 with (N.log2 (2 ^ 52)); now apply N.log2_le_mono).
    destruct (N.log2_spec a Ha) as [S1 S2].
    assert (P : 2 ^ k <> 0) by (apply N.pow_nonzero; lia).
    assert (E1 : 2 ^ N.log2 a = 2 ^ k * 2 ^ 52) by (rewrite (@pow_split (N.log2 a) k) by lia; do 2 f_equal; lia).
    assert (E2 : 2 ^ N.succ (N.log2 a) = 2 ^ k * 2 ^ 53).
    { rewrite (@pow_split (N.succ (N.log2 a)) k) by lia. do 2 f_equal. lia. }
    assert (Q1 : 2 ^ 52 <= a / 2 ^ k) by (apply N.div_le_lower_bound; [exact P|]; now rewrite <- E1).
    assert (Q2 : a / 2 ^ k < 2 ^ 53) by (apply N.div_lt_upper_bound; [exact P|]; now rewrite <- E2).
    set (q := a / 2 ^ k) in *.
    assert (Em : ((k + 1) * 2 ^ 52 + (q - 2 ^ 52)) mod 2 ^ 52 = q - 2 ^ 52).
    { rewrite N.add_comm, N.mod_add by discriminate. apply N.mod_small. change (2 ^ 53) with (2 ^ 52 + 2 ^ 52) in Q2. lia. }
    assert (Ed : ((k + 1) * 2 ^ 52 + (q - 2 ^ 52)) / 2 ^ 52 = k + 1).
    { rewrite N.div_add_l by discriminate. rewrite N.div_small; [lia|]. change (2 ^ 53) with (2 ^ 52 + 2 ^ 52) in Q2. lia. }
    rewrite Em, Ed. split.
    + change (2 ^ 53) with (2 ^ 52 + 2 ^ 52) in Q2. assert (k + 1 <= 2046) by lia.
      assert ((k + 1) * 2 ^ 52 <= 2046 * 2 ^ 52) by (apply N.mul_le_mono_r; assumption).
      change (2047 * 2 ^ 52) with (2046 * 2 ^ 52 + 2 ^ 52). lia.
    + unfold dmag. destruct (N.eqb_spec (k + 1) 0); [lia|]. replace (q - 2 ^ 52 + 2 ^ 52) with q by lia.
      replace (k + 1 - 1) with k by lia. pose proof (N.div_mod a (2 ^ k) P) as D. rewrite H1 in D. fold q in D. rewrite N.mul_comm. lia.
Qed.

Lemma dec_enc64 z : double z -> dec64 (enc64 z) = Some z /\ enc64 z < 2 ^ 64.
Proof.
  intros H. unfold double in H. apply emag_spec in H. cbv zeta in H.
  assert (E : enc64 z = (if (z <? 0)%Z then 2 ^ 63 + emag (Z.to_N (Z.abs z)) else emag (Z.to_N (Z.abs z)))) by reflexivity.
  rewrite E. clear E. set (a := Z.to_N (Z.abs z)) in *. destruct H as [H1 H2]. set (m := emag a) in *. clearbody m.
  assert (Hm : m < 2 ^ 63) by (eapply N.lt_trans; [exact H1|reflexivity]).
  assert (Hd : m / 2 ^ 52 < 2047) by (apply N.div_lt_upper_bound; [discriminate|]; now rewrite N.mul_comm).
  assert (G : forall b, b = 0 \/ b = 1 -> dec64 (b * 2 ^ 63 + m) = Some (if b =? 0 then Z.of_N a else (- Z.of_N a)%Z)).
  { intros b Hb. unfold dec64.
    assert (E1 : ((b * 2 ^ 63 + m) / 2 ^ 52) mod 2 ^ 11 = m / 2 ^ 52).
    { change (2 ^ 63) with (2 ^ 11 * 2 ^ 52). rewrite N.mul_assoc, N.div_add_l by discriminate.
      rewrite N.add_comm, N.mod_add by discriminate. apply N.mod_small. eapply N.lt_trans; [exact Hd|reflexivity]. }
    assert (E2 : (b * 2 ^ 63 + m) mod 2 ^ 52 = m mod 2 ^ 52).
    { change (2 ^ 63) with (2 ^ 11 * 2 ^ 52). rewrite N.mul_assoc, N.add_comm. apply N.mod_add. discriminate. }
    assert (E3 : (b * 2 ^ 63 + m) / 2 ^ 63 = b).
    { rewrite N.div_add_l by discriminate. rewrite N.div_small by exact Hm. lia. }
    cbv zeta. rewrite E1, E2, E3. destruct (N.eqb_spec (m / 2 ^ 52) 2047); [lia|]. unfold dmag in H2. rewrite H2. reflexivity. }
  destruct (Z.ltb_spec z 0) as [L|L].
  - split; [|change (2 ^ 64) with (2 ^ 63 + 2 ^ 63); lia].
    specialize (G 1 (or_intror eq_refl)). change (1 * 2 ^ 63) with (2 ^ 63) in G. rewrite G. change (1 =? 0) with false. cbv iota.
    f_equal. unfold a. lia.
  - split; [|eapply N.lt_trans; [exact Hm|reflexivity]].
    specialize (G 0 (or_introl eq_refl)). change (0 * 2 ^ 63 + m) with m in G. rewrite G. change (0 =? 0) with true. cbv iota.
    f_equal. unfold a. lia.
Qed.
Arguments dec_enc64 {z} _.

Lemma dec_enc_dbl z : double z -> dec_dbl (enc_dbl z) = Some z.
Proof.
  intros H. destruct (dec_enc64 H) as [A B]. unfold dec_dbl, enc_dbl. rewrite be_enc_length. cbn [Nat.eqb].
  rewrite be_dec_enc; [exact A|]. exact B.
Qed.

Lemma double_dmag e m : e < 2047 -> m < 2 ^ 52 -> 
  let a := dmag e m in a < 2 ^ 52 \/ (a mod 2 ^ (N.log2 a - 52) = 0 /\ N.log2 a <= 2097).
Proof.
  intros He Hm a. unfold a, dmag. destruct (N.eqb_spec e 0) as [->|Hn]; [now left|right].
  assert (P : 2 ^ (e - 1) <> 0) by (apply N.pow_nonzero; lia).
  assert (L : N.log2 ((m + 2 ^ 52) * 2 ^ (e - 1)) = 52 + (e - 1)).
  { apply N.log2_unique; [lia|]. split.
    - rewrite N.pow_add_r. apply N.mul_le_mono_r. lia.
    - rewrite <- N.add_succ_l, N.pow_add_r. apply N.mul_lt_mono_pos_r; [lia|]. change (2 ^ N.succ 52) with (2 ^ 52 + 2 ^ 52). lia. }
  rewrite L. replace (52 + (e - 1) - 52) with (e - 1) by lia. split; [now apply N.mod_mul|lia].
Qed.

Lemma dec64_double w z : dec64 w = Some z -> double z.
Proof.
  unfold dec64. cbv zeta. set (e := (w / 2 ^ 52) mod 2 ^ 11). set (m := w mod 2 ^ 52).
  assert (Hm : m < 2 ^ 52) by (apply N.mod_lt; discriminate).
  assert (He : e < 2 ^ 11) by (apply N.mod_lt; discriminate).
  destruct (N.eqb_spec e 2047) as [|Hn]; [discriminate|]. fold (dmag e m).
  assert (He' : e < 2047) by (change (2 ^ 11) with 2048 in He; lia).
  pose proof (@double_dmag e m He' Hm) as D. cbv zeta in D. intros [= <-]. unfold double.
  assert (X : forall b : bool, Z.to_N (Z.abs (if b then Z.of_N (dmag e m) else (- Z.of_N (dmag e m))%Z)) = dmag e m).
  { intros []; rewrite ?Z.abs_opp, Z.abs_eq, N2Z.id by apply N2Z.is_nonneg; reflexivity. }
  rewrite X. exact D.
Qed.
Lemma dec_dbl_double v z : dec_dbl v = Some z -> double z.
Proof. unfold dec_dbl. destruct (Nat.eqb _ _); [|discriminate]. apply dec64_double. Qed.

(** Every integer of at most 53 bits is a double. *)
Lemma double_int c : (Z.abs c < 2 ^ 53)%Z -> double (of_int c).
Proof.
  intros H. unfold double, of_int, UNIT. cbv zeta.
  rewrite Z.abs_mul, (Z.abs_eq (2 ^ 1074)) by (apply Z.pow_nonneg; lia).
  rewrite Z2N.inj_mul by (try apply Z.abs_nonneg; apply Z.pow_nonneg; lia).
  change (Z.to_N (2 ^ 1074)) with (2 ^ 1074).
  assert (Ha : Z.to_N (Z.abs c) < 2 ^ 53) by (change (2 ^ 53) with (Z.to_N (2 ^ 53)); apply Z2N.inj_lt; lia).
  set (a := Z.to_N (Z.abs c)) in *. clearbody a. clear H c.
  destruct (N.eq_dec a 0) as [->|Hn]; [now left|right].
  assert (La : N.log2 a <= 52).
  { change 52 with (N.log2 (N.pred (2 ^ 53))). apply N.log2_le_mono. lia. }
  assert (L : N.log2 (a * 2 ^ 1074) = 1074 + N.log2 a) by (apply N.log2_mul_pow2; lia).
  rewrite L. split; [|lia]. set (k := 1074 + N.log2 a - 52). assert (Hk : k <= 1074) by (unfold k; lia).
  rewrite (@pow_split 1074 k Hk), N.mul_assoc, (N.mul_comm a), <- N.mul_assoc, N.mul_comm.
  apply N.mod_mul. apply N.pow_nonzero. lia.
Qed.

(** Octet-level encodings of ndn-cxx that NLSR relies on (external library, encoding/tlv.hpp and
    encoding/block-helpers.hpp): big-endian integers, NonNegativeInteger, VAR-NUMBER. *)
From Verif Require Import Base.
Open Scope N_scope.

(** Concatenation and length of octet strings come from [String]. *)

(** [k] octets, most significant first; higher-order octets of [n] are dropped (C++ static_cast to
    the narrower unsigned type). *)
Fixpoint be_enc (k : nat) (n : N) : string :=
  match k with
  | O => EmptyString
  | S k' => String (ascii_of_N ((n / 256 ^ N.of_nat k') mod 256)) (be_enc k' n)
  end.

Fixpoint be_dec_acc (acc : N) (s : string) : N :=
  match s with
  | EmptyString => acc
  | String c s' => be_dec_acc (256 * acc + N_of_ascii c) s'
  end.
Definition be_dec (s : string) : N := be_dec_acc 0 s.

(** ndn-cxx writeNonNegativeInteger / name::Component::fromNumber: shortest of 1, 2, 4, 8 octets *)
Definition nni_enc (n : N) : string :=
  if n <? 2 ^ 8 then be_enc 1 n
  else if n <? 2 ^ 16 then be_enc 2 n
  else if n <? 2 ^ 32 then be_enc 4 n
  else be_enc 8 n.

(** ndn-cxx readNonNegativeInteger / name::Component::toNumber: any of the four sizes is accepted,
    every other size throws ([None]). *)
Definition nni_dec (s : string) : option N :=
  match String.length s with
  | 1%nat | 2%nat | 4%nat | 8%nat => Some (be_dec s)
  | _ => None
  end.

(** ndn-cxx writeVarNumber *)
Definition var_enc (n : N) : string :=
  if n <? 253 then be_enc 1 n
  else if n <? 2 ^ 16 then String (ascii_of_N 253) (be_enc 2 n)
  else if n <? 2 ^ 32 then String (ascii_of_N 254) (be_enc 4 n)
  else String (ascii_of_N 255) (be_enc 8 n).

(** [split k s]: the first [k] octets of [s] and the rest, [None] when [s] is shorter. *)
Fixpoint split (k : nat) (s : string) : option (string * string) :=
  match k, s with
  | O, _ => Some (EmptyString, s)
  | S k', String c s' =>
      match split k' s' with Some (a, b) => Some (String c a, b) | None => None end
  | S _, EmptyString => None
  end.

(** ndn-cxx readVarNumber (non-minimal encodings are accepted) *)
Definition var_dec (s : string) : option (N * string) :=
  match s with
  | EmptyString => None
  | String c s' =>
      let b := N_of_ascii c in
      let k := if b <? 253 then O else if b =? 253 then 2%nat else if b =? 254 then 4%nat else 8%nat in
      if b <? 253 then Some (b, s')
      else match split k s' with Some (a, r) => Some (be_dec a, r) | None => None end
  end.

(** ** Facts *)

Lemma string_app_assoc (a b c : string) : (a ++ (b ++ c) = (a ++ b) ++ c)%string.
Proof. induction a; simpl; congruence. Qed.

Lemma string_app_nil (a : string) : (a ++ "" = a)%string.
Proof. induction a; simpl; congruence. Qed.

Lemma string_length_app (a b : string) :
  String.length (a ++ b)%string = (String.length a + String.length b)%nat.
Proof. induction a; simpl; congruence. Qed.

Lemma be_enc_length k n : String.length (be_enc k n) = k.
Proof. induction k; simpl; congruence. Qed.

Lemma N_of_ascii_lt c : N_of_ascii c < 256.
Proof. destruct c as [[] [] [] [] [] [] [] []]; reflexivity. Qed.

Lemma be_dec_acc_app a s t :
  be_dec_acc a (s ++ t)%string = be_dec_acc (be_dec_acc a s) t.
Proof. revert a. induction s; simpl; auto. Qed.

Lemma be_dec_enc_acc k : forall a n, n < 256 ^ N.of_nat k ->
  be_dec_acc a (be_enc k n) = a * 256 ^ N.of_nat k + n.
Proof.
  assert (G : forall k a n, be_dec_acc a (be_enc k n) = a * 256 ^ N.of_nat k + n mod 256 ^ N.of_nat k).
  { clear. induction k as [|k IH]; intros a n.
    - simpl. rewrite N.mod_1_r. lia.
    - cbn [be_enc be_dec_acc]. rewrite IH. rewrite Nnat.Nat2N.inj_succ, N.pow_succ_r'.
      rewrite N_ascii_embedding by (apply N.mod_lt; lia).
      set (p := 256 ^ N.of_nat k). assert (Hp : p <> 0) by (apply N.pow_nonzero; lia).
      rewrite (N.mul_comm 256 p), N.mod_mul_r by lia.
      lia. }
  intros a n Hn. rewrite G. now rewrite N.mod_small.
Qed.

Lemma be_dec_enc k n : n < 256 ^ N.of_nat k -> be_dec (be_enc k n) = n.
Proof. intros H. unfold be_dec. rewrite be_dec_enc_acc by exact H. lia. Qed.

Lemma nni_dec_enc n : n < 2 ^ 64 -> nni_dec (nni_enc n) = Some n.
Proof.
  intros H. unfold nni_enc, nni_dec.
  destruct (N.ltb_spec n (2 ^ 8)); [|destruct (N.ltb_spec n (2 ^ 16));
    [|destruct (N.ltb_spec n (2 ^ 32))]]; rewrite be_enc_length, be_dec_enc; trivial.
Qed.

Lemma nni_enc_inj n m : n < 2 ^ 64 -> m < 2 ^ 64 -> nni_enc n = nni_enc m -> n = m.
Proof. intros Hn Hm E. apply nni_dec_enc in Hn. apply nni_dec_enc in Hm. congruence. Qed.

Lemma split_app a b : split (String.length a) (a ++ b)%string = Some (a, b).
Proof. induction a; simpl; [reflexivity|]. now rewrite IHa. Qed.

Lemma split_enc k n b : split k (be_enc k n ++ b)%string = Some (be_enc k n, b).
Proof. rewrite <- (be_enc_length k n) at 1. apply split_app. Qed.

Lemma split_spec k s a b : split k s = Some (a, b) ->
  s = (a ++ b)%string /\ String.length a = k.
Proof.
  revert s a b. induction k as [|k IH]; simpl; intros s a b H.
  - injection H as <- <-. auto.
  - destruct s as [|c s]; [discriminate|]. destruct (split k s) as [[a' b']|] eqn:E; [|discriminate].
    injection H as <- <-. apply IH in E. destruct E as [-> <-]. auto.
Qed.

Lemma var_dec_enc n b : n < 2 ^ 64 -> var_dec (var_enc n ++ b)%string = Some (n, b).
Proof.
  intros H. unfold var_enc.
  destruct (N.ltb_spec n 253).
  - cbn [be_enc]. change (256 ^ N.of_nat 0) with 1. rewrite N.div_1_r.
    cbn [append var_dec]. rewrite N_ascii_embedding by (apply N.mod_lt; lia).
    rewrite N.mod_small by lia. destruct (N.ltb_spec n 253); [reflexivity|lia].
  - destruct (N.ltb_spec n (2 ^ 16)); [|destruct (N.ltb_spec n (2 ^ 32))];
      cbn [append]; unfold var_dec; rewrite N_ascii_embedding by lia;
      change (253 <? 253) with false; change (254 <? 253) with false; change (255 <? 253) with false;
      cbn [N.eqb Pos.eqb]; rewrite split_enc, be_dec_enc; trivial.
Qed.

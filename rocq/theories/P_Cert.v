(** C51, C52, C69: the certificate store. *)
From Verif Require Import Base M_Lsa M_Lsdb M_Router M_Cert.
Open Scope nat_scope.

(** ** What the statements are about *)

(** The certificates inserted so far, in order. *)
Definition stored (t : list cout) : list cert := flat_map (fun o => match o with CStored x => [x] | _ => [] end) t.
(** The last certificate of a list for a key. *)
Definition last_for (k : name) (l : list cert) : option cert := find (fun x => eqb (ct_key x) k) (rev l).

(** [chain cache k l]: following key locators through the cache from [k] visits [l], and ends at a
    certificate that names its own key or at a name that is not in the cache. *)
Inductive chain (cache : list cert) : name -> list cert -> Prop :=
| chain_out k : cache_find k cache = None -> chain cache k []
| chain_self k x : cache_find k cache = Some x -> ct_kl x = Some (ct_key x) -> chain cache k [x]
| chain_next k x k' l : cache_find k cache = Some x -> ct_kl x = Some k' -> ct_key x <> k' -> chain cache k' l ->
    chain cache k (x :: l).

(** ** Lemmas *)

Lemma stored_app a b : stored (a ++ b) = stored a ++ stored b.
Proof. apply flat_map_app. Qed.
Lemma stored_map l : stored (map CStored l) = l.
Proof. induction l as [|x l IH]; [reflexivity|]. cbn. now f_equal. Qed.
Lemma stored_filters l : stored (map CFilter l) = [].
Proof. induction l as [|x l IH]; [reflexivity|]. exact IH. Qed.

Lemma find_app A (f : A -> bool) a b : find f (a ++ b) = match find f a with Some x => Some x | None => find f b end.
Proof. induction a as [|x a IH]; cbn [app find]; [reflexivity|]. destruct (f x); [reflexivity|exact IH]. Qed.
Lemma last_for_app k a b : last_for k (a ++ b) = match last_for k b with Some x => Some x | None => last_for k a end.
Proof. unfold last_for. now rewrite rev_app_distr, find_app. Qed.

Definition inserts (l : list cert) (m : cstore) : cstore := fold_left (fun m x => cs_insert x m) l m.
Lemma get_inserts k l m : get k (inserts l m) = match last_for k l with Some x => Some x | None => get k m end.
Proof.
  revert m. induction l as [|x l IH] using rev_ind; intros m; [reflexivity|].
  unfold inserts. rewrite fold_left_app. cbn [fold_left]. rewrite last_for_app. unfold last_for at 1. cbn [rev app find].
  unfold cs_insert. destruct (eqb (ct_key x) k) eqn:E.
  - apply eqb_eq in E. rewrite <- E. apply get_set_eq.
  - rewrite get_set_ne; [apply IH|]. apply eqb_neq in E. intros X. now apply E.
Qed.

Lemma rounds_store f cache k s : c_store (fst (publish_rounds f cache k s)) = inserts (stored (snd (publish_rounds f cache k s))) (c_store s).
Proof.
  revert k s. induction f as [|f IH]; intros k s; cbn [publish_rounds]; destruct (cache_find k cache) as [x|]; try reflexivity;
    destruct (ct_kl x) as [k'|]; try reflexivity; destruct (eqb (ct_key x) k'); try reflexivity.
  specialize (IH k' (Cst (cs_insert x (c_store s)) (c_filters s ++ [ct_key x]) (c_off s))).
  destruct (publish_rounds f cache k' _) as [s2 o2]. cbn [fst snd c_store] in *. exact IH.
Qed.
Lemma step_store s e : c_store (fst (cstep s e)) = inserts (stored (snd (cstep s e))) (c_store s).
Proof.
  unfold cstep. destruct (c_off s); [reflexivity|]. destruct e as [[k|] cache|n|n].
  - destruct (cs_find k (c_store s)); [reflexivity|]. apply rounds_store.
  - reflexivity.
  - cbn [fst snd]. assert (X : forall l, stored (flat_map (fun p => if is_prefix p n then match cs_find n (c_store s) with Some x => [CReply x] | None => [] end else []) l) = []).
    { induction l as [|p l IH]; [reflexivity|]. cbn [flat_map]. rewrite stored_app, IH. destruct (is_prefix p n), (cs_find n (c_store s)); reflexivity. }
    now rewrite X.
  - destruct (existsb _ _); reflexivity.
Qed.
Lemma inserts_app a b m : inserts (a ++ b) m = inserts b (inserts a m).
Proof. apply fold_left_app. Qed.
Lemma run_store evs s : c_store (fst (run cstep s evs)) = inserts (stored (snd (run cstep s evs))) (c_store s).
Proof.
  revert s. induction evs as [|e evs IH]; intros s; [reflexivity|]. cbn [run]. pose proof (step_store s e) as S.
  destruct (cstep s e) as [s1 o1]. specialize (IH s1). destruct (run cstep s1 evs) as [s2 o2]. cbn [fst snd] in *.
  now rewrite stored_app, inserts_app, <- S.
Qed.
Lemma exec_store net site router own evs k :
  get k (c_store (fst (cexec net site router own evs))) = last_for k (stored (snd (cexec net site router own evs))).
Proof.
  unfold cexec. cbn [cinit]. match goal with |- context [run cstep ?s evs] => pose proof (run_store evs s) as R; destruct (run cstep s evs) as [s' o'] end.
  cbn [fst snd c_store] in *. rewrite R. change (fold_left (fun m x => cs_insert x m) own []) with (inserts own []).
  rewrite !stored_app, stored_map, stored_filters, app_nil_r, last_for_app, !get_inserts.
  destruct (last_for k (stored o')); [reflexivity|]. now destruct (last_for k own).
Qed.

(** ** C51 *)

(** A lookup by a name that does not look like a certificate name returns the last certificate inserted
    for that key. *)
Theorem C51_key_partial net site router own evs n : cert_named n = false ->
  cs_find n (c_store (fst (cexec net site router own evs))) = last_for n (stored (snd (cexec net site router own evs))).
Proof. intros H. unfold cs_find. rewrite H. apply exec_store. Qed.

(** A lookup by certificate name returns the last certificate inserted for the key, and only if it has
    exactly that name. *)
Theorem C51_cert net site router own evs n x : cert_named n = true ->
  cs_find n (c_store (fst (cexec net site router own evs))) = Some x <->
  last_for (key_name n) (stored (snd (cexec net site router own evs))) = Some x /\ ct_name x = n.
Proof.
  intros H. unfold cs_find. rewrite H, exec_store. destruct (last_for _ _) as [y|]; [|split; [discriminate|intros [X _]; discriminate]].
  destruct (eqb (ct_name y) n) eqn:E.
  - apply eqb_eq in E. split; [intros X; injection X as <-; auto|intros [X _]; exact X].
  - apply eqb_neq in E. split; [discriminate|]. intros [X Y]. injection X as <-. contradiction.
Qed.

(** A key name with the component KEY at the wrong place is taken for a certificate name: its certificate
    is not found. *)
Definition odd_key : name := nm ["a"; "KEY"; "x"; "KEY"; "y"]%string.
Definition odd_cert : cert := Cert (odd_key ++ nm ["issuer"; "v"]%string) (Some odd_key) "".
Theorem C51_key_refuted : cert_named (ct_name odd_cert) = true /\ ct_key odd_cert = odd_key /\
  cs_find odd_key (c_store (fst (cexec [] [] [] [odd_cert] []))) = None.
Proof. vm_compute. auto. Qed.

Lemma cache_find_in k cache x : cache_find k cache = Some x -> In x cache /\ is_prefix k (ct_name x) = true.
Proof. apply find_some. Qed.
Lemma rounds_from f cache k s x : In x (stored (snd (publish_rounds f cache k s))) -> In x cache.
Proof.
  revert k s. induction f as [|f IH]; intros k s; cbn [publish_rounds]; destruct (cache_find k cache) as [y|] eqn:E; try easy;
    apply cache_find_in in E as [E _]; destruct (ct_kl y) as [k'|]; cbn [fst snd stored flat_map app];
    try (intros [<-|[]]; exact E); destruct (eqb (ct_key y) k'); cbn [fst snd stored flat_map app]; try (intros [<-|[]]; exact E).
  specialize (IH k' (Cst (cs_insert y (c_store s)) (c_filters s ++ [ct_key y]) (c_off s))).
  destruct (publish_rounds f cache k' _) as [s2 o2]. cbn [fst snd app] in *. cbn [stored flat_map app]. intros [<-|H]; [exact E|]. now apply IH.
Qed.
Lemma run_from evs s x : In x (stored (snd (run cstep s evs))) -> exists kl cache, In (CvSegment kl cache) evs /\ In x cache.
Proof.
  revert s. induction evs as [|e evs IH]; intros s; [easy|]. cbn [run].
  destruct (cstep s e) as [s1 o1] eqn:E. destruct (run cstep s1 evs) as [s2 o2] eqn:R. cbn [fst snd]. rewrite stored_app, in_app_iff.
  intros [H|H].
  - unfold cstep in E. destruct (c_off s); [injection E as <- <-; easy|]. destruct e as [[k|] cache|n|n].
    + destruct (cs_find k (c_store s)); [injection E as <- <-; easy|]. exists (Some k), cache. split; [now left|].
      unfold publish_cert in E. apply (rounds_from (length cache) cache k s). now rewrite E.
    + injection E as <- <-. easy.
    + injection E as <- <-. exfalso. revert H. generalize (c_filters s). induction l as [|p l IHl]; [easy|]. cbn [flat_map].
      rewrite stored_app, in_app_iff. intros [H|H]; [|auto]. destruct (is_prefix p n), (cs_find n (c_store s)); destruct H.
    + destruct (existsb _ _); injection E as <- <-; easy.
  - specialize (IH s1). rewrite R in IH. destruct (IH H) as (kl & cache & H1 & H2). exists kl, cache. split; [now right|exact H2].
Qed.

(** What is sent in answer to an Interest has the name asked for, or is for the key asked for; it is one of
    the configured certificates or was in the validator's cache when a segment was validated. *)
Theorem C51_served net site router own evs n x :
  In (CReply x) (snd (cstep (fst (cexec net site router own evs)) (CvInterest n))) ->
  (ct_name x = n \/ ct_key x = n) /\
  (In x own \/ exists kl cache, In (CvSegment kl cache) evs /\ In x cache).
Proof.
  intros H. assert (F : cs_find n (c_store (fst (cexec net site router own evs))) = Some x).
  { unfold cstep in H. destruct (c_off _); [destruct H|]. cbn [snd] in H. revert H. generalize (c_filters (fst (cexec net site router own evs))).
    induction l as [|p l IH]; [easy|]. cbn [flat_map]. rewrite in_app_iff. intros [H|H]; [|auto].
    destruct (is_prefix p n); [|destruct H]. destruct (cs_find n _) as [y|]; [|destruct H]. destruct H as [H|[]]. now injection H as <-. }
  assert (L : forall k, last_for k (stored (snd (cexec net site router own evs))) = Some x ->
    ct_key x = k /\ (In x own \/ exists kl cache, In (CvSegment kl cache) evs /\ In x cache)).
  { intros k Hl. unfold last_for in Hl. apply find_some in Hl as [Hi Hk]. apply eqb_eq in Hk. split; [exact Hk|].
    apply in_rev in Hi. unfold cexec in Hi. cbn [cinit] in Hi.
    match type of Hi with context [run cstep ?s evs] => pose proof (run_from evs s x) as R; destruct (run cstep s evs) as [s' o'] end.
    cbn [fst snd] in *. rewrite !stored_app, stored_map, stored_filters, app_nil_r in Hi. apply in_app_iff in Hi as [Hi|Hi]; auto. }
  destruct (cert_named n) eqn:N.
  - apply C51_cert in F; [|exact N]. destruct F as [F1 F2]. apply L in F1. destruct F1 as [_ F1]. auto.
  - rewrite (C51_key_partial net site router own evs n N) in F. apply L in F. destruct F. auto.
Qed.

(** ** C52 *)

Section Chain.
Variable cache : list cert.

Fixpoint hangs (f : nat) (x : cert) : Prop :=
  match ct_kl x with
  | None => False
  | Some k => ct_key x <> k /\
      match f with O => True | S f' => match cache_find k cache with None => False | Some y => hangs f' y end end
  end.
Inductive fin : nat -> cert -> Prop :=
| fin_throw x : ct_kl x = None -> fin 0 x
| fin_self x : ct_kl x = Some (ct_key x) -> fin 0 x
| fin_out x k : ct_kl x = Some k -> cache_find k cache = None -> fin 0 x
| fin_next x k y n : ct_kl x = Some k -> ct_key x <> k -> cache_find k cache = Some y -> fin n y -> fin (S n) x.

Lemma not_hangs f x : ~ hangs f x -> exists n, fin n x.
Proof.
  revert x. induction f as [|f IH]; intros x H; cbn [hangs] in H; destruct (ct_kl x) as [k|] eqn:K; try (exists 0; now apply fin_throw);
    destruct (eq_dec (ct_key x) k) as [E|E]; try (exists 0; apply fin_self; now rewrite E).
  - exfalso. auto.
  - destruct (cache_find k cache) as [y|] eqn:F; [|exists 0; now apply (fin_out x k)].
    destruct (IH y) as [n Hn]; [tauto|]. exists (S n). now apply (fin_next x k y n).
Qed.
Lemma fin_det n m x : fin n x -> fin m x -> n = m.
Proof.
  intros H. revert m. induction H as [x K|x K|x k K F|x k y n K N F H IH]; intros m H'; inversion H'; subst; try congruence; try reflexivity.
  f_equal. apply IH. assert (k0 = k) by congruence. subst. assert (y0 = y) by congruence. now subst.
Qed.
Lemma fin_list n x : In x cache -> fin n x -> exists l, length l = S n /\ NoDup l /\ incl l cache /\ forall z, In z l -> exists m, m <= n /\ fin m z.
Proof.
  intros Hin H. revert Hin. induction H as [x K|x K|x k K F|x k y n K N F H IH]; intros Hin.
  1-3: exists [x]; split; [reflexivity|]; split; [constructor; [easy|constructor]|]; split; [intros z [<-|[]]; exact Hin|];
    intros z [<-|[]]; exists 0; split; [lia|econstructor; eassumption].
  destruct IH as (l & L1 & L2 & L3 & L4). { now apply cache_find_in in F. }
  exists (x :: l). split; [cbn; lia|]. split; [|split].
  - constructor; [|exact L2]. intros X. destruct (L4 x X) as (m & Lm & Hm).
    assert (S n = m) by (apply (fin_det _ _ x); [now apply (fin_next x k y n)|exact Hm]). lia.
  - intros z [<-|Hz]; auto.
  - intros z [<-|Hz]; [exists (S n); split; [lia|now apply (fin_next x k y n)]|]. destruct (L4 z Hz) as (m & Lm & Hm). exists m. split; [lia|exact Hm].
Qed.
Lemma fin_len n x : In x cache -> fin n x -> n < length cache.
Proof. intros H F. destruct (fin_list n x H F) as (l & L1 & L2 & L3 & _). pose proof (NoDup_incl_length L2 L3). lia. Qed.
Lemma fin_not_hangs n x f : fin n x -> n < f -> ~ hangs f x.
Proof.
  intros H. revert f. induction H as [x K|x K|x k K F|x k y n K N F H IH]; intros [|f] L; try lia; cbn [hangs]; rewrite K.
  - auto.
  - intros [X _]. now apply X.
  - intros [_ X]. now rewrite F in X.
  - intros [_ X]. rewrite F in X. apply (IH f); [lia|exact X].
Qed.
Lemma hangs_forever x : In x cache -> hangs (length cache) x -> forall f, hangs f x.
Proof.
  intros Hin H f.
  assert (D : hangs f x \/ ~ hangs f x).
  { clear. revert x. induction f as [|f IH]; intros x; cbn [hangs]; destruct (ct_kl x) as [k|]; try tauto;
      destruct (eq_dec (ct_key x) k); try tauto. destruct (cache_find k cache) as [y|]; [|tauto]. destruct (IH y); tauto. }
  destruct D as [D|D]; [exact D|]. apply not_hangs in D as [n D]. exfalso.
  apply (fin_not_hangs n x (length cache) D); [|exact H]. now apply fin_len in D.
Qed.

Lemma rounds_hang f k s : In CHang (snd (publish_rounds f cache k s)) <-> exists x, cache_find k cache = Some x /\ hangs f x.
Proof.
  revert k s. induction f as [|f IH]; intros k s; cbn [publish_rounds hangs]; destruct (cache_find k cache) as [x|];
    try (split; [easy|intros (y & Y & _); discriminate]).
  all: destruct (ct_kl x) as [k'|] eqn:K; [|split; [intros [X|[X|[X|[]]]]; discriminate|intros (y & Y & Z); injection Y as <-; now rewrite K in Z]].
  all: destruct (eqb (ct_key x) k') eqn:E; [apply eqb_eq in E|apply eqb_neq in E];
    try (split; [intros [X|[X|[]]]; discriminate|intros (y & Y & Z); injection Y as <-; rewrite K in Z; tauto]).
  - cbn. split; [|tauto]. intros _. exists x. rewrite K. auto.
  - specialize (IH k' (Cst (cs_insert x (c_store s)) (c_filters s ++ [ct_key x]) (c_off s))).
    cbn [c_store c_filters c_off]. destruct (publish_rounds f cache k' _) as [s2 o2]. cbn [fst snd] in *.
    transitivity (In CHang o2); [split; [intros [X|[X|X]]; [discriminate|discriminate|exact X]|intros X; right; right; exact X]|].
    rewrite IH. split.
    + intros (y & Y & Z). exists x. rewrite K, Y. auto.
    + intros (y & Y & Z). injection Y as <-. rewrite K in Z. destruct Z as [_ Z]. destruct (cache_find k' cache) as [y|]; [eauto|destruct Z].
Qed.

Lemma chain_fin k l : chain cache k l -> match l with [] => True | x :: l' => cache_find k cache = Some x /\ fin (length l') x end.
Proof.
  induction 1 as [k H|k x H K|k x k' l H K N C IH]; [exact I|split; [exact H|now apply fin_self]|].
  split; [exact H|]. destruct l as [|y l].
  - inversion C; subst. now apply (fin_out x k').
  - cbn [length]. destruct IH as [IH1 IH2]. now apply (fin_next x k' y).
Qed.

Lemma chain_rounds f k l s : chain cache k l -> length l <= f ->
  publish_rounds f cache k s = (Cst (inserts l (c_store s)) (c_filters s ++ map ct_key l) (c_off s),
                                flat_map (fun x => [CStored x; CFilter (ct_key x)]) l).
Proof.
  intros C. revert f s. induction C as [k H|k x H K|k x k' l H K N C IH]; intros f s L.
  - destruct f; cbn [publish_rounds]; rewrite H; cbn [map]; rewrite app_nil_r; now destruct s.
  - destruct f; cbn [publish_rounds]; rewrite H, K, eqb_refl; reflexivity.
  - destruct f as [|f]; cbn [length] in L; [lia|]. cbn [publish_rounds]. rewrite H, K.
    pose proof (proj2 (eqb_neq _ _) N) as E. rewrite E. rewrite IH by lia. cbn [c_store c_filters c_off map flat_map app].
    now rewrite <- app_assoc.
Qed.
Lemma chain_len k l : chain cache k l -> length l <= length cache.
Proof.
  intros C. apply chain_fin in C. destruct l as [|x l]; [cbn; lia|]. destruct C as [F C].
  apply cache_find_in in F as [F _]. pose proof (fin_len _ _ F C). cbn. lia.
Qed.
End Chain.

(** If following the key locators ends, the publication terminates; every certificate of the chain is then
    the one stored for its key (of several for one key, the last), nothing else is changed, and Interests
    for the certificates are received. *)
Theorem C52_partial cache k l s : chain cache k l ->
  let s' := fst (publish_cert cache k s) in
  c_off s' = c_off s /\
  (forall key, get key (c_store s') = match last_for key l with Some x => Some x | None => get key (c_store s) end) /\
  c_filters s' = c_filters s ++ map ct_key l /\
  snd (publish_cert cache k s) = flat_map (fun x => [CStored x; CFilter (ct_key x)]) l.
Proof.
  intros C s'. unfold s', publish_cert. rewrite (chain_rounds cache (length cache) k l s C (chain_len cache k l C)).
  cbn [fst snd c_off c_store c_filters]. split; [reflexivity|]. split; [intros key; apply get_inserts|]. auto.
Qed.

(** It hangs only if no number of rounds ends it. *)
Theorem C52_hangs cache k s : In CHang (snd (publish_cert cache k s)) <->
  forall f, In CHang (snd (publish_rounds f cache k s)).
Proof.
  split; [|intros H; apply H]. unfold publish_cert. intros H f. apply rounds_hang in H as (x & X & H).
  apply rounds_hang. exists x. split; [exact X|]. apply hangs_forever; [now apply cache_find_in in X|exact H].
Qed.

(** It can be told exactly when: it ends normally, it meets a certificate without a key locator name and
    throws, or it hangs. *)
Theorem C52_outcomes cache k s :
  (exists l, chain cache k l) \/ In CThrow (snd (publish_cert cache k s)) \/ In CHang (snd (publish_cert cache k s)).
Proof.
  unfold publish_cert. generalize (length cache) as f. intros f. revert k s. induction f as [|f IH]; intros k s; cbn [publish_rounds];
    (destruct (cache_find k cache) as [x|] eqn:F; [|left; exists []; now apply chain_out]);
    (destruct (ct_kl x) as [k'|] eqn:K; [|right; left; cbn; auto]);
    (destruct (eqb (ct_key x) k') eqn:E; [apply eqb_eq in E; subst k'; left; exists [x]; now apply chain_self|apply eqb_neq in E]).
  - right. right. cbn. auto.
  - specialize (IH k' (Cst (cs_insert x (c_store s)) (c_filters s ++ [ct_key x]) (c_off s))).
    cbn [c_store c_filters c_off]. destruct (publish_rounds f cache k' _) as [s2 o2]. cbn [fst snd] in *.
    destruct IH as [[l C]|[H|H]]; [left; exists (x :: l); now apply (chain_next cache k x k')|right; left; right; right; exact H|right; right; right; right; exact H].
Qed.

(** Two certificates that name each other's keys: the publication never ends.  The same holds for a
    self-signed certificate whose key locator is its certificate name. *)
Definition ka : name := nm ["a"; "KEY"; "1"]%string.
Definition kb : name := nm ["b"; "KEY"; "1"]%string.
Definition ca : cert := Cert (ka ++ nm ["i"; "v"]%string) (Some kb) "".
Definition cb : cert := Cert (kb ++ nm ["i"; "v"]%string) (Some ka) "".
Definition cself : cert := Cert (ka ++ nm ["self"; "v"]%string) (Some (ka ++ nm ["self"; "v"]%string)) "".
Theorem C52_refuted :
  (forall s f, In CHang (snd (publish_rounds f [ca; cb] ka s))) /\
  (forall s f, In CHang (snd (publish_rounds f [cself] ka s))).
Proof.
  split; intros s; apply C52_hangs; unfold publish_cert; cbn; tauto.
Qed.

(** ** C69 *)

(** [validated cache k l]: [l] are certificates of the cache that validate each other: the first is named
    by [k], each names the next, and the last names its own key or one that is not in the cache (a trust
    anchor).  The validator has checked such a chain before a segment is reported as validated. *)
Inductive validated (cache : list cert) : name -> list cert -> Prop :=
| val_anchor k : (forall x, In x cache -> is_prefix k (ct_name x) = false) -> validated cache k []
| val_self k x : In x cache -> is_prefix k (ct_name x) = true -> ct_kl x = Some (ct_key x) -> validated cache k [x]
| val_next k x k' l : In x cache -> is_prefix k (ct_name x) = true -> ct_kl x = Some k' -> ct_key x <> k' ->
    validated cache k' l -> validated cache k (x :: l).

(** If no key locator of the chain fits two certificates of the cache, exactly the validated certificates
    are published. *)
Theorem C69_partial cache k l s : validated cache k l ->
  (forall k' x y, In x cache -> In y cache -> is_prefix k' (ct_name x) = true -> is_prefix k' (ct_name y) = true ->
     (k' = k \/ exists z, In z l /\ ct_kl z = Some k') -> x = y) ->
  c_off (fst (publish_cert cache k s)) = c_off s /\ stored (snd (publish_cert cache k s)) = l.
Proof.
  intros V U. assert (C : chain cache k l).
  { revert U. induction V as [k A|k x H P K|k x k' l H P K N V IH]; intros U.
    - apply chain_out. destruct (cache_find k cache) as [x|] eqn:F; [|reflexivity]. apply cache_find_in in F as [F1 F2].
      rewrite (A x F1) in F2. discriminate.
    - apply chain_self; [|exact K]. destruct (cache_find k cache) as [y|] eqn:F.
      + apply cache_find_in in F as [F1 F2]. f_equal. apply (U k y x); auto.
      + unfold cache_find in F. pose proof (find_none _ _ F x H) as X. cbn in X. congruence.
    - apply (chain_next cache k x k'); [|exact K|exact N|].
      + destruct (cache_find k cache) as [y|] eqn:F.
        * apply cache_find_in in F as [F1 F2]. f_equal. apply (U k y x); auto.
        * unfold cache_find in F. pose proof (find_none _ _ F x H) as X. cbn in X. congruence.
      + apply IH. intros k2 y z Hy Hz P1 P2 O. apply (U k2 y z); auto. right. destruct O as [->|(w & W1 & W2)].
        * exists x. split; [now left|exact K].
        * exists w. split; [now right|exact W2]. }
  destruct (C52_partial cache k l s C) as (H1 & _ & _ & H2). split; [exact H1|]. rewrite H2. clear.
  induction l as [|x l IH]; [reflexivity|]. cbn. now f_equal.
Qed.

(** A certificate for the same key that sorts first is published instead of the validated one. *)
Definition real_cert : cert := Cert (ka ++ nm ["root"; "v"]%string) (Some kb) "real".
Definition fake_cert : cert := Cert (ka ++ nm ["evil"; "v"]%string) (Some (nm ["e"; "KEY"; "1"]%string)) "fake".
Theorem C69_refuted : exists cache, validated cache ka [real_cert] /\
  forall s, stored (snd (publish_cert cache ka s)) = [fake_cert].
Proof.
  exists [fake_cert; real_cert]. split.
  - apply (val_next _ _ _ kb); [cbn; auto|vm_compute; reflexivity|reflexivity|vm_compute; discriminate|].
    apply val_anchor. intros x [<-|[<-|[]]]; vm_compute; reflexivity.
  - intros s. vm_compute. reflexivity.
Qed.

(** ** Concrete cases *)

Definition net1 : name := nm ["net"]%string.
Definition site1 : name := nm ["s"]%string.
Definition router1 : name := nm ["%C1.Router"; "r"]%string.
Definition kr : name := net1 ++ site1 ++ router1 ++ nm ["KEY"; "1"]%string.
Definition ko : name := net1 ++ site1 ++ nm ["op"; "KEY"; "1"]%string.
Definition own_cert : cert := Cert (kr ++ nm ["op"; "v1"]%string) (Some ko) "own".
Definition op_cert : cert := Cert (ko ++ nm ["site"; "v1"]%string) (Some (net1 ++ site1 ++ nm ["KEY"; "9"]%string)) "op".
Definition k2 : name := nm ["net"; "s2"; "%C1.Router"; "q"; "KEY"; "1"]%string.
Definition q_cert : cert := Cert (k2 ++ nm ["op"; "v1"]%string) (Some ko) "q".
Definition hist : list cev := [CvInterest (ct_name op_cert); CvSegment (Some k2) [q_cert; op_cert]; CvInterest ko].

Example C51_ex :
  snd (run cstep (fst (cinit net1 site1 router1 [own_cert])) hist) =
    [CStored q_cert; CFilter k2; CStored op_cert; CFilter ko; CReply op_cert] /\
  cs_find kr (c_store (fst (cexec net1 site1 router1 [own_cert] hist))) = Some own_cert /\
  cs_find (ct_name q_cert) (c_store (fst (cexec net1 site1 router1 [own_cert] hist))) = Some q_cert /\
  cs_find (k2 ++ nm ["op"; "v2"]%string) (c_store (fst (cexec net1 site1 router1 [own_cert] hist))) = None /\
  cert_named kr = false /\ cert_named (ct_name q_cert) = true.
Proof. vm_compute. auto 10. Qed.
Example C52_ex : chain [q_cert; op_cert] k2 [q_cert; op_cert].
Proof.
  apply (chain_next _ _ _ ko); [reflexivity|reflexivity|vm_compute; discriminate|].
  apply (chain_next _ _ _ (net1 ++ site1 ++ nm ["KEY"; "9"]%string)); [reflexivity|reflexivity|vm_compute; discriminate|].
  apply chain_out. reflexivity.
Qed.
Example C69_ex : validated [q_cert; op_cert] k2 [q_cert; op_cert] /\
  stored (snd (publish_cert [q_cert; op_cert] k2 (fst (cinit net1 site1 router1 [own_cert])))) = [q_cert; op_cert].
Proof.
  split; [|vm_compute; reflexivity].
  apply (val_next _ _ _ ko); [cbn; auto|reflexivity|reflexivity|vm_compute; discriminate|].
  apply (val_next _ _ _ (net1 ++ site1 ++ nm ["KEY"; "9"]%string)); [cbn; auto|reflexivity|reflexivity|vm_compute; discriminate|].
  apply val_anchor. intros x [<-|[<-|[]]]; vm_compute; reflexivity.
Qed.

Print Assumptions C51_key_partial.
Print Assumptions C51_cert.
Print Assumptions C51_key_refuted.
Print Assumptions C51_served.
Print Assumptions C52_partial.
Print Assumptions C52_hangs.
Print Assumptions C52_outcomes.
Print Assumptions C52_refuted.
Print Assumptions C69_partial.
Print Assumptions C69_refuted.

(** C77: published certificates are served. *)
From Verif Require Import Base M_Lsa M_Lsdb M_Router M_Cert P_Cert.
Open Scope nat_scope.

(** The prefixes under which the forwarder passes certificate Interests to the router. *)
Definition listening (t : list cout) : list name := flat_map (fun o => match o with CFilter n => [n] | _ => [] end) t.

Lemma listening_app a b : listening (a ++ b) = listening a ++ listening b.
Proof. apply flat_map_app. Qed.

Lemma rounds_filters f cache k s : c_filters (fst (publish_rounds f cache k s)) = c_filters s ++ listening (snd (publish_rounds f cache k s)).
Proof.
  revert k s. induction f as [|f IH]; intros k s; cbn [publish_rounds]; destruct (cache_find k cache) as [x|];
    try (cbn; now rewrite app_nil_r); destruct (ct_kl x) as [k'|]; try reflexivity; destruct (eqb (ct_key x) k'); try reflexivity.
  specialize (IH k' (Cst (cs_insert x (c_store s)) (c_filters s ++ [ct_key x]) (c_off s))).
  destruct (publish_rounds f cache k' _) as [s2 o2]. cbn [fst snd c_filters] in *. rewrite IH, listening_app, <- app_assoc. reflexivity.
Qed.
Lemma step_filters s e : c_filters (fst (cstep s e)) = c_filters s ++ listening (snd (cstep s e)).
Proof.
  unfold cstep. destruct (c_off s); [cbn; now rewrite app_nil_r|]. destruct e as [[k|] cache|n|n].
  - destruct (cs_find k (c_store s)); [cbn; now rewrite app_nil_r|]. apply rounds_filters.
  - cbn. now rewrite app_nil_r.
  - cbn [fst snd]. assert (X : forall l, listening (flat_map (fun p => if is_prefix p n then match cs_find n (c_store s) with Some x => [CReply x] | None => [] end else []) l) = []).
    { induction l as [|p l IH]; [reflexivity|]. cbn [flat_map]. rewrite listening_app, IH. destruct (is_prefix p n), (cs_find n (c_store s)); reflexivity. }
    now rewrite X, app_nil_r.
  - destruct (existsb _ _); cbn; now rewrite app_nil_r.
Qed.
Lemma run_filters evs s : c_filters (fst (run cstep s evs)) = c_filters s ++ listening (snd (run cstep s evs)).
Proof.
  revert s. induction evs as [|e evs IH]; intros s; [cbn; now rewrite app_nil_r|]. cbn [run]. pose proof (step_filters s e) as S.
  destruct (cstep s e) as [s1 o1]. specialize (IH s1). destruct (run cstep s1 evs) as [s2 o2]. cbn [fst snd] in *.
  now rewrite listening_app, IH, S, app_assoc.
Qed.
Lemma exec_filters net site router own evs :
  c_filters (fst (cexec net site router own evs)) = listening (snd (cexec net site router own evs)).
Proof.
  unfold cexec. cbn [cinit]. match goal with |- context [run cstep ?s evs] => pose proof (run_filters evs s) as R; destruct (run cstep s evs) as [s' o'] end.
  cbn [fst snd c_filters] in *. rewrite R, !listening_app.
  assert (A : listening (map CStored own) = []) by (induction own; [reflexivity|assumption]).
  assert (B : forall l, listening (map CFilter l) = l) by (induction l as [|x l IH]; [reflexivity|]; cbn; now f_equal).
  now rewrite A, B.
Qed.

(** Every certificate taken from the validator's cache gets a filter for its key. *)
Lemma rounds_both f cache k s x : In x (stored (snd (publish_rounds f cache k s))) -> In (ct_key x) (listening (snd (publish_rounds f cache k s))).
Proof.
  revert k s. induction f as [|f IH]; intros k s; cbn [publish_rounds]; destruct (cache_find k cache) as [y|]; try (intros []);
    destruct (ct_kl y) as [k'|]; cbn [fst snd stored listening flat_map app]; try (intros [<-|[]]; now left);
    destruct (eqb (ct_key y) k'); cbn [fst snd stored listening flat_map app]; try (intros [<-|[]]; now left).
  specialize (IH k' (Cst (cs_insert y (c_store s)) (c_filters s ++ [ct_key y]) (c_off s))).
  destruct (publish_rounds f cache k' _) as [s2 o2]. cbn [fst snd app] in *. cbn [stored listening flat_map app].
  intros [<-|H]; [now left|right]. now apply IH.
Qed.
Lemma run_both evs s x : In x (stored (snd (run cstep s evs))) -> In (ct_key x) (listening (snd (run cstep s evs))).
Proof.
  revert s. induction evs as [|e evs IH]; intros s; [intros []|]. cbn [run].
  destruct (cstep s e) as [s1 o1] eqn:E. specialize (IH s1). destruct (run cstep s1 evs) as [s2 o2]. cbn [fst snd] in *.
  rewrite stored_app, listening_app, !in_app_iff. intros [H|H]; [left|right; now apply IH].
  unfold cstep in E. destruct (c_off s); [injection E as <- <-; destruct H|]. destruct e as [[k|] cache|n|n].
  - destruct (cs_find k (c_store s)); [injection E as <- <-; destruct H|].
    unfold publish_cert in E. pose proof (rounds_both (length cache) cache k s x) as R. rewrite E in R. now apply R.
  - injection E as <- <-. destruct H.
  - injection E as <- <-. exfalso. revert H. generalize (c_filters s). induction l as [|p l IHl]; [intros []|]. cbn [flat_map].
    rewrite stored_app, in_app_iff. intros [H|H]; [|auto]. destruct (is_prefix p n), (cs_find n (c_store s)); destruct H.
  - destruct (existsb _ _); injection E as <- <-; destruct H.
Qed.

Lemma is_prefix_app (p q : name) : is_prefix p (p ++ q) = true.
Proof. induction p as [|x p IH]; [reflexivity|]. cbn. now rewrite eqb_refl. Qed.
Lemma is_prefix_ext (p n q : name) : is_prefix p n = true -> is_prefix p (n ++ q) = true.
Proof.
  revert n. induction p as [|x p IH]; intros n H; [reflexivity|]. destruct n as [|y n]; [discriminate|]. cbn in *.
  apply andb_true_iff in H. destruct H as [H1 H2]. rewrite H1. cbn. now apply IH.
Qed.
Lemma key_of_cert x : exists q, ct_name x = ct_key x ++ q.
Proof. unfold ct_key, key_name, drop_last. exists (skipn (length (ct_name x) - 2) (ct_name x)). symmetry. apply firstn_skipn. Qed.

(** An Interest that asks for [x]: by its certificate name, or by the name of its key. *)
Definition asks_for (n : name) (x : cert) : Prop :=
  n = ct_name x /\ cert_named (ct_name x) = true \/ n = ct_key x /\ cert_named (ct_key x) = false.

Lemma served net site router own evs n x p : let r := cexec net site router own evs in
  c_off (fst r) = false -> asks_for n x -> last_for (ct_key x) (stored (snd r)) = Some x ->
  In p (listening (snd r)) -> is_prefix p (ct_key x) = true ->
  In (CReply x) (snd (cstep (fst r) (CvInterest n))).
Proof.
  intros r Off A L Hp Pp. assert (F : cs_find n (c_store (fst r)) = Some x).
  { destruct A as [[-> C]|[-> C]].
    - apply C51_cert; [exact C|]. now split.
    - unfold r. rewrite C51_key_partial by exact C. exact L. }
  assert (P : is_prefix p n = true).
  { destruct A as [[-> _]|[-> _]]; [|exact Pp]. destruct (key_of_cert x) as [q ->]. now apply is_prefix_ext. }
  unfold cstep. rewrite Off. cbn [snd]. apply in_flat_map. exists p. unfold r at 1. rewrite exec_filters. split; [exact Hp|].
  rewrite P, F. now left.
Qed.

(** C77 (own certificates): while the router runs, an Interest for a configured certificate that was not
    replaced by another one for its key is answered with it, if its key is one of the router, of the
    router's NLSR, or of the site. *)
Theorem C77_own_partial net site router own evs n x : let r := cexec net site router own evs in
  c_off (fst r) = false -> asks_for n x -> last_for (ct_key x) (stored (snd r)) = Some x ->
  (exists i, ct_key x = net ++ site ++ router ++ [gen "nlsr"%string; gen "KEY"%string] ++ i) \/
  (exists i, ct_key x = net ++ site ++ router ++ [gen "KEY"%string] ++ i) \/
  (exists i, ct_key x = net ++ site ++ [gen "KEY"%string] ++ i) ->
  In (CReply x) (snd (cstep (fst r) (CvInterest n))).
Proof.
  intros r Off A L K.
  assert (G : forall p, In p (key_prefixes net site router) -> is_prefix p (ct_key x) = true ->
              In (CReply x) (snd (cstep (fst r) (CvInterest n)))).
  { intros p Hp Pp. unfold r. apply (served _ _ _ _ _ n x p Off A L); [|exact Pp]. rewrite <- exec_filters.
    unfold cexec. cbn [cinit]. match goal with |- context [run cstep ?s evs] => pose proof (run_filters evs s) as R; destruct (run cstep s evs) as [s' o'] end.
    cbn [fst snd] in *. rewrite R. apply in_app_iff. now left. }
  destruct K as [[i K]|[[i K]|[i K]]]; rewrite K in G.
  - apply (G (net ++ site ++ router ++ [gen "nlsr"%string; KEY])); [now left|]. rewrite !app_assoc. rewrite <- !app_assoc.
    replace (net ++ site ++ router ++ [gen "nlsr"%string; gen "KEY"%string] ++ i) with ((net ++ site ++ router ++ [gen "nlsr"%string; KEY]) ++ i)
      by (rewrite <- !app_assoc; reflexivity). apply is_prefix_app.
  - apply (G (net ++ site ++ router ++ [KEY])); [right; now left|].
    replace (net ++ site ++ router ++ [gen "KEY"%string] ++ i) with ((net ++ site ++ router ++ [KEY]) ++ i)
      by (rewrite <- !app_assoc; reflexivity). apply is_prefix_app.
  - apply (G (net ++ site ++ [KEY])); [right; right; right; now left|].
    replace (net ++ site ++ [gen "KEY"%string] ++ i) with ((net ++ site ++ [KEY]) ++ i)
      by (rewrite <- !app_assoc; reflexivity). apply is_prefix_app.
Qed.

(** C77 (published certificates): a certificate that the router took over from its validator is served. *)
Theorem C77_published net site router own evs n x : let r := cexec net site router own evs in
  c_off (fst r) = false -> asks_for n x -> last_for (ct_key x) (stored (snd r)) = Some x ->
  In x (stored (snd (run cstep (fst (cinit net site router own)) evs))) ->
  In (CReply x) (snd (cstep (fst r) (CvInterest n))).
Proof.
  intros r Off A L H. apply (served _ _ _ _ _ n x (ct_key x) Off A L).
  - apply run_both in H. unfold cexec. cbn [cinit fst] in *. destruct (run cstep _ evs) as [s' o']. cbn [fst snd] in *.
    rewrite listening_app. apply in_app_iff. now right.
  - rewrite <- (app_nil_r (ct_key x)) at 2. apply is_prefix_app.
Qed.

(** The certificate of the site's operator, named as NLSR's trust schema requires
    (<network>/<site>/<0xC1>.Operator/...), is stored but not served: the router listens under the twelve
    characters "%C1.Operator" instead. *)
Definition OPERATOR : comp := gen (String (ascii_of_N 193) ".Operator")%string.
Definition operator_cert : cert :=
  Cert (net1 ++ site1 ++ [OPERATOR] ++ nm ["op"; "KEY"; "1"; "site"; "v1"]%string) (Some (net1 ++ site1 ++ nm ["KEY"; "9"]%string)) "op".
Theorem C77_operator_refuted : let r := cexec net1 site1 router1 [operator_cert] [] in
  c_off (fst r) = false /\ asks_for (ct_name operator_cert) operator_cert /\
  last_for (ct_key operator_cert) (stored (snd r)) = Some operator_cert /\
  snd (cstep (fst r) (CvInterest (ct_name operator_cert))) = [].
Proof. vm_compute. split; [reflexivity|]. split; [left; split; reflexivity|]. split; reflexivity. Qed.

(** The configured certificate and one from the cache, by name and by key. *)
Example C77_ex : let r := cexec net1 site1 router1 [own_cert] hist in
  c_off (fst r) = false /\ asks_for (ct_name own_cert) own_cert /\ asks_for kr own_cert /\ asks_for ko op_cert /\
  last_for (ct_key own_cert) (stored (snd r)) = Some own_cert /\
  (exists i, ct_key own_cert = net1 ++ site1 ++ router1 ++ [gen "KEY"%string] ++ i) /\
  last_for (ct_key op_cert) (stored (snd r)) = Some op_cert /\
  In op_cert (stored (snd (run cstep (fst (cinit net1 site1 router1 [own_cert])) hist))) /\
  snd (cstep (fst r) (CvInterest kr)) = [CReply own_cert].
Proof.
  split; [vm_compute; reflexivity|]. split; [left; split; vm_compute; reflexivity|]. split; [right; split; vm_compute; reflexivity|].
  split; [right; split; vm_compute; reflexivity|]. split; [vm_compute; reflexivity|]. split; [exists (nm ["1"]%string); vm_compute; reflexivity|].
  split; [vm_compute; reflexivity|]. split; [vm_compute; auto|vm_compute; reflexivity].
Qed.

Print Assumptions C77_own_partial.
Print Assumptions C77_published.
Print Assumptions C77_operator_refuted.

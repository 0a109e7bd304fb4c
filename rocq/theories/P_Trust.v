(** C92 and C93: the trust schema in nlsr.conf. *)
From Verif Require Import Base M_Lsa M_Lsdb M_Hello M_Router M_Cert M_Sync M_Trust S_Trust L_Trust.
Local Open Scope nat_scope.
Set Implicit Arguments.

Lemma gen_inj a b : gen a = gen b -> a = b. Proof. now intros [= ->]. Qed.
Lemma free_lit s n : free (lit s) n <-> ~ In (gen s) n.
Proof. split; [intros H X; apply H in X; apply lit_false in X; now apply X|intros H c Hc; apply lit_false; intros ->; auto]. Qed.
Lemma neither_free f g (n : name) : (forall c, In c n -> neither f g c = true) <-> free f n /\ free g n.
Proof.
  split.
  - intros H. split; intros c Hc; apply H in Hc; apply neither_true in Hc; tauto.
  - intros [A B] c Hc. apply neither_true. auto.
Qed.

(** The pattern of a key of an NLSR process *)
Definition process_key : pattern := [grp (neither (lit "KEY") (lit "nlsr")); one (lit "nlsr"); one (lit "KEY"); one3].
Lemma process_key_sp kl g : splits process_key kl g <->
  exists x y, kl = x ++ [NLSR; KEY] ++ y /\ 1 <= length y <= 3 /\ free (lit "KEY") x /\ free (lit "nlsr") x /\ g = [x].
Proof.
  unfold process_key. split.
  - intros H. apply sp_grp in H as (x & n' & g' & -> & -> & Hx & H). parse. apply neither_free in Hx as [H1 H2]. eexists x, _. cbn. eauto.
  - intros (x & y & -> & L & H1 & H2 & ->). apply sp_grp. exists x, ([NLSR; KEY] ++ y), []. split; [reflexivity|]. split; [reflexivity|].
    split; [now apply neither_free|]. apply sp_one. exists NLSR, (KEY :: y). split; [reflexivity|]. split; [now apply lit_true|].
    apply sp_one. exists KEY, y. split; [reflexivity|]. split; [now apply lit_true|]. apply sp_one3. auto.
Qed.
Lemma process_key_iff kl g : rmatch process_key kl = Some g <-> splits process_key kl g.
Proof.
  split; [apply rmatch_sound|]. intros H. destruct (rmatch_complete H) as [g' E]. rewrite E. f_equal. apply rmatch_sound in E.
  apply process_key_sp in E as (x & y & E1 & _ & _ & Hx & ->). apply process_key_sp in H as (x' & y' & E2 & _ & _ & Hx' & ->). rewrite E1 in E2. clear E1.
  f_equal. refine (proj1 (@cut_unique (fun z => z = NLSR) _ _ _ _ _ _ _ _ eq_refl eq_refl E2)); intros z Hz ->; [apply Hx in Hz|apply Hx' in Hz]; discriminate Hz.
Qed.

(** The rule for LSAs *)
Definition lsa_pat : pattern :=
  [one (lit "localhop"); grp (neither (lit "nlsr") (lit "LSA")); one (lit "nlsr"); one (lit "LSA"); grp any; one any; one any; one any; one any].
Lemma lsa_pat_iff net rest t q v s g : free (lit "nlsr") net -> free (lit "LSA") net ->
  rmatch lsa_pat (lsa_packet net rest t q v s) = Some g <-> g = [net; rest].
Proof.
  intros H1 H2.
  assert (U : forall g', splits lsa_pat (lsa_packet net rest t q v s) g' -> g' = [net; rest]).
  { unfold lsa_packet, lsa_pat. intros g' S. apply sp_one in S as (c & n' & [= <- <-] & _ & S).
    apply sp_grp in S as (x & n' & g1 & E & -> & Hx & S). apply sp_one in S as (c & n2 & -> & Hc & S). apply lit_true in Hc. subst c.
    apply sp_one in S as (c & n3 & -> & Hc & S). apply lit_true in Hc. subst c. apply neither_free in Hx as [Hx _].
    apply sp_grp in S as (y & n4 & g2 & -> & -> & _ & S). parse.
    assert (E' : net = x /\ NLSR = NLSR /\ gen "LSA" :: rest ++ [t; q; v; s] = gen "LSA" :: y ++ [x0; x2; x4; x6]).
    { refine (@cut_unique (fun z => z = NLSR) _ _ _ _ _ _ _ _ eq_refl eq_refl E); intros z Hz ->; [apply H1 in Hz|apply Hx in Hz]; discriminate Hz. }
    destruct E' as (-> & _ & E'). injection E' as E'. apply tail4 in E' as (-> & _). reflexivity. }
  split.
  - intros E. apply U. now apply rmatch_sound.
  - intros ->. assert (S : splits lsa_pat (lsa_packet net rest t q v s) [net; rest]).
    { unfold lsa_packet, lsa_pat. apply sp_one. eexists _, _. split; [reflexivity|]. split; [now apply lit_true|].
      apply sp_grp. eexists net, _, _. split; [reflexivity|]. split; [reflexivity|]. split; [now apply neither_free|].
      apply sp_one. eexists _, _. split; [reflexivity|]. split; [now apply lit_true|].
      apply sp_one. eexists _, _. split; [reflexivity|]. split; [now apply lit_true|].
      apply sp_grp. eexists rest, _, _. split; [reflexivity|]. split; [reflexivity|]. split; [reflexivity|].
      do 4 (apply sp_one; eexists _, _; split; [reflexivity|]; split; [reflexivity|]). now apply sp_end. }
    destruct (rmatch_complete S) as [g' E]. rewrite E. f_equal. apply U. now apply rmatch_sound.
Qed.

(** C92: a packet of an LSA is signed with a key of the NLSR process of the router it is named after. *)
Theorem C92_lsa net rest t q v s kl : free (lit "nlsr") net -> free (lit "LSA") net ->
  policy validator (lsa_packet net rest t q v s) kl = true <->
  names_process_key (net ++ rest) kl /\ free (lit "KEY") (net ++ rest) /\ free (lit "nlsr") (net ++ rest).
Proof.
  intros H1 H2.
  assert (F1 : rmatches (r_filter hello_rule) (lsa_packet net rest t q v s) = false).
  { destruct rmatches eqn:E; [|reflexivity]. exfalso. apply rmatches_true in E as [g E].
    pose proof (@after_nlsr _ _ (LOCALHOP :: net) _ _ _ E) as A. assert (N : ~ In NLSR (LOCALHOP :: net)).
    { intros [X|X]; [discriminate X|]. apply H1 in X. discriminate X. }
    specialize (A N (gen "LSA") (rest ++ [t; q; v; s]) eq_refl). discriminate A. }
  assert (F2 : rmatches (r_filter lsa_rule) (lsa_packet net rest t q v s) = true).
  { apply rmatches_true. exists []. unfold lsa_packet, lsa_rule. cbn [r_filter]. apply sp_many. exists (LOCALHOP :: net). eexists. split; [reflexivity|].
    split; [apply neither_free; split; (intros c [<-|Hc]; [reflexivity|auto])|]. apply sp_one. eexists _, _. split; [reflexivity|]. split; [now apply lit_true|].
    apply sp_one. eexists _, _. split; [reflexivity|]. split; [now apply lit_true|]. apply sp_many. exists (rest ++ [t; q; v; s]), []. rewrite app_nil_r.
    split; [reflexivity|]. split; [reflexivity|]. now apply sp_end. }
  unfold policy, validator. cbn [find]. rewrite F1, F2. cbn [r_check lsa_rule check]. fold lsa_pat. fold process_key.
  assert (P : rmatch lsa_pat (lsa_packet net rest t q v s) = Some [net; rest]) by now apply lsa_pat_iff.
  rewrite P. cbn [concat]. rewrite app_nil_r. split.
  - destruct (rmatch process_key kl) as [g|] eqn:E; [|discriminate]. apply process_key_iff, process_key_sp in E as (x & y & -> & L & K1 & K2 & ->).
    cbn [concat]. rewrite app_nil_r. intros X. apply eqb_eq in X. subst x. split; [|auto]. exists y. auto.
  - intros ((y & -> & L) & K1 & K2). assert (E : rmatch process_key ((net ++ rest) ++ [NLSR; KEY] ++ y) = Some [net ++ rest]).
    { apply process_key_iff, process_key_sp. exists (net ++ rest), y. auto. }
    rewrite E. cbn [concat]. rewrite app_nil_r. apply eqb_refl.
Qed.

Definition hello_pat : pattern := [grp (neither (lit "nlsr") (lit "INFO")); one (lit "nlsr"); one (lit "INFO"); one any; one any].
Lemma hello_pat_sp r a v g : splits hello_pat (hello_packet r a v) g <-> g = [r] /\ free (lit "nlsr") r /\ free (lit "INFO") r.
Proof.
  unfold hello_pat, hello_packet. split.
  - intros S. apply sp_grp in S as (x & n' & g1 & E & -> & Hx & S). parse. apply tail4 in E as (-> & _). apply neither_free in Hx. auto.
  - intros (-> & H1 & H2). apply sp_grp. eexists r, _, _. split; [reflexivity|]. split; [reflexivity|]. split; [now apply neither_free|].
    apply sp_one. eexists _, _. split; [reflexivity|]. split; [now apply lit_true|]. apply sp_one. eexists _, _. split; [reflexivity|]. split; [now apply lit_true|].
    do 2 (apply sp_one; eexists _, _; split; [reflexivity|]; split; [reflexivity|]). now apply sp_end.
Qed.

(** C92: so is an answer to a Hello. *)
Theorem C92_hello r a v kl : free (lit "nlsr") r -> free (lit "INFO") r ->
  policy validator (hello_packet r a v) kl = true <-> names_process_key r kl /\ free (lit "KEY") r.
Proof.
  intros H1 H2.
  assert (S : splits hello_pat (hello_packet r a v) [r]) by now apply hello_pat_sp.
  assert (F1 : rmatches (r_filter hello_rule) (hello_packet r a v) = true).
  { apply rmatches_true. exists []. unfold hello_rule, hello_packet. cbn [r_filter]. apply sp_many. eexists r, _. split; [reflexivity|].
    split; [now apply neither_free|]. apply sp_one. eexists _, _. split; [reflexivity|]. split; [now apply lit_true|].
    apply sp_one. eexists _, _. split; [reflexivity|]. split; [now apply lit_true|].
    do 2 (apply sp_one; eexists _, _; split; [reflexivity|]; split; [reflexivity|]). now apply sp_end. }
  unfold policy, validator. cbn [find]. rewrite F1. cbn [r_check hello_rule check]. fold hello_pat. fold process_key.
  assert (P : rmatch hello_pat (hello_packet r a v) = Some [r]).
  { destruct (rmatch_complete S) as [g' E]. rewrite E. apply rmatch_sound in E. apply hello_pat_sp in E as [-> _]. reflexivity. }
  rewrite P. cbn [concat]. rewrite app_nil_r. split.
  - destruct (rmatch process_key kl) as [g|] eqn:E; [|discriminate]. apply process_key_iff, process_key_sp in E as (x & y & -> & L & K1 & K2 & ->).
    cbn [concat]. rewrite app_nil_r. intros X. apply eqb_eq in X. subst x. split; [|auto]. exists y. auto.
  - intros ((y & -> & L) & K1). assert (E : rmatch process_key (r ++ [NLSR; KEY] ++ y) = Some [r]).
    { apply process_key_iff, process_key_sp. exists r, y. auto. }
    rewrite E. cbn [concat]. rewrite app_nil_r. apply eqb_refl.
Qed.

Lemma process_owner r x z : free (lit "KEY") r -> owner ((r ++ [NLSR; KEY] ++ x) ++ z) = r ++ [NLSR].
Proof.
  intros H. replace ((r ++ [NLSR; KEY] ++ x) ++ z) with ((r ++ [NLSR]) ++ KEY :: (x ++ z)) by (rewrite <- !app_assoc; reflexivity).
  apply owner_cut. rewrite in_app_iff. intros [X|[X|[]]]; [apply H in X; discriminate X|discriminate X].
Qed.
Lemma related_refl a : related a a. Proof. left. exists []. now rewrite app_nil_r. Qed.

Lemma first_signer r n kl d : packet_of r n -> hd_error r <> Some (gen "localhop") -> policy validator n kl = true -> prefix_of kl d = true ->
  may_vouch r (owner d).
Proof.
  intros [(net & rest & t & q & v & s & -> & H1 & H2 & ->)|(a & v & ->)] Hl H P.
  - apply C92_lsa in H as ((x & -> & _) & K & _); auto. apply prefix_of_iff in P as [z ->]. rewrite process_owner by exact K. left. apply related_refl.
  - apply policy_hit in H as (ru & [<-|[<-|[<-|[<-|[<-|[]]]]]] & F & K).
    + apply check_hyper in K as (gp & gk & K1 & K2 & K3). apply hello_pat_sp in K1 as (-> & _). apply process_key_sp in K2 as (x & y & -> & _ & Kx & _ & ->).
      cbn in K3. rewrite !app_nil_r in K3. apply eqb_eq in K3. subst x. apply prefix_of_iff in P as [z ->]. rewrite process_owner by exact Kx. left. apply related_refl.
    + exfalso. apply check_hyper in K as (gp & gk & K & _). unfold hello_packet in K. apply sp_one in K as (c & n' & E & Hc & _). apply lit_true in Hc. subst c.
      destruct r as [|c r]; [discriminate E|]. cbn in E. injection E as -> _. now apply Hl.
    + apply check_hyper in K as (gp & gk & K1 & K2 & K3). clear F. unfold hello_packet in K1.
      apply sp_grp in K1 as (A & n1 & g1 & E & -> & HA & K1). apply sp_grp in K2 as (B & l1 & g2 & -> & -> & HB & K2).
      parse. cbn in K3. rewrite !app_nil_r in K3. apply eqb_eq in K3. subst B.
      apply prefix_of_iff in P as [z ->]. rewrite <- app_assoc. cbn [app]. change (gen "KEY") with KEY.
      apply key_free in HB. rewrite owner_cut by exact HB. left. eapply (@prefixes_related A (r ++ [NLSR])); [exact (eq_sym E) || reflexivity|].
      rewrite <- E. rewrite <- app_assoc. reflexivity.
    + exfalso. clear K. apply rmatches_true in F as [g F]. unfold router_rule in F. cbn [r_filter] in F. unfold hello_packet in F.
      apply sp_many in F as (x & n1 & E & _ & F). apply sp_one in F as (m & n2 & -> & _ & F). apply sp_many in F as (u & n3 & -> & _ & F). parse.
      rewrite app_comm_cons, app_assoc in E. apply tail4 in E as (_ & E & _). discriminate E.
    + unfold hello_packet in F. rewrite cert_no in F by discriminate. discriminate F.
Qed.

(** C92: someone with other keys cannot make the router accept a packet in the name of router [r].  [K]: the keys
    they have.  They may make any certificates with them ([forged]), under any names. *)
Theorem C92_unforgeable conf published own store forged (K : N -> Prop) r p :
  packet_of r (p_name p) -> hd_error r <> Some (gen "localhop") ->
  (forall c, In c (all_anchors conf published own) \/ In c store -> may_vouch r (owner (tc_name c)) -> ~ K (tc_key c)) ->
  (forall c, In c forged -> K (tc_sig c)) ->
  data_accepted conf published own (store ++ forged) p ->
  ~ K (p_sig p) /\ data_accepted conf published own store p.
Proof.
  intros Hp Hl Hn Hf (Po & d & T & P & E). pose proof (@first_signer _ _ _ _ Hp Hl Po P) as V.
  destruct (@vouched_all r Hl _ _ _ Hn _ _ Hf T V) as [N T']. rewrite E. split; [exact N|]. split; [exact Po|]. exists d. auto.
Qed.

(** Other routers do not vouch for [r]. *)
Theorem C92_others r site m rest : ~ related (site ++ m :: rest) r -> ~ In NLSR (site ++ m :: rest) -> is_router m = true -> free is_operator site ->
  ~ may_vouch r (site ++ m :: rest) /\ ~ may_vouch r (site ++ m :: rest ++ [NLSR]).
Proof.
  intros N Nn Hm Ho.
  assert (G : forall x, ~ may_vouch r ((site ++ m :: rest) ++ x)).
  { intros x V. apply (@may_vouch_above r (site ++ m :: rest) _ x eq_refl) in V.
    destruct V as [[[y E]|[y E]]|(s & m' & rest' & o & -> & Hs & Hm' & Ho' & [[y E]|[y E]])].
    - destruct y as [|k y _] using rev_ind.
      + rewrite app_nil_r in E. apply Nn. rewrite <- E. apply in_or_app. right. now left.
      + rewrite app_assoc in E. apply app_inj_tail in E as [E _]. apply N. left. now exists y.
    - apply N. right. exists (NLSR :: y). rewrite E, <- app_assoc. reflexivity.
    - assert (X : In m (s ++ [o])) by (rewrite E, in_app_iff; left; apply in_or_app; right; now left).
      apply in_app_or in X as [X|[<-|[]]]; [rewrite (Hs m X) in Hm; discriminate|exact (router_not_operator _ Hm Ho')].
    - assert (F : free is_router (s ++ [o])).
      { intros c Hc. apply in_app_or in Hc as [Hc|[<-|[]]]; [auto|]. destruct (is_router o) eqn:R; [destruct (router_not_operator _ R Ho')|reflexivity]. }
      destruct (@free_prefix _ _ _ _ _ _ Hm F E) as [w ->]. rewrite (Ho o) in Ho'; [discriminate|]. rewrite !in_app_iff. left. right. now left. }
  split.
  - intros V. apply (G []). now rewrite app_nil_r.
  - intros V. apply (G [NLSR]). rewrite <- app_assoc. exact V.
Qed.

(** *** What is signed as the documentation says is accepted *)

Lemma last_key (j y x y' : name) : ~ In KEY j -> ~ In KEY y -> x ++ KEY :: y' = j ++ KEY :: y -> x = j /\ y' = y.
Proof.
  revert x. induction j as [|c j IH]; intros [|d x] Hj Hy E; cbn in E.
  - injection E as ->. auto.
  - injection E as -> <-. exfalso. apply Hy, in_or_app. right. now left.
  - injection E as E _. exfalso. apply Hj. now left.
  - injection E as -> E. destruct (IH x (fun X => Hj (or_intror X)) Hy E) as [-> ->]. auto.
Qed.
Lemma hier_yes n j y : ~ In KEY j -> ~ In KEY y -> 1 <= length y <= 3 -> (exists x, n = j ++ x) -> check hierarchical n (j ++ KEY :: y) = true.
Proof.
  intros Hj Hy L [x ->]. cbn [check hierarchical].
  assert (P : rmatch [grp any] (j ++ x) = Some [j ++ x]).
  { destruct (@rmatch_complete [grp any] (j ++ x) [j ++ x]) as [g E].
    - apply sp_grp. exists (j ++ x), [], []. rewrite app_nil_r. split; [reflexivity|]. split; [reflexivity|]. split; [reflexivity|]. now apply sp_end.
    - rewrite E. apply rmatch_sound in E. parse. rewrite app_nil_r in *. subst. reflexivity. }
  assert (Q : rmatch [grp any; one (eqb KEY); one3] (j ++ KEY :: y) = Some [j]).
  { destruct (@rmatch_complete [grp any; one (eqb KEY); one3] (j ++ KEY :: y) [j]) as [g E].
    - apply sp_grp. eexists j, _, _. split; [reflexivity|]. split; [reflexivity|]. split; [reflexivity|].
      apply sp_one. eexists _, _. split; [reflexivity|]. split; [apply eqb_refl|]. now apply sp_one3.
    - rewrite E. apply rmatch_sound in E. apply sp_grp in E as (x' & n' & g' & E1 & -> & _ & E). apply sp_one in E as (k & n2 & -> & Hk & E).
      apply eqb_eq in Hk. subst k. apply sp_one3 in E as [_ ->]. symmetry in E1. apply last_key in E1 as [-> _]; auto. }
  rewrite P, Q. cbn [concat]. rewrite !app_nil_r. apply prefix_of_iff. now exists x.
Qed.
Lemma cert_rule_yes j a b d : ~ In KEY j -> rmatches (r_filter cert_rule) (j ++ [KEY; a; b; d]) = true.
Proof.
  intros H. apply rmatches_true. exists []. unfold cert_rule. cbn [r_filter]. apply sp_many. eexists j, _. split; [reflexivity|].
  split; [apply neither_free; split; now apply free_lit|]. apply sp_one. eexists _, _. split; [reflexivity|]. split; [now apply lit_true|].
  do 3 (apply sp_one; eexists _, _; split; [reflexivity|]; split; [reflexivity|]). now apply sp_end.
Qed.

Lemma owner_cert j c : ~ In KEY j -> cert_of j c -> owner (tc_name c) = j.
Proof. intros H (a & b & d & -> & _). now apply owner_cut. Qed.
Lemma points_parts j c kl : ~ In KEY j -> cert_of j c -> points_to kl c ->
  exists y, kl = j ++ KEY :: y /\ ~ In KEY y /\ 1 <= length y <= 3 /\ prefix_of kl (tc_name c) = true.
Proof.
  intros H C (y & z & E & -> & Hy). rewrite (owner_cert H C) in *. exists y. split; [reflexivity|]. destruct C as (a & b & d & C & N).
  rewrite C in E. apply app_inv_head in E. injection E as E. assert (I : forall x, In x y -> In x [a; b; d]) by (intros x Hx; rewrite E; apply in_or_app; now left).
  split; [intros X; apply I, N in X as [X _]; now apply X|]. split.
  - assert (length [a; b; d] = length y + length z) by (rewrite E; apply app_length). destruct y; [easy|]. cbn in *. lia.
  - rewrite C. apply prefix_of_iff. exists z. rewrite E, <- app_assoc. reflexivity.
Qed.
Lemma cert_named_yes j a b d : cert_named (j ++ [KEY; a; b; d]) = true.
Proof. unfold cert_named, back. rewrite rev_app_distr. reflexivity. Qed.
Lemma not_nlsr_cert j a b d : ~ In NLSR j -> (forall x, In x [a; b; d] -> x <> KEY /\ x <> NLSR) -> ~ In NLSR (j ++ [KEY; a; b; d]).
Proof. intros H N X. apply in_app_or in X as [X|[X|X]]; [auto|discriminate X|]. apply N in X as [_ X]. now apply X. Qed.

Lemma plain_policy j a b d kl : ~ In KEY j -> ~ In NLSR j -> free is_router j -> (forall x, In x [a; b; d] -> x <> KEY /\ x <> NLSR) ->
  policy validator (j ++ [KEY; a; b; d]) kl = check hierarchical (j ++ [KEY; a; b; d]) kl.
Proof.
  intros H1 H2 H3 H4. pose proof (@not_nlsr_cert _ _ _ _ H2 H4) as NN. unfold policy, validator. cbn [find].
  rewrite hello_no by discriminate. rewrite lsa_no' by exact NN. rewrite dataset_no' by exact NN. rewrite router_no.
  - rewrite cert_rule_yes by exact H1. reflexivity.
  - now left.
Qed.
Lemma process_policy r a b d kl : ~ In KEY r -> ~ In NLSR r -> policy validator ((r ++ [NLSR]) ++ [KEY; a; b; d]) kl = check hierarchical ((r ++ [NLSR]) ++ [KEY; a; b; d]) kl.
Proof.
  intros H1 H2. unfold policy, validator. cbn [find]. rewrite hello_no by discriminate.
  replace ((r ++ [NLSR]) ++ [KEY; a; b; d]) with (r ++ NLSR :: KEY :: [a; b; d]) by (rewrite <- app_assoc; reflexivity).
  rewrite lsa_no by (auto; discriminate). rewrite dataset_no by (auto; discriminate).
  replace (r ++ NLSR :: KEY :: [a; b; d]) with ((r ++ [NLSR]) ++ [KEY; a; b; d]) by (rewrite <- app_assoc; reflexivity).
  rewrite router_no by (right; now exists r). rewrite cert_rule_yes; [reflexivity|]. rewrite in_app_iff. intros [X|[X|[]]]; [auto|discriminate X].
Qed.
Lemma router_policy site m rest o u a b d y : ~ In KEY (site ++ m :: rest) -> ~ In NLSR (site ++ m :: rest) -> free is_router site -> is_router m = true ->
  free is_operator site -> is_operator o = true -> ~ In KEY u -> ~ In KEY y -> 1 <= length y <= 3 -> (forall x, In x [a; b; d] -> x <> KEY /\ x <> NLSR) ->
  policy validator ((site ++ m :: rest) ++ [KEY; a; b; d]) ((site ++ o :: u) ++ KEY :: y) = true.
Proof.
  intros K N Hs Hm Os Ho Ku Ky L Hi. pose proof (@not_nlsr_cert _ _ _ _ N Hi) as NN.
  assert (Ks : ~ In KEY site) by (intros X; apply K, in_or_app; now left). assert (Kr : ~ In KEY rest) by (intros X; apply K, in_or_app; right; now right).
  assert (Nr : ~ In NLSR rest) by (intros X; apply N, in_or_app; right; now right).
  unfold policy, validator. cbn [find]. rewrite hello_no by discriminate. rewrite lsa_no' by exact NN. rewrite dataset_no' by exact NN.
  assert (F : rmatches (r_filter router_rule) ((site ++ m :: rest) ++ [KEY; a; b; d]) = true).
  { apply rmatches_true. exists []. unfold router_rule. cbn [r_filter]. rewrite <- app_assoc. cbn [app]. apply sp_many. eexists site, _. split; [reflexivity|].
    split; [apply neither_free; split; [now apply free_lit|exact Hs]|]. apply sp_one. eexists _, _. split; [reflexivity|]. split; [exact Hm|].
    apply sp_many. eexists rest, _. split; [reflexivity|]. split; [apply neither_free; split; now apply free_lit|].
    apply sp_one. eexists _, _. split; [reflexivity|]. split; [now apply lit_true|].
    do 3 (apply sp_one; eexists _, _; split; [reflexivity|]; split; [reflexivity|]). now apply sp_end. }
  rewrite F. cbn [r_check router_rule check]. rewrite <- !app_assoc. cbn [app].
  match goal with |- match rmatch ?p ?n with _ => _ end = _ => assert (P : rmatch p n = Some [site]) end.
  { match goal with |- rmatch ?p ?n = _ => destruct (@rmatch_complete p n [site]) as [g E] end.
    - apply sp_grp. eexists site, _, _. split; [reflexivity|]. split; [reflexivity|]. split; [apply neither_free; split; [now apply free_lit|exact Hs]|].
      apply sp_one. eexists _, _. split; [reflexivity|]. split; [exact Hm|].
      apply sp_many. eexists rest, _. split; [reflexivity|]. split; [apply neither_free; split; now apply free_lit|].
      apply sp_one. eexists _, _. split; [reflexivity|]. split; [now apply lit_true|].
      do 3 (apply sp_one; eexists _, _; split; [reflexivity|]; split; [reflexivity|]). now apply sp_end.
    - rewrite E. apply rmatch_sound in E. apply sp_grp in E as (x & n' & g' & E1 & -> & Hx & E). apply sp_one in E as (k & n2 & -> & Hk & E).
      apply sp_many in E as (w & n3 & -> & _ & E). parse. apply neither_free in Hx as [_ Hx]. f_equal. f_equal. symmetry.
      refine (proj1 (@cut_unique (fun c => is_router c = true) _ _ _ _ _ _ _ _ Hm Hk E1)); intros c Hc; rewrite ?(Hs c Hc), ?(Hx c Hc); discriminate. }
  rewrite P. clear P.
  match goal with |- match rmatch ?p ?n with _ => _ end = _ => assert (P : rmatch p n = Some [site]) end.
  { match goal with |- rmatch ?p ?n = _ => destruct (@rmatch_complete p n [site]) as [g E] end.
    - apply sp_grp. eexists site, _, _. split; [reflexivity|]. split; [reflexivity|]. split; [apply neither_free; split; [now apply free_lit|exact Os]|].
      apply sp_one. eexists _, _. split; [reflexivity|]. split; [exact Ho|].
      apply sp_many. eexists u, _. split; [reflexivity|]. split; [apply neither_free; split; now apply free_lit|].
      apply sp_one. eexists _, _. split; [reflexivity|]. split; [now apply lit_true|]. now apply sp_one3.
    - rewrite E. apply rmatch_sound in E. apply sp_grp in E as (x & n' & g' & E1 & -> & Hx & E). apply sp_one in E as (k & n2 & -> & Hk & E).
      apply sp_many in E as (w & n3 & -> & _ & E). parse. apply neither_free in Hx as [_ Hx]. f_equal. f_equal. symmetry.
      refine (proj1 (@cut_unique (fun c => is_operator c = true) _ _ _ _ _ _ _ _ Ho Hk E1)); intros c Hc; rewrite ?(Os c Hc), ?(Hx c Hc); discriminate. }
  rewrite P. cbn [concat]. apply eqb_refl.
Qed.

(** C92: a packet of a router whose certificates are issued as SECURITY-CONFIG.rst says is accepted: the process key by
    the router, the router by an operator of the site, the operator by the site, the site by the root. *)
Theorem C92_genuine conf published own store root x m rest o u cr cs co ct cp n kl :
  let site := root ++ x in let r := site ++ m :: rest in
  is_router m = true -> is_operator o = true -> free is_router site -> free is_operator site -> free is_router u ->
  free (lit "KEY") (r ++ u) -> free (lit "nlsr") (r ++ u) -> free (lit "INFO") r ->
  In cr conf -> (forall c, In c [cs; co; ct; cp] -> In c store) ->
  cert_of root cr -> cert_of site cs -> cert_of (site ++ o :: u) co -> cert_of r ct -> cert_of (r ++ [NLSR]) cp ->
  issued cs cr -> issued co cs -> issued ct co -> issued cp ct ->
  packet_of r n -> points_to kl cp ->
  data_accepted conf published own store (Pkt n kl (tc_key cp)).
Proof.
  intros site r Hm Ho Rs Os Ru K N I A St Cr Cs Co Ct Cp Is Io It Ip Pk Pt.
  assert (Ks : ~ In KEY site) by (intros X; apply free_lit in K; apply K; unfold r; rewrite !in_app_iff; auto).
  assert (Kroot : ~ In KEY root) by (intros X; apply Ks; unfold site; apply in_or_app; auto).
  assert (Kr : ~ In KEY r) by (intros X; apply free_lit in K; apply K, in_or_app; auto).
  assert (Ku : ~ In KEY u) by (intros X; apply free_lit in K; apply K, in_or_app; auto).
  assert (Nr : ~ In NLSR r) by (intros X; apply free_lit in N; apply N, in_or_app; auto).
  assert (Nu : ~ In NLSR u) by (intros X; apply free_lit in N; apply N, in_or_app; auto).
  assert (Ns : ~ In NLSR site) by (intros X; apply Nr; unfold r; apply in_or_app; auto).
  assert (Ko : ~ In KEY (site ++ o :: u)).
  { rewrite in_app_iff. intros [X|[X|X]]; auto. now apply is_operator_not_key in Ho. }
  assert (No : ~ In NLSR (site ++ o :: u)).
  { rewrite in_app_iff. intros [X|[X|X]]; auto. subst o. discriminate Ho. }
  assert (Ro : free is_router (site ++ o :: u)).
  { intros c Hc. apply in_app_or in Hc as [Hc|[<-|Hc]]; auto. destruct (is_router o) eqn:R; [destruct (router_not_operator _ R Ho)|reflexivity]. }
  assert (Kp : ~ In KEY (r ++ [NLSR])) by (rewrite in_app_iff; intros [X|[X|[]]]; [auto|discriminate X]).
  set (T := trusted validator (all_anchors conf published own) store).
  assert (Tr : T cr) by (apply tr_anchor; unfold all_anchors; rewrite !in_app_iff; auto).
  assert (Ts : T cs).
  { destruct Is as [Is1 Is2]. destruct (points_parts Kroot Cr Is2) as (y & E & Hy & L & P). pose proof Cs as Cs'. destruct Cs' as (a & b & d & E1 & Hi).
    apply (@tr_signed _ _ _ cs cr); auto; [apply St; now left|rewrite E1; apply cert_named_yes|]. rewrite E1, plain_policy; auto. rewrite E. apply hier_yes; auto.
    unfold site. exists (x ++ [KEY; a; b; d]). now rewrite app_assoc. }
  assert (To : T co).
  { destruct Io as [Io1 Io2]. destruct (points_parts Ks Cs Io2) as (y & E & Hy & L & P). pose proof Co as Co'. destruct Co' as (a & b & d & E1 & Hi).
    apply (@tr_signed _ _ _ co cs); auto; [apply St; cbn; auto|rewrite E1; apply cert_named_yes|]. rewrite E1, plain_policy; auto. rewrite E. apply hier_yes; auto.
    exists ((o :: u) ++ [KEY; a; b; d]). now rewrite app_assoc. }
  assert (Tt : T ct).
  { destruct It as [It1 It2]. destruct (points_parts Ko Co It2) as (y & E & Hy & L & P). pose proof Ct as Ct'. destruct Ct' as (a & b & d & E1 & Hi).
    apply (@tr_signed _ _ _ ct co); auto; [apply St; cbn; auto|rewrite E1; apply cert_named_yes|]. rewrite E1, E. now apply router_policy. }
  assert (Tp : T cp).
  { destruct Ip as [Ip1 Ip2]. destruct (points_parts Kr Ct Ip2) as (y & E & Hy & L & P). pose proof Cp as Cp'. destruct Cp' as (a & b & d & E1 & Hi).
    apply (@tr_signed _ _ _ cp ct); auto; [apply St; cbn; auto|rewrite E1; apply cert_named_yes|]. rewrite E1, process_policy by auto. rewrite E. apply hier_yes; auto.
    exists ([NLSR] ++ [KEY; a; b; d]). now rewrite app_assoc. }
  destruct (points_parts Kp Cp Pt) as (y & E & Hy & L & P).
  split; [|exists cp; auto]. cbn [p_name p_kl].
  assert (PK : names_process_key r kl) by (exists y; split; [rewrite E, <- app_assoc; reflexivity|exact L]).
  destruct Pk as [(net & rst & t & q & v & s & E2 & H1 & H2 & ->)|(a & v & ->)].
  - apply C92_lsa; auto. rewrite <- E2. split; [exact PK|]. split; now apply free_lit.
  - apply C92_hello; auto; [now apply free_lit|]. split; [exact PK|now apply free_lit].
Qed.

(** *** C93 *)

Definition operator_key : pattern := [grp (neither (lit "KEY") is_operator); one is_operator; many (neither (lit "KEY") (lit "KEY")); one (lit "KEY"); one3].
Lemma operator_key_iff kl : rmatches operator_key kl = true <->
  exists j y, kl = j ++ KEY :: y /\ 1 <= length y <= 3 /\ operator_name j /\ ~ In KEY j.
Proof.
  rewrite rmatches_true. unfold operator_key. split.
  - intros [g S]. apply sp_grp in S as (x & n' & g' & -> & -> & Hx & S). apply sp_one in S as (o & n2 & -> & Ho & S).
    apply sp_many in S as (u & n3 & -> & Hu & S). apply sp_one in S as (k & y & -> & Hk & S). apply lit_true in Hk. subst k. parse.
    apply neither_free in Hx as [Hx _]. apply neither_free in Hu as [Hu _].
    exists (x ++ o :: u), y. split; [rewrite <- app_assoc; reflexivity|]. split; [assumption|]. split; [exists x, o, u; auto|].
    apply free_lit in Hx. apply free_lit in Hu. rewrite in_app_iff. intros [X|[X|X]]; auto. now apply is_operator_not_key in Ho.
  - intros (j & y & -> & L & (x & o & u & -> & Ho) & Kj). destruct (first_mark is_operator (x ++ o :: u)) as [F|(s & m & w & E & Fs & Hm)].
    { rewrite (F o) in Ho; [discriminate|]. apply in_or_app. right. now left. }
    rewrite E in *. exists [s]. rewrite <- app_assoc. cbn [app]. apply sp_grp. eexists s, _, _. split; [reflexivity|]. split; [reflexivity|].
    split; [apply neither_free; split; [apply free_lit; intros X; apply Kj, in_or_app; now left|exact Fs]|].
    apply sp_one. eexists _, _. split; [reflexivity|]. split; [exact Hm|]. apply sp_many. eexists w, _. split; [reflexivity|].
    assert (free (lit "KEY") w) by (apply free_lit; intros X; apply Kj, in_or_app; right; now right).
    split; [now apply neither_free|]. apply sp_one. eexists _, _. split; [reflexivity|]. split; [now apply lit_true|]. now apply sp_one3.
Qed.

(** C93: only the commands advertise and withdraw, signed with a key of an operator *)
Theorem C93_command n kl : policy update_interests n kl = true <->
  (exists verb a b c, (verb = gen "advertise" \/ verb = gen "withdraw") /\ n = command_packet verb a b c) /\
  (exists j y, kl = j ++ KEY :: y /\ 1 <= length y <= 3 /\ operator_name j /\ ~ In KEY j).
Proof.
  unfold policy, update_interests. cbn [find].
  assert (F : rmatches (r_filter command_rule) n = true <-> exists verb a b c, (verb = gen "advertise" \/ verb = gen "withdraw") /\ n = command_packet verb a b c).
  { rewrite rmatches_true. unfold command_rule. cbn [r_filter]. split.
    - intros [g S]. apply sp_one in S as (c1 & n1 & -> & H1 & S). apply sp_one in S as (c2 & n2 & -> & H2 & S). apply sp_one in S as (c3 & n3 & -> & H3 & S).
      apply sp_one in S as (verb & n4 & -> & H4 & S). parse. unfold either in H4. apply orb_true_iff in H4. rewrite !lit_true in H4. eexists verb, _, _, _. split; [exact H4|reflexivity].
    - intros (verb & a & b & c & Hv & ->). exists []. unfold command_packet.
      do 3 (apply sp_one; eexists _, _; split; [reflexivity|]; split; [now apply lit_true|]).
      apply sp_one. eexists _, _. split; [reflexivity|]. split; [unfold either; apply orb_true_iff; now rewrite !lit_true|].
      do 3 (apply sp_one; eexists _, _; split; [reflexivity|]; split; [reflexivity|]). now apply sp_end. }
  rewrite <- F, <- operator_key_iff. unfold operator_key. destruct (rmatches (r_filter command_rule) n); cbn [r_check command_rule check].
  - split; [intros H; split; [reflexivity|exact H]|now intros [_ H]].
  - split; [discriminate|now intros [H _]].
Qed.

Lemma update_chain anchors store c : trusted update_certs anchors store c -> exists a z, In a anchors /\ owner (tc_name c) = owner (tc_name a) ++ z.
Proof.
  induction 1 as [c Hc|c d Hc Cn Hp T (a & z & Ha & E) P Es]; [exists c, []; now rewrite app_nil_r|].
  apply policy_hit in Hp as (ru & [<-|[]] & _ & K). destruct (@hier_owner _ _ _ K P) as [w E']. exists a, (z ++ w). split; [exact Ha|]. now rewrite E', E, app_assoc.
Qed.

(** C93: a command is accepted only from an operator whose name lies below that of a trust anchor. *)
Theorem C93_below conf published own store p : command_accepted conf published own store p ->
  exists j y a z, p_kl p = j ++ KEY :: y /\ operator_name j /\ In a (all_anchors conf published own) /\ j = owner (tc_name a) ++ z.
Proof.
  intros (Po & d & T & P & E). apply C93_command in Po as (_ & j & y & Ek & L & Hj & Kj). apply prefix_of_iff in P as [w Ed]. rewrite Ek in *.
  apply update_chain in T as (a & z & Ha & T). exists j, y, a, z. split; [reflexivity|]. split; [exact Hj|]. split; [exact Ha|].
  rewrite <- T, Ed, <- app_assoc. symmetry. now apply owner_cut.
Qed.

(** C93: what an operator signs is accepted, if a trust anchor issued the operator's certificate. *)
Theorem C93_genuine conf published own store site x o u cs co verb a b c kl :
  let op := site ++ x ++ o :: u in
  is_operator o = true -> ~ In KEY op -> In cs conf -> In co store -> cert_of site cs -> cert_of op co -> issued co cs -> points_to kl co ->
  (verb = gen "advertise" \/ verb = gen "withdraw") ->
  command_accepted conf published own store (Pkt (command_packet verb a b c) kl (tc_key co)).
Proof.
  intros op Ho K A So Cs Co [I1 I2] Pt Hv.
  assert (Ks : ~ In KEY site) by (intros X; apply K; unfold op; apply in_or_app; now left).
  assert (Ts : trusted update_certs (all_anchors conf published own) store cs) by (apply tr_anchor; unfold all_anchors; rewrite !in_app_iff; auto).
  assert (To : trusted update_certs (all_anchors conf published own) store co).
  { destruct (points_parts Ks Cs I2) as (y & E & Hy & L & P). pose proof Co as Co'. destruct Co' as (k1 & k2 & k3 & E1 & Hi).
    apply (@tr_signed _ _ _ co cs); auto; [rewrite E1; apply cert_named_yes|]. rewrite E1. unfold policy, update_certs. cbn [find].
    rewrite cert_rule_yes by exact K. cbn [r_check cert_rule]. rewrite E. apply hier_yes; auto. unfold op. eexists. rewrite <- app_assoc. reflexivity. }
  destruct (points_parts K Co Pt) as (y & E & Hy & L & P). split; [|exists co; auto]. cbn [p_name p_kl]. apply C93_command. split.
  - exists verb, a, b, c. auto.
  - exists op, y. split; [exact E|]. split; [exact L|]. split; [|exact K]. exists (site ++ x), o, u. split; [unfold op; now rewrite app_assoc|exact Ho].
Qed.

(** C93: someone whose keys are not certified for the operator's name or a name above it cannot give a command in the
    name of that operator. *)
Theorem C93_unforgeable conf published own store forged (K : N -> Prop) p j y :
  p_kl p = j ++ KEY :: y -> ~ In KEY j ->
  (forall c, In c (all_anchors conf published own) \/ In c store -> (exists z, j = owner (tc_name c) ++ z) -> ~ K (tc_key c)) ->
  (forall c, In c forged -> K (tc_sig c)) ->
  command_accepted conf published own (store ++ forged) p ->
  ~ K (p_sig p) /\ command_accepted conf published own store p.
Proof.
  intros Ek Kj Hn Hf (Po & d & T & P & E).
  assert (G : forall c, trusted update_certs (all_anchors conf published own) (store ++ forged) c -> (exists z, j = owner (tc_name c) ++ z) ->
    ~ K (tc_key c) /\ trusted update_certs (all_anchors conf published own) store c).
  { induction 1 as [c Hc|c e Hc Cn Hp T' IH P' Es]; intros V; [split; [auto|now apply tr_anchor]|].
    destruct IH as [Nk T2].
    - pose proof Hp as Hp'. apply policy_hit in Hp' as (ru & [<-|[]] & _ & Kc). destruct (@hier_owner _ _ _ Kc P') as [w E']. destruct V as [z V].
      exists (w ++ z). now rewrite V, E', app_assoc.
    - apply in_app_or in Hc as [Hc|Hc]; [split; [auto|now apply (@tr_signed _ _ _ c e)]|]. exfalso. apply Nk. rewrite <- Es. now apply Hf. }
  destruct (G d T) as [Nd Td].
  - apply prefix_of_iff in P as [w Ed]. exists []. rewrite Ed, Ek, <- app_assoc, app_nil_r. cbn [app]. symmetry. now apply owner_cut.
  - rewrite E. split; [exact Nd|]. split; [exact Po|]. exists d. auto.
Qed.

(** C92: the marks of routers and operators in nlsr.conf and in names: octet 0xC1, a dot, and the word.  Nothing else passes for one, except with
    another character in place of the dot. *)
Definition marker (s : string) : comp := gen (String (ascii_of_N 193) (String "." s)).
Theorem C92_marks : is_router (marker "Router") = true /\ is_operator (marker "Operator") = true /\ is_router (marker "Operator") = false /\ is_operator (marker "Router") = false /\
  forall c, (is_router c = true -> exists x, c = gen (String (ascii_of_N 193) (String x "Router"))) /\
            (is_operator c = true -> exists x, c = gen (String (ascii_of_N 193) (String x "Operator"))).
Proof.
  split; [reflexivity|]. split; [reflexivity|]. split; [reflexivity|]. split; [reflexivity|].
  assert (G : forall s c, mark s c = true -> exists x, c = gen (String (ascii_of_N 193) (String x s))).
  { intros s [t [|a [|x r]]]; cbn [mark]; try discriminate. intros H. apply andb_true_iff in H as [H H4]. apply andb_true_iff in H as [H H3].
    apply andb_true_iff in H as [H1 H2]. apply eqb_eq in H1, H2, H4. subst t r. exists x. rewrite <- H2, ascii_N_embedding. reflexivity. }
  intros c. split; apply G.
Qed.

(** *** A concrete network of names *)

Definition OPm : comp := gen (String (ascii_of_N 193) ".Operator")%string.
Definition ROm : comp := C1_ROUTER.
Definition g1 : list comp := nm ["1"; "i"; "v"]%string.
Definition crt (j : name) (k : N) (by_ : name) (s : N) : tcert := TC (j ++ KEY :: g1) k (by_ ++ KEY :: g1) s.
Definition ndn := nm ["ndn"%string].
Definition ucla := nm ["ndn"; "ucla"]%string.
Definition op1 := ucla ++ [OPm; gen "op"%string].
Definition rt1 := ucla ++ [ROm; gen "rt1"%string].
Definition rt2 := ucla ++ [ROm; gen "rt2"%string].
Definition c_root := crt ndn 1 ndn 1.
Definition c_site := crt ucla 2 ndn 1.
Definition c_op := crt op1 3 ucla 2.
Definition c_rt1 := crt rt1 4 op1 3.
Definition c_p1 := crt (rt1 ++ [NLSR]) 5 rt1 4.
Definition c_rt2 := crt rt2 6 op1 3.
Definition c_p2 := crt (rt2 ++ [NLSR]) 7 rt2 6.
Definition all_certs := [c_site; c_op; c_rt1; c_p1; c_rt2; c_p2].
Definition lsa1 := lsa_packet ndn (nm ["ucla"%string] ++ [ROm; gen "rt1"%string]) (gen "NAME"%string) (gen "7"%string) (gen "v"%string) (gen "s"%string).

Lemma crt_of j k b s : cert_of j (crt j k b s).
Proof. exists (gen "1"%string), (gen "i"%string), (gen "v"%string). split; [reflexivity|]. intros x [<-|[<-|[<-|[]]]]; split; discriminate. Qed.
Ltac byfree := intros ? Hc; vm_compute in Hc; repeat (destruct Hc as [<-|Hc]; [reflexivity|]); destruct Hc.
Ltac nokey := vm_compute; intuition discriminate.
Lemma crt_issued j k b s j' k' b' s' : ~ In KEY j' -> b = j' -> s = k' -> issued (crt j k b s) (crt j' k' b' s').
Proof.
  intros H -> ->. split; [reflexivity|]. exists g1, []. cbn [crt tc_name tc_kl]. rewrite owner_cut by exact H. rewrite app_nil_r. repeat split. discriminate.
Qed.
Lemma lsa1_of : packet_of rt1 lsa1.
Proof.
  left. exists ndn, (nm ["ucla"%string] ++ [ROm; gen "rt1"%string]), (gen "NAME"%string), (gen "7"%string), (gen "v"%string), (gen "s"%string).
  split; [reflexivity|]. split; [byfree|]. split; [byfree|reflexivity].
Qed.

Example C92_genuine_case : data_accepted [c_root] [] None all_certs (Pkt lsa1 (rt1 ++ NLSR :: KEY :: g1) 5).
Proof.
  assert (P : points_to (rt1 ++ NLSR :: KEY :: g1) c_p1) by (exists g1, []; repeat split; discriminate).
  refine (@C92_genuine [c_root] [] None all_certs ndn (nm ["ucla"%string]) ROm [gen "rt1"%string] OPm [gen "op"%string]
    c_root c_site c_op c_rt1 c_p1 lsa1 _ eq_refl eq_refl _ _ _ _ _ _ (or_introl eq_refl) _ (@crt_of _ _ _ _) (@crt_of _ _ _ _) (@crt_of _ _ _ _) (@crt_of _ _ _ _) (@crt_of _ _ _ _) _ _ _ _ lsa1_of P).
  1-6: byfree.
  - cbn. intuition.
  - apply crt_issued; [nokey|reflexivity|reflexivity].
  - apply crt_issued; [nokey|reflexivity|reflexivity].
  - apply crt_issued; [nokey|reflexivity|reflexivity].
  - apply crt_issued; [nokey|reflexivity|reflexivity].
Qed.

(** Router rt2 tries to pass for rt1 with a certificate it makes itself. *)
Definition forged1 := crt (rt1 ++ [NLSR]) 7 rt1 6.
Definition forged2 := crt (rt1 ++ [NLSR]) 7 rt2 6.
Definition K2 (k : N) : Prop := k = 6%N \/ k = 7%N.
Example C92_unforgeable_case kl : ~ data_accepted [c_root] [] None (all_certs ++ [forged1; forged2]) (Pkt lsa1 kl 7).
Proof.
  intros H. assert (O : ~ may_vouch rt1 rt2 /\ ~ may_vouch rt1 (rt2 ++ [NLSR])).
  { apply (@C92_others rt1 ucla ROm [gen "rt2"%string]); [|nokey|reflexivity|byfree]. intros [[x X]|[x X]]; discriminate X. }
  destruct O as [O1 O2].
  destruct (@C92_unforgeable [c_root] [] None all_certs [forged1; forged2] K2 rt1 (Pkt lsa1 kl 7)) as [N _].
  - exact lsa1_of.
  - discriminate.
  - intros c Hc V. unfold all_anchors, all_certs in Hc. cbn [app In] in Hc. unfold K2.
    destruct Hc as [[<-|[]]|[<-|[<-|[<-|[<-|[<-|[<-|[]]]]]]]]; cbn; intuition discriminate.
  - intros c [<-|[<-|[]]]; now left.
  - exact H.
  - apply N. right. reflexivity.
Qed.

(** A router with a component INFO in its name: its answers to Hellos are never accepted. *)
Theorem C92_info_refuted : exists r a v, free (lit "nlsr") r /\ free (lit "LSA") r /\ free (lit "KEY") r /\ forall kl, policy validator (hello_packet r a v) kl = false.
Proof.
  exists (ucla ++ [ROm; gen "INFO"%string]), (gen "x"%string), (gen "v"%string). split; [byfree|]. split; [byfree|]. split; [byfree|].
  intros kl. vm_compute. reflexivity.
Qed.

Definition cmd := command_packet (gen "advertise"%string) (gen "p"%string) (gen "t"%string) (gen "n"%string).
Example C93_genuine_case : command_accepted [c_site] [c_rt1] (Some c_p1) all_certs (Pkt cmd (op1 ++ KEY :: g1) 3).
Proof.
  assert (P : points_to (op1 ++ KEY :: g1) c_op) by (exists g1, []; repeat split; discriminate).
  refine (@C93_genuine [c_site] [c_rt1] (Some c_p1) all_certs ucla [] OPm [gen "op"%string] c_site c_op _ _ _ _ _ eq_refl _ (or_introl eq_refl) _ (@crt_of _ _ _ _) (@crt_of _ _ _ _) _ P (or_introl eq_refl)).
  - nokey.
  - cbn. intuition.
  - apply crt_issued; [nokey|reflexivity|reflexivity].
Qed.

(** The operator of another site is accepted by a router that publishes the certificate of the root. *)
Definition memphis := nm ["ndn"; "memphis"]%string.
Definition op2 := memphis ++ [OPm; gen "op"%string].
Definition c_site2 := crt memphis 8 ndn 1.
Definition c_op2 := crt op2 9 memphis 8.
Theorem C93_published_refuted : exists site conf published own store p j y,
  (forall c, In c conf -> owner (tc_name c) = site) /\ (forall c, own = Some c -> exists x, owner (tc_name c) = site ++ x) /\
  p_kl p = j ++ KEY :: y /\ ~ related j site /\ command_accepted conf published own store p.
Proof.
  exists ucla, [c_site], [c_root; c_rt1], (Some c_p1), [c_site2; c_op2], (Pkt cmd (op2 ++ KEY :: g1) 9), op2, g1.
  split; [intros c [<-|[]]; reflexivity|]. split; [intros c [= <-]; exists [ROm; gen "rt1"%string; NLSR]; reflexivity|]. split; [reflexivity|].
  split; [intros [[x X]|[x X]]; discriminate X|]. split; [vm_compute; reflexivity|]. exists c_op2. split; [|split; vm_compute; reflexivity].
  apply (@tr_signed _ _ _ c_op2 c_site2); [cbn; auto|vm_compute; reflexivity|vm_compute; reflexivity| |vm_compute; reflexivity|reflexivity].
  apply (@tr_signed _ _ _ c_site2 c_root); [cbn; auto|vm_compute; reflexivity|vm_compute; reflexivity| |vm_compute; reflexivity|reflexivity].
  apply tr_anchor. cbn. auto.
Qed.

(** Someone certified by the site who is no operator: they can make themselves one below their own name. *)
Definition alice := ucla ++ [gen "alice"%string].
Definition c_alice := crt alice 10 ucla 2.
Definition c_minted := crt (alice ++ [OPm; gen "x"%string]) 10 alice 10.
Theorem C93_minted_refuted : exists conf published own store forged (K : N -> Prop) p,
  (forall c, In c (all_anchors conf published own) -> ~ K (tc_key c)) /\
  (forall c, In c store -> K (tc_key c) -> ~ operator_name (owner (tc_name c))) /\
  (forall c, In c forged -> K (tc_sig c)) /\ command_accepted conf published own (store ++ forged) p /\ K (p_sig p).
Proof.
  exists [c_site], [c_rt1], (Some c_p1), [c_op; c_alice], [c_minted], (fun k => k = 10%N), (Pkt cmd (alice ++ [OPm; gen "x"%string] ++ KEY :: g1) 10).
  split; [intros c [<-|[<-|[<-|[]]]]; discriminate|]. split.
  - intros c [<-|[<-|[]]] E; [discriminate E|]. intros (x & o & u & E1 & Ho). assert (X : In o (owner (tc_name c_alice))) by (rewrite E1; apply in_or_app; right; now left).
    vm_compute in X. repeat (destruct X as [<-|X]; [discriminate Ho|]). destruct X.
  - split; [intros c [<-|[]]; reflexivity|]. split; [|reflexivity]. split; [vm_compute; reflexivity|]. exists c_minted. split; [|split; vm_compute; reflexivity].
    apply (@tr_signed _ _ _ c_minted c_alice); [cbn; auto|vm_compute; reflexivity|vm_compute; reflexivity| |vm_compute; reflexivity|reflexivity].
    apply (@tr_signed _ _ _ c_alice c_site); [cbn; auto|vm_compute; reflexivity|vm_compute; reflexivity| |vm_compute; reflexivity|reflexivity].
    apply tr_anchor. cbn. auto.
Qed.

Print Assumptions C92_lsa.
Print Assumptions C92_hello.
Print Assumptions C92_unforgeable.
Print Assumptions C92_others.
Print Assumptions C92_genuine.
Print Assumptions C92_info_refuted.
Print Assumptions C93_command.
Print Assumptions C93_below.
Print Assumptions C93_genuine.
Print Assumptions C93_unforgeable.
Print Assumptions C93_published_refuted.
Print Assumptions C93_minted_refuted.
Print Assumptions C92_marks.

(** Properties of the adjacency list, the hello protocol and the face handling: C16-C20, C57, C58, C63, C64. *)
From Verif Require Import Base M_Nexthop M_Tlv M_Codec M_Adj M_Lsa M_Lsdb M_Hello S_Hello S_Codec L_Codec L_Lsdb9 L_Hello.
Set Implicit Arguments.
Open Scope N_scope.

(** ** A concrete router with two neighbours *)

Definition r1X : name := nm ["ndn"; "site"; "r1"]%string.
Definition r2X : name := nm ["ndn"; "site"; "r2"]%string.
Definition r3X : name := nm ["ndn"; "site"; "r3"]%string.
Definition u2X : uri := "udp4://10.0.0.2:6363"%string.
Definition u3X : uri := "udp4://10.0.0.3:6363"%string.
Definition hcX (h : hyp) : hconf :=
  HConf r1X (nm ["localhop"; "ndn"; "nlsr"; "LSA"]%string) (nm ["localhop"; "ndn"; "nlsr"; "sync"]%string) 3 h 3.
Definition nbX : list (name * uri * Z) := [(r2X, u2X, of_int 10); (r3X, u3X, of_int 25)].
Definition verX : comp := Comp 54 "1"%string.

(** r2's face comes up, the hello is answered, then three hellos are lost. *)
Definition upX : list hev :=
  [HvCreated 300 u2X; HvRegistered r2X; HvData 0 (hello_int r1X r2X ++ [verX]); HvLoop 1;
   HvNack 2; HvNackTimer 4; HvTimeout 5].

(** ** C16 *)

(** Operations of the list that change it. *)
Inductive aop := AInsert (a : adjacent) | AIncr (n : name) | ATouts (n : name) (k : N) | AStatus (n : name) (v : status).
Definition aop_run (l : adl) (o : aop) : adl :=
  match o with
  | AInsert a => snd (adl_insert a l)
  | AIncr n => incr_touts n l
  | ATouts n k => put_touts n k l
  | AStatus n v => put_status n v l
  end.
(** The neighbour an operation names and its effect on that neighbour's entry. *)
Definition aop_name (o : aop) : name :=
  match o with AInsert a => a_name a | AIncr n | ATouts n _ | AStatus n _ => n end.
Definition aop_effect (o : aop) (e : option adjacent) : option adjacent :=
  match o, e with
  | AInsert a, None => Some a
  | AInsert _, Some b => Some b
  | _, None => None
  | AIncr _, Some b => Some (Adj (a_name b) (a_uri b) (a_cost b) (a_status b) ((a_touts b + 1) mod 2 ^ 32) (a_face b))
  | ATouts _ k, Some b => Some (Adj (a_name b) (a_uri b) (a_cost b) (a_status b) k (a_face b))
  | AStatus _ v, Some b => Some (Adj (a_name b) (a_uri b) (a_cost b) v (a_touts b) (a_face b))
  end.

Lemma nodup_upd n g l : (forall a, a_name (g a) = a_name a) -> NoDup (map a_name l) -> NoDup (map a_name (adl_upd n g l)).
Proof. intros Hg H. unfold adl_upd. now rewrite upd_first_map. Qed.

Lemma aop_nodup l o : NoDup (map a_name l) -> NoDup (map a_name (aop_run l o)).
Proof.
  intros H. destruct o as [a|n|n k|n v]; cbn [aop_run]; try (apply nodup_upd; [reflexivity|exact H]).
  unfold adl_insert. destruct (adl_find (a_name a) l) eqn:E; cbn [snd]; [exact H|]. apply adl_find_none in E.
  rewrite map_app. apply NoDup_app_intro; [exact H|repeat constructor; intros []|]. intros x Hx [<- |[]]. contradiction.
Qed.

Lemma adl_find_upd n g l m : (forall a, a_name (g a) = a_name a) ->
  adl_find m (adl_upd n g l) = if eqb m n then option_map g (adl_find m l) else adl_find m l.
Proof.
  intros Hg. unfold adl_upd. induction l as [|x l IH]; cbn [upd_first adl_find].
  - now destruct (eqb m n).
  - destruct (eqb (a_name x) n) eqn:E; cbn [adl_find]; rewrite ?Hg.
    + apply (proj1 (eqb_eq _ _)) in E. subst n. rewrite (eqb_sym m (a_name x)).
      now destruct (eqb (a_name x) m).
    + destruct (eqb (a_name x) m) eqn:E2; [|exact IH]. apply (proj1 (eqb_eq _ _)) in E2. subst m. now rewrite E.
Qed.

Lemma adl_find_app n l m : adl_find n (l ++ m) = match adl_find n l with Some a => Some a | None => adl_find n m end.
Proof. induction l as [|x l IH]; cbn; [reflexivity|]. now destruct (eqb (a_name x) n). Qed.

(** C16: after any sequence of operations on an empty list no two entries have the same name, and every
    operation changes exactly the entry of the neighbour it names, as described by [aop_effect]; in
    particular an update for an unknown name and the insertion of a known one change nothing. *)
Theorem C16_list (os : list aop) (o : aop) :
  let l := fold_left aop_run os [] in
  NoDup (map a_name l) /\
  (forall m : name, adl_find m (aop_run l o) = if eqb m (aop_name o) then aop_effect o (adl_find m l) else adl_find m l) /\
  (forall a, In a l <-> adl_find (a_name a) l = Some a) /\
  (forall n : name, ~ In n (map a_name l) -> match o with AInsert a => True | _ => aop_name o = n -> aop_run l o = l end).
Proof.
  intros l. assert (Hn : NoDup (map a_name l)).
  { unfold l. clear l o. assert (G : forall l, NoDup (map a_name l) -> NoDup (map a_name (fold_left aop_run os l))).
    { induction os as [|o os IH]; intros l H; [exact H|]. apply IH, aop_nodup, H. }
    apply G. constructor. }
  split; [exact Hn|]. split; [|split].
  - intros m. destruct o as [a|n|n k|n v]; cbn [aop_run aop_name].
    + unfold adl_insert. destruct (adl_find (a_name a) l) as [b|] eqn:E; cbn [snd].
      * eqb_case m (a_name a); [|reflexivity]. rewrite E. reflexivity.
      * rewrite adl_find_app. cbn [adl_find]. rewrite (eqb_sym (a_name a) m).
        destruct (eqb m (a_name a)) eqn:Em.
        -- apply (proj1 (eqb_eq _ _)) in Em. subst m. rewrite E. reflexivity.
        -- now destruct (adl_find m l).
    + unfold incr_touts. rewrite adl_find_upd by reflexivity. destruct (eqb m n); [|reflexivity]. now destruct (adl_find m l).
    + unfold put_touts. rewrite adl_find_upd by reflexivity. destruct (eqb m n); [|reflexivity]. now destruct (adl_find m l).
    + unfold put_status. rewrite adl_find_upd by reflexivity. destruct (eqb m n); [|reflexivity]. now destruct (adl_find m l).
  - intros a. split; [intros H; now apply adl_find_in|]. intros H. apply adl_find_some in H. apply H.
  - intros n Hno. assert (X : forall g, adl_upd n g l = l).
    { intros g. unfold adl_upd. destruct (upd_first_split (fun a => eqb (a_name a) n) g l) as [[E _]|(l1 & a & l2 & E & Ha & _)]; [exact E|].
      exfalso. apply Hno. apply (proj1 (eqb_eq _ _)) in Ha. rewrite <- Ha. apply in_map. rewrite E. apply in_elt. }
    destruct o as [a|k|k t|k v]; cbn [aop_name aop_run]; trivial; intros ->; apply X.
Qed.

(** The same in the running router: an event never changes which neighbours there are, their URIs or
    costs, and there is one entry per name. *)
Theorem C16_running c l evs :
  map stat (h_adl (hstate c l evs)) = map stat (h_adl (fst (hinit c l))) /\
  NoDup (map a_name (h_adl (hstate c l evs))).
Proof. destruct (hstate_inv c l evs) as [I E]. split; [exact E|apply I]. Qed.

Example C16_ex : map a_name (h_adl (hstate (hcX HOff) nbX upX)) = [r2X; r3X] /\
  map a_touts (fold_left aop_run [AInsert (adj_named r2X); AIncr r2X; AInsert (adj_named r2X); AIncr r3X] []) = [1].
Proof. vm_compute. split; reflexivity. Qed.

(** ** C17 *)

Lemma entry_find s n a : NoDup (map a_name (h_adl s)) -> entry s n a <-> adl_find n (h_adl s) = Some a.
Proof.
  intros Hn. split; [intros [H1 H2]; now apply adl_find_in|]. intros H. apply adl_find_some in H. exact H.
Qed.

Section C17.
Variable c : hconf.

(** What an event does to the entry of a neighbour. *)
Definition face_only (a b : adjacent) : Prop := b = a \/ exists f, b = set_face f a.

Lemma hstep_entry s e a : hinv c s -> h_dead s = false -> In a (h_adl s) ->
  exists b, In b (h_adl (fst (hstep c s e))) /\ stat b = stat a /\
    (if is_reply (a_name a) s e then b = set_touts 0 (set_status SActive a)
     else if is_loss c (a_name a) s e then b = on_loss c (a_name a) a
     else face_only a b \/
          (exists f, e = HvDestroyed f /\ a_face a = f /\ a_status a = SActive /\
                     b = set_touts (hc_retry c) (set_status SInactive (set_face 0 a)))).
Proof.
  intros I Hd Ha. unfold hstep. rewrite Hd.
  destruct e as [n|t|i d|i|i|t|i|iname|f|f u|fs| | |u f]; cbn [is_reply is_loss].
  - exists a. rewrite (proj1 (send_hello_adl c n s)). repeat split; auto. left; left; reflexivity.
  - destruct (get t (h_loop s)) as [n|].
    + exists a. rewrite (proj1 (send_hello_adl c n _)). repeat split; auto. left; left; reflexivity.
    + exists a. repeat split; auto. left; left; reflexivity.
  - destruct (get i (h_pend s)) as [p|] eqn:Ep.
    2:{ rewrite andb_false_r. exists a. repeat split; auto. left; left; reflexivity. }
    destruct (prefix_of p d) eqn:Epd.
    2:{ rewrite andb_false_r. exists a. repeat split; auto. left; left; reflexivity. }
    rewrite andb_true_r. set (s0 := hw_pend (del i (h_pend s)) (h_next s) s).
    rewrite (@validated_adl c d s0 (iv_nodup I)).
    destruct (iv_pend I i _ (or_introl Ep)) as (m & Hm & ->).
    apply prefix_of_spec in Epd. destruct Epd as (r & Er).
    assert (Hlen : (4 <= length d)%nat).
    { rewrite Er. unfold hello_name. rewrite !app_length. cbn [length].
      destruct m as [|x m]; [exfalso; now apply (iv_nonempty I)|]. cbn [length]. lia. }
    destruct (info_at 3 d) eqn:Ei.
    + destruct (@reply_shape d Hlen Ei) as (x & y & z & Ed).
      exists (on_reply (drop_end 4 d) a). split; [apply in_map; exact Ha|]. split; [apply on_reply_stat|].
      unfold on_reply. destruct (eqb (a_name a) (drop_end 4 d)) eqn:E.
      * apply (proj1 (eqb_eq _ _)) in E.
        assert (R : names_reply (a_name a) d = true) by (apply names_reply_spec; exists x, y, z; congruence).
        rewrite R. reflexivity.
      * apply (proj1 (eqb_neq _ _)) in E. destruct (names_reply (a_name a) d) eqn:R.
        -- exfalso. apply E. apply names_reply_spec in R. destruct R as (x' & y' & z' & R). rewrite R.
           symmetry. now apply drop_end_app.
        -- left; left; reflexivity.
    + exists a. split; [exact Ha|]. split; [reflexivity|]. destruct (names_reply (a_name a) d) eqn:R.
      * exfalso. apply names_reply_spec in R. destruct R as (x' & y' & z' & R). rewrite R, info3_app in Ei. discriminate.
      * left; left; reflexivity.
  - exists a. repeat split; auto. left; left; reflexivity.
  - destruct (get i (h_pend s)) as [p|]; exists a; repeat split; auto; left; left; reflexivity.
  - destruct (get t (h_nack s)) as [p|] eqn:Ep.
    + set (s0 := hw_nack (del t (h_nack s)) (h_next s) s).
      destruct (iv_pend I t _ (or_intror Ep)) as (n & Hn & ->).
      rewrite (@timed_out_adl c n s0 (iv_nodup I) Hn). exists (on_loss c n a).
      split; [apply in_map; exact Ha|]. split; [apply on_loss_stat|].
      destruct (eqb (Some (hello_name c n)) (Some (hello_int (hc_self c) (a_name a)))) eqn:E.
      * apply (proj1 (eqb_eq _ _)) in E. injection E as E. apply (hello_inj c n (a_name a)) in E. now rewrite E.
      * unfold on_loss at 1. unfold on_loss. destruct (eqb (a_name a) n) eqn:En.
        -- apply (proj1 (eqb_eq _ _)) in En. exfalso. apply (proj1 (eqb_neq _ _) E). subst n. reflexivity.
        -- left; left; reflexivity.
    + exists a. repeat split; auto. left; left; reflexivity.
  - destruct (get i (h_pend s)) as [p|] eqn:Ep.
    + set (s0 := hw_pend (del i (h_pend s)) (h_next s) s).
      destruct (iv_pend I i _ (or_introl Ep)) as (n & Hn & ->).
      rewrite (@timed_out_adl c n s0 (iv_nodup I) Hn). exists (on_loss c n a).
      split; [apply in_map; exact Ha|]. split; [apply on_loss_stat|].
      destruct (eqb (Some (hello_name c n)) (Some (hello_int (hc_self c) (a_name a)))) eqn:E.
      * apply (proj1 (eqb_eq _ _)) in E. injection E as E. apply (hello_inj c n (a_name a)) in E. now rewrite E.
      * unfold on_loss. destruct (eqb (a_name a) n) eqn:En.
        -- apply (proj1 (eqb_eq _ _)) in En. exfalso. apply (proj1 (eqb_neq _ _) E). subst n. reflexivity.
        -- left; left; reflexivity.
    + exists a. repeat split; auto. left; left; reflexivity.
  - exists a. destruct (prefix_of _ iname); rewrite ?(proj1 (process_interest_adl c iname s));
      repeat split; auto; left; left; reflexivity.
  - unfold face_destroyed. destruct (adl_find_face f (h_adl s)) as [x|] eqn:Ex.
    2:{ exists a. repeat split; auto. left; left; reflexivity. }
    assert (Hx : exists l1 l2, h_adl s = l1 ++ x :: l2 /\ a_face x = f /\ forall g,
               upd_first (fun b => eqb (a_face b) f) g (h_adl s) = l1 ++ g x :: l2).
    { clear Ha I. induction (h_adl s) as [|y l IH]; cbn [adl_find_face] in Ex; [discriminate|].
      destruct (eqb (a_face y) f) eqn:Ey.
      - injection Ex as ->. exists [], l. split; [reflexivity|]. split; [now apply (proj1 (eqb_eq _ _))|].
        intros g. cbn [upd_first]. now rewrite Ey.
      - destruct (IH Ex) as (l1 & l2 & E1 & E2 & E3). exists (y :: l1), l2. rewrite E1. split; [reflexivity|].
        split; [exact E2|]. intros g. cbn [upd_first]. rewrite Ey. rewrite <- E1, E3. reflexivity. }
    destruct Hx as (l1 & l2 & El & Ef & Hg).
    assert (Hin : a = x \/ In a (l1 ++ l2)).
    { rewrite El in Ha. apply in_app_iff in Ha. rewrite in_app_iff. destruct Ha as [?|[?|?]]; auto. }
    destruct (eqb (a_status x) SActive) eqn:Es; cbn [changed hemit fst h_adl hw_adl]; rewrite Hg.
    + destruct Hin as [-> |Hin].
      * eexists. split; [apply in_elt|]. split; [reflexivity|]. right. exists f.
        apply (proj1 (eqb_eq _ _)) in Es. auto.
      * exists a. split; [apply in_app_iff in Hin; apply in_app_iff; destruct Hin; [left|right; right]; assumption|].
        split; [reflexivity|]. left; left; reflexivity.
    + destruct Hin as [-> |Hin].
      * eexists. split; [apply in_elt|]. split; [reflexivity|]. left. right. now exists 0.
      * exists a. split; [apply in_app_iff in Hin; apply in_app_iff; destruct Hin; [left|right; right]; assumption|].
        split; [reflexivity|]. left; left; reflexivity.
  - unfold face_created. destruct (adl_find_uri u (h_adl s)) as [x|].
    2:{ exists a. repeat split; auto. left; left; reflexivity. }
    destruct (_ || _).
    2:{ exists a. repeat split; auto. left; left; reflexivity. }
    cbn [fst h_adl hw_adl].
    destruct (upd_first_split (fun b => eqb (a_uri b) u) (set_face f) (h_adl s)) as [[E _]|(l1 & y & l2 & El & Hy & _ & E)]; rewrite E.
    + exists a. repeat split; auto. left; left; reflexivity.
    + rewrite El in Ha. apply in_app_iff in Ha. destruct Ha as [Ha|[-> |Ha]].
      * exists a. split; [apply in_app_iff; now left|]. split; [reflexivity|]. left; left; reflexivity.
      * eexists. split; [apply in_elt|]. split; [reflexivity|]. left. right. now exists f.
      * exists a. split; [apply in_app_iff; right; now right|]. split; [reflexivity|]. left; left; reflexivity.
  - unfold face_dataset. pose proof (match_all_adl c fs (h_adl s)) as E. destruct (match_all c fs (h_adl s)) as [l o].
    cbn [fst] in *. subst l. eexists. split; [apply in_map; exact Ha|]. split; [apply match_faces_stat|].
    left. right. exists (a_face (fst (match_faces c fs a))).
    destruct (match_faces_stat c fs a) as (E1 & E2 & E3). destruct (fst (match_faces c fs a)) as [n1 u1 c1 s1 t1 f1].
    unfold stat in E1. cbn in *. injection E1 as -> -> ->. subst. destruct a; reflexivity.
  - destruct (h_ds s); [|exists a; repeat split; auto; left; left; reflexivity].
    unfold dataset_failed. destruct (_ <? _); exists a; repeat split; auto; left; left; reflexivity.
  - destruct (h_ds s); exists a; repeat split; auto; left; left; reflexivity.
  - cbn [fst h_adl hw_adl].
    destruct (upd_first_split (fun b => eqb (a_uri b) u) (set_face f) (h_adl s)) as [[E _]|(l1 & y & l2 & El & Hy & _ & E)]; rewrite E.
    + exists a. repeat split; auto. left; left; reflexivity.
    + rewrite El in Ha. apply in_app_iff in Ha. destruct Ha as [Ha|[-> |Ha]].
      * exists a. split; [apply in_app_iff; now left|]. split; [reflexivity|]. left; left; reflexivity.
      * eexists. split; [apply in_elt|]. split; [reflexivity|]. left. right. now exists f.
      * exists a. split; [apply in_app_iff; right; now right|]. split; [reflexivity|]. left; left; reflexivity.
Qed.

Arguments hstep_entry {s} e {a}.

Lemma losses_from_snoc n s k evs e :
  losses_from c n s k (evs ++ [e]) =
  let s' := fst (run (hstep c) s evs) in let k' := losses_from c n s k evs in
  if h_dead s' then k' else if is_reply n s' e then 0 else if is_loss c n s' e then k' + 1 else k'.
Proof.
  revert s k. induction evs as [|x evs IH]; intros s k.
  - cbn [app losses_from run fst]. destruct (h_dead s), (is_reply n s e), (is_loss c n s e); reflexivity.
  - cbn [app losses_from run]. destruct (h_dead s) eqn:Hd.
    + assert (E : forall q, fst (run (hstep c) s q) = s).
      { clear -Hd. induction q as [|y q IHq]; cbn [run]; [reflexivity|].
        assert (E : hstep c s y = (s, [])) by (unfold hstep; now rewrite Hd). rewrite E.
        destruct (run (hstep c) s q). exact IHq. }
      assert (E1 : hstep c s x = (s, [])) by (unfold hstep; now rewrite Hd). rewrite E1.
      specialize (E evs). destruct (run (hstep c) s evs) as [s2 o2]. cbn [fst] in *. subst s2. cbv zeta. now rewrite Hd.
    + destruct (hstep c s x) as [s1 o1]. cbn [fst]. rewrite !IH. destruct (run (hstep c) s1 evs) as [s2 o2].
      cbn [fst]. destruct (is_reply n s x); [reflexivity|]. now destruct (is_loss c n s x).
Qed.

Lemma hstep_dead_const s e : h_dead s = true -> fst (hstep c s e) = s.
Proof. intros H. unfold hstep. now rewrite H. Qed.

(** While a neighbour is ACTIVE its counter is the number of losses since its last reply, which is below
    the limit. *)
Lemma active_count l evs a : 0 < hc_retry c < 2 ^ 32 -> In a (h_adl (hstate c l evs)) -> a_status a = SActive ->
  a_touts a = losses c l (a_name a) evs /\ losses c l (a_name a) evs < hc_retry c.
Proof.
  intros Hr. revert a. induction evs as [|e evs IH] using rev_ind; intros a Ha Hs.
  - exfalso. destruct (proj2 (hinit_inv c l) a Ha) as [E _]. congruence.
  - unfold losses. rewrite losses_from_snoc. cbv zeta. rewrite <- hstate_run. fold (losses c l (a_name a) evs).
    rewrite hstate_snoc in Ha. set (s := hstate c l evs) in *. destruct (hstate_inv c l evs) as [I _]. fold s in I.
    destruct (h_dead s) eqn:Hd; [rewrite hstep_dead_const in Ha by exact Hd; now apply IH|].
    (* the entry before *)
    assert (Hb : exists b, In b (h_adl s) /\ stat b = stat a).
    { destruct (hstep_inv e I) as [E _]. apply (in_map stat) in Ha. rewrite E in Ha. apply in_map_iff in Ha.
      destruct Ha as (b & Hb & Hb'). now exists b. }
    destruct Hb as (b & Hb & Est). assert (En : a_name b = a_name a) by (unfold stat in Est; congruence).
    destruct (hstep_entry e I Hd Hb) as (a' & Ha' & Est' & H).
    assert (a' = a).
    { destruct (hstep_inv e I) as [_ I']. apply (nodup_name (iv_nodup I') Ha' Ha). unfold stat in *. congruence. }
    subst a'. rewrite En in H. destruct (is_reply (a_name a) s e).
    + subst a. cbn. lia.
    + destruct (is_loss c (a_name a) s e).
      * assert (Hu := H). unfold on_loss in Hu. rewrite En, eqb_refl in Hu. cbv zeta in Hu.
        destruct (((a_touts b + 1) mod 2 ^ 32 <? hc_retry c) || negb (eqb (a_status b) SActive)) eqn:E.
        -- assert (Hbs : a_status b = SActive) by (rewrite Hu in Hs; exact Hs). rewrite Hbs, eqb_refl in E.
           cbn [negb] in E. rewrite orb_false_r in E. apply N.ltb_lt in E.
           destruct (IH b Hb Hbs) as [T1 T2]. rewrite En in T1, T2.
           assert (Em : (a_touts b + 1) mod 2 ^ 32 = a_touts b + 1) by (apply N.mod_small; lia).
           rewrite Em in E, Hu. split; [|lia]. transitivity (a_touts b + 1); [rewrite Hu; reflexivity|lia].
        -- exfalso. rewrite Hu in Hs. discriminate Hs.
      * destruct H as [H|(f & _ & _ & _ & H)]; [|exfalso; rewrite H in Hs; discriminate Hs].
        assert (Hbs : a_status b = SActive) by (destruct H as [H|(f & H)]; rewrite H in Hs; exact Hs).
        destruct (IH b Hb Hbs) as [T1 T2]. rewrite En in T1, T2.
        destruct H as [H|(f & H)]; rewrite H at 1; cbn [set_face a_touts]; auto.
Qed.
End C17.
Arguments hstep_entry {c s} e {a}.
Arguments active_count {c} l evs {a}.

(** C17 (down): an ACTIVE neighbour stops being ACTIVE only because the face it uses is destroyed, or
    because a hello to it is lost and it is at least the [hello-retries]-th loss since its last
    validated reply. *)
Theorem C17_down c l evs e n : 0 < hc_retry c < 2 ^ 32 ->
  active (hstate c l evs) n -> ~ active (hstate c l (evs ++ [e])) n ->
  (exists a f, entry (hstate c l evs) n a /\ a_face a = f /\ e = HvDestroyed f) \/
  (is_loss c n (hstate c l evs) e = true /\ hc_retry c <= losses c l n (evs ++ [e])).
Proof.
  intros Hr (a & [Ha <-] & Hs) Hna. rewrite hstate_snoc in Hna. destruct (hstate_inv c l evs) as [I _].
  destruct (active_count l evs Hr Ha Hs) as [T1 T2].
  set (s := hstate c l evs) in *. destruct (h_dead s) eqn:Hd.
  { exfalso. apply Hna. rewrite hstep_dead_const by exact Hd. exists a. repeat split; auto. }
  destruct (hstep_entry e I Hd Ha) as (b & Hb & Est & H).
  assert (En : a_name b = a_name a) by (unfold stat in Est; congruence).
  assert (Hbs : a_status b <> SActive) by (intros X; apply Hna; exists b; repeat split; auto).
  unfold losses. rewrite losses_from_snoc. cbv zeta. rewrite <- hstate_run. fold s. fold (losses c l (a_name a) evs). rewrite Hd.
  destruct (is_reply (a_name a) s e); [exfalso; apply Hbs; now rewrite H|].
  destruct (is_loss c (a_name a) s e) eqn:El.
  - right. split; [reflexivity|]. unfold on_loss in H. rewrite eqb_refl, Hs, eqb_refl in H. cbn [negb] in H.
    rewrite orb_false_r in H. cbv zeta in H. destruct ((a_touts a + 1) mod 2 ^ 32 <? hc_retry c) eqn:E.
    + exfalso. apply Hbs. rewrite H. exact Hs.
    + apply N.ltb_ge in E. rewrite N.mod_small in E by lia. lia.
  - left. destruct H as [[-> |(f & ->)]|(f & -> & Hf & _)]; [contradiction|contradiction|]. exists a, f. repeat split; auto.
Qed.

(** C17 (up to the limit): while a neighbour is ACTIVE, fewer than [hello-retries] hellos were lost since
    its last reply; so after that many losses it is not ACTIVE. *)
Theorem C17_limit c l evs n : 0 < hc_retry c < 2 ^ 32 ->
  active (hstate c l evs) n -> losses c l n evs < hc_retry c.
Proof. intros Hr (a & [Ha <-] & Hs). now apply active_count. Qed.

(** C17 (up): a validated reply makes the neighbour ACTIVE and clears its count. *)
Theorem C17_up c l evs e n : h_dead (hstate c l evs) = false -> known (hstate c l evs) n ->
  is_reply n (hstate c l evs) e = true ->
  exists a, entry (hstate c l (evs ++ [e])) n a /\ a_status a = SActive /\ a_touts a = 0.
Proof.
  intros Hd (a & Ha & <-) Hr. rewrite hstate_snoc. destruct (hstate_inv c l evs) as [I _].
  destruct (hstep_entry e I Hd Ha) as (b & Hb & Est & H). rewrite Hr in H. exists b. subst b. repeat split; auto.
Qed.

(** Other neighbours are not touched by replies and losses. *)
Theorem C17_local c l evs e n a : entry (hstate c l evs) n a -> is_reply n (hstate c l evs) e = false ->
  is_loss c n (hstate c l evs) e = false -> (forall f, e <> HvDestroyed f) ->
  exists b, entry (hstate c l (evs ++ [e])) n b /\ a_status b = a_status a /\ a_touts b = a_touts a.
Proof.
  intros [Ha <-] H1 H2 H3. rewrite hstate_snoc. destruct (hstate_inv c l evs) as [I _].
  destruct (h_dead (hstate c l evs)) eqn:Hd.
  { rewrite hstep_dead_const by exact Hd. exists a. repeat split; auto. }
  destruct (hstep_entry e I Hd Ha) as (b & Hb & Est & H). rewrite H1, H2 in H.
  exists b. split; [split; [exact Hb|unfold stat in Est; congruence]|].
  destruct H as [[-> |(f & ->)]|(f & Hf & _)]; [split; reflexivity|split; reflexivity|exfalso; now apply (H3 f)].
Qed.

(** A neighbour that comes up, loses two hellos and stays ACTIVE, then loses the third. *)
Example C17_ex : let c := hcX HOff in
  active (hstate c nbX upX) r2X /\ losses c nbX r2X upX = 2 /\ is_loss c r2X (hstate c nbX upX) (HvTimeout 6) = true /\
  get_status r2X (h_adl (hstate c nbX (upX ++ [HvTimeout 6]))) = SInactive /\
  losses c nbX r2X (upX ++ [HvTimeout 6]) = 3.
Proof.
  cbv zeta. split; [exists (Adj r2X u2X (of_int 10) SActive 2 300); split; [split; [vm_compute; left; reflexivity|reflexivity]|reflexivity]|].
  vm_compute. repeat split; reflexivity.
Qed.

(** ** C18 *)

Lemma decode_enc m : legal_name m -> fits (enc_name m) -> decode_neighbor (enc_name m) = Some m.
Proof.
  intros Hl Hf. unfold decode_neighbor, enc_name. pose proof (small_tlv Hf) as Hs.
  rewrite dec_block_tlv by (exact Hs || (unfold T_Name; lia)). rewrite N.eqb_refl. now apply dec_enc_name.
Qed.

Lemma from_end_last p x y : from_end 1 (p ++ [x; y]) = Some y /\ from_end 2 (p ++ [x; y]) = Some x.
Proof.
  split.
  - change [x; y] with ([x] ++ [y]). rewrite app_assoc, from_end_app by (cbn; lia). reflexivity.
  - rewrite from_end_app by (cbn; lia). reflexivity.
Qed.

(** C18 (Interest): a hello Interest from a router that is not a neighbour changes nothing and gets no
    answer; it is only counted. *)
Theorem C18_interest c l evs p (m : name) :
  let s := hstate c l evs in
  legal_name m -> fits (enc_name m) -> ~ known s m ->
  fst (hstep c s (HvInterest (p ++ [gen "INFO"%string; gen (enc_name m)]))) = s /\
  forall o, In o (snd (hstep c s (HvInterest (p ++ [gen "INFO"%string; gen (enc_name m)])))) -> o = HStat RcvHelloInt.
Proof.
  intros s Hl Hf Hk. unfold hstep. destruct (h_dead s); [split; [reflexivity|intros o []]|].
  destruct (prefix_of _ _); [|split; [reflexivity|intros o []]].
  unfold process_interest, hseq, hemit, info_at.
  destruct (from_end_last p (gen "INFO"%string) (gen (enc_name m))) as [E1 E2]. rewrite E1, E2, eqb_refl. cbn [negb].
  cbn [cval gen]. rewrite decode_enc by assumption. destruct (adl_find m (h_adl s)) as [a|] eqn:E.
  - exfalso. apply Hk. apply adl_find_some in E. now exists a.
  - split; [reflexivity|]. intros o [<- |[]]. reflexivity.
Qed.

(** C18 (reply): a validated Data that is not named as a reply from a neighbour changes no entry, causes
    nothing to be sent or scheduled, and is only counted. *)
Theorem C18_reply c l evs i d :
  let s := hstate c l evs in let s' := fst (hstep c s (HvData i d)) in
  (forall m, known s m -> names_reply m d = false) ->
  h_adl s' = h_adl s /\ h_loop s' = h_loop s /\ h_nack s' = h_nack s /\
  forall o, In o (snd (hstep c s (HvData i d))) -> o = HStat RcvHelloData.
Proof.
  intros s s' Hk. unfold s'. clear s'. destruct (hstate_inv c l evs) as [I _]. fold s in I. clearbody s.
  unfold hstep. destruct (h_dead s); [repeat split; intros o []|].
  destruct (get i (h_pend s)) as [p|] eqn:Ep; [|repeat split; intros o []].
  destruct (prefix_of p d) eqn:Epd; [|repeat split; intros o []].
  set (s0 := hw_pend (del i (h_pend s)) (h_next s) s).
  destruct (iv_pend I i _ (or_introl Ep)) as (m & Hm & ->).
  apply prefix_of_spec in Epd. destruct Epd as (r & Er).
  assert (Hlen : (4 <= length d)%nat).
  { rewrite Er. unfold hello_name. rewrite !app_length. cbn [length].
    destruct m as [|x m]; [exfalso; now apply (iv_nonempty I)|]. cbn [length]. lia. }
  unfold content_validated, hseq, hemit. destruct (info_at 3 d) eqn:Ei.
  2:{ repeat split. intros o [<- |[]]. reflexivity. }
  destruct (@reply_shape d Hlen Ei) as (x & y & z & Ed). set (n := drop_end 4 d) in *.
  assert (Hno : ~ In n (map a_name (h_adl s))).
  { intros H. apply in_map_iff in H. destruct H as (a & Ha & Hin). specialize (Hk n).
    assert (X : names_reply n d = true) by (apply names_reply_spec; eauto). rewrite Hk in X; [discriminate|now exists a]. }
  assert (X : forall g q, map a_name q = map a_name (h_adl s) -> adl_upd n g q = q).
  { intros g q Hq. unfold adl_upd. destruct (upd_first_split (fun a => eqb (a_name a) n) g q) as [[E _]|(l1 & a & l2 & E & Ha & _)]; [exact E|].
    exfalso. apply Hno. rewrite <- Hq. apply (proj1 (eqb_eq _ _)) in Ha. rewrite <- Ha. apply in_map. rewrite E. apply in_elt. }
  change (h_adl s0) with (h_adl s). unfold put_touts, put_status.
  rewrite (X (set_status SActive) (h_adl s) eq_refl), (X (set_touts 0) (h_adl s) eq_refl), eqb_refl.
  repeat split. intros o [<- |[]]. reflexivity.
Qed.

(** C18 (losses): the router never waits for an answer from a router that is not a neighbour, so no
    timeout or Nack concerns one. *)
Theorem C18_pending c l evs i p :
  let s := hstate c l evs in
  get i (h_pend s) = Some p \/ get i (h_nack s) = Some p -> exists n, known s n /\ p = hello_int (hc_self c) n.
Proof.
  intros s H. destruct (hstate_inv c l evs) as [I _]. destruct (iv_pend I i p H) as (n & Hn & ->).
  apply in_map_iff in Hn. destruct Hn as (a & Ha & Hin). exists n. split; [now exists a|reflexivity].
Qed.

(** C18 (registration): a successful prefix registration for anything but a neighbour starts nothing. *)
Theorem C18_registered c l evs m :
  let s := hstate c l evs in ~ known s m -> hstep c s (HvRegistered m) = (s, []).
Proof.
  intros s Hk. unfold hstep. destruct (h_dead s); [reflexivity|]. unfold send_hello.
  destruct (adl_find m (h_adl s)) as [a|] eqn:E; [|reflexivity]. exfalso. apply Hk. apply adl_find_some in E. now exists a.
Qed.

Definition strangerX : name := nm ["evil"; "r9"]%string.
Example C18_ex : let c := hcX HOff in let s := hstate c nbX upX in
  hstep c s (HvInterest (r1X ++ nm ["nlsr"; "INFO"]%string ++ [gen (enc_name strangerX)])) = (s, [HStat RcvHelloInt]) /\
  snd (hstep c s (HvInterest (r1X ++ nm ["nlsr"; "INFO"]%string ++ [gen (enc_name r2X)]))) =
    [HStat RcvHelloInt; HReply (r1X ++ nm ["nlsr"; "INFO"]%string ++ [gen (enc_name r2X)]); HStat SentHelloData] /\
  legal_name strangerX /\ fits (enc_name strangerX) /\
  (forall m, In m (map a_name (h_adl s)) -> names_reply m (hello_int r1X strangerX ++ [verX]) = false).
Proof.
  cbv zeta. split; [vm_compute; reflexivity|]. split; [vm_compute; reflexivity|].
  split; [intros x [<- |[<- |[]]]; split; reflexivity || (vm_compute; discriminate)|].
  split; [vm_compute; reflexivity|]. intros m Hm. vm_compute in Hm. destruct Hm as [<- |[<- |[]]]; vm_compute; reflexivity.
Qed.

(** ** C19 *)

Definition is_sched (o : hout) : bool := match o with HBuild | HRecalc => true | _ => false end.
Definition status_changed (s s' : hst) : Prop :=
  exists n, (active s n /\ ~ active s' n) \/ (~ active s n /\ active s' n).

Lemma active_same s s' : map (fun a => (a_name a, a_status a)) (h_adl s') = map (fun a => (a_name a, a_status a)) (h_adl s) ->
  ~ status_changed s s'.
Proof.
  intros E (n & H).
  assert (X : forall q q', map (fun a => (a_name a, a_status a)) (h_adl q') = map (fun a => (a_name a, a_status a)) (h_adl q) ->
    active q n -> active q' n).
  { intros q q' Eq (a & [Ha <-] & Hs). apply (in_map (fun a => (a_name a, a_status a))) in Ha. rewrite <- Eq in Ha.
    apply in_map_iff in Ha. destruct Ha as (b & Hb & Hin). injection Hb as Hb1 Hb2. exists b. repeat split; congruence || auto. }
  destruct H as [[H1 H2]|[H1 H2]]; [apply H2; now apply (X s)|apply H1; now apply (X s')].
Qed.

Lemma sched_recompute c : is_sched (recompute c) = true.
Proof. unfold recompute. now destruct (hc_hyp c). Qed.
Lemma changed_out c s : changed c s = (s, [recompute c]).
Proof. unfold changed, hemit, recompute. destruct (hc_hyp c); reflexivity. Qed.

Lemma send_hello_sched c n s : filter is_sched (snd (send_hello c n s)) = [].
Proof. unfold send_hello. destruct (adl_find n (h_adl s)) as [a|]; [|reflexivity]. now destruct (a_face a =? 0). Qed.
Lemma process_interest_sched c n s : filter is_sched (snd (process_interest c n s)) = [].
Proof.
  unfold process_interest, hseq, hemit. destruct (negb (info_at 2 n)); [reflexivity|].
  destruct (from_end 1 n) as [x|]; [|reflexivity]. destruct (decode_neighbor (cval x)) as [m|]; [|reflexivity].
  destruct (adl_find m (h_adl s)) as [a|]; [|reflexivity]. now destruct (_ && _).
Qed.

Lemma timed_out_sched c n s s0 : hinv c s -> h_adl s0 = h_adl s -> In n (map a_name (h_adl s)) ->
  let s' := fst (timed_out c (hello_name c n) s0) in let os := snd (timed_out c (hello_name c n) s0) in
  (status_changed s s' /\ filter is_sched os = [recompute c]) \/ (~ status_changed s s' /\ filter is_sched os = []).
Proof.
  intros I E0 Hn s' os. unfold s', os. clear s' os.
  assert (Hn0 : NoDup (map a_name (h_adl s0))) by (rewrite E0; apply I).
  assert (Hi0 : In n (map a_name (h_adl s0))) by (rewrite E0; exact Hn).
  pose proof (@timed_out_adl c n s0 Hn0 Hi0) as E. revert E. unfold timed_out. rewrite hello_info, hello_drop. cbn [negb].
  apply in_map_iff in Hn. destruct Hn as (a & Ha & Hin).
  assert (Ef : adl_find n (incr_touts n (h_adl s0)) = Some (set_touts ((a_touts a + 1) mod 2 ^ 32) a)).
  { unfold incr_touts. rewrite adl_find_upd, eqb_refl, E0 by reflexivity.
    rewrite (adl_find_in (iv_nodup I) Hin Ha). reflexivity. }
  unfold get_touts, get_status. rewrite Ef. cbn [set_touts a_touts a_status]. rewrite to_int32_mod by (apply N.mod_lt; lia).
  destruct ((a_touts a + 1) mod 2 ^ 32 <? hc_retry c) eqn:Et.
  - intros E. right. split; [|reflexivity]. apply active_same. rewrite E, E0, map_map. apply map_ext_in. intros b Hb.
    unfold on_loss. destruct (eqb (a_name b) n) eqn:En; [|reflexivity]. apply (proj1 (eqb_eq _ _)) in En.
    assert (b = a) by (apply (nodup_name (iv_nodup I) Hb Hin); congruence). subst b. cbv zeta. rewrite Et. reflexivity.
  - destruct (eqb (a_status a) SActive) eqn:Es; rewrite ?changed_out; intros E.
    + left. split; [|cbn [snd filter]; now rewrite sched_recompute]. exists n. left. apply (proj1 (eqb_eq _ _)) in Es.
      split; [exists a; repeat split; auto|]. intros (b & [Hb Hbn] & Hbs). rewrite E, E0 in Hb.
      apply in_map_iff in Hb. destruct Hb as (x & Hx & Hxin). assert (Hxn : a_name x = n).
      { pose proof (on_loss_stat c n x) as Q. unfold stat in Q. congruence. }
      assert (x = a) by (apply (nodup_name (iv_nodup I) Hxin Hin); congruence). subst x.
      unfold on_loss in Hx. rewrite Hxn, eqb_refl in Hx. cbv zeta in Hx. rewrite Et, Es, eqb_refl in Hx. cbn in Hx. subst b. discriminate Hbs.
    + right. split; [|reflexivity]. apply active_same. rewrite E, E0, map_map. apply map_ext_in. intros b Hb.
      unfold on_loss. destruct (eqb (a_name b) n) eqn:En; [|reflexivity]. apply (proj1 (eqb_eq _ _)) in En.
      assert (b = a) by (apply (nodup_name (iv_nodup I) Hb Hin); congruence). subst b. cbv zeta. rewrite Es, orb_true_r. reflexivity.
Qed.

(** C19: an event that changes whether some neighbour is ACTIVE schedules the recomputation, exactly
    once and of the kind the mode calls for; no other event schedules one. *)
Theorem C19_recompute c l evs e :
  let s := hstate c l evs in let s' := fst (hstep c s e) in let os := snd (hstep c s e) in
  (status_changed s s' /\ filter is_sched os = [recompute c]) \/ (~ status_changed s s' /\ filter is_sched os = []).
Proof.
  intros s s' os. unfold s', os. clear s' os. destruct (hstate_inv c l evs) as [I _]. fold s in I. clearbody s. clear l evs.
  assert (Same : forall s0, h_adl s0 = h_adl s -> ~ status_changed s s0) by (intros s0 E; apply active_same; now rewrite E).
  unfold hstep. destruct (h_dead s); [right; split; [now apply Same|reflexivity]|].
  destruct e as [n|t|i d|i|i|t|i|iname|f|f u|fs| | |u f].
  - right. split; [apply Same, send_hello_adl|apply send_hello_sched].
  - destruct (get t (h_loop s)) as [n|]; right; [|split; [now apply Same|reflexivity]].
    split; [apply Same; now rewrite (proj1 (send_hello_adl c n _))|apply send_hello_sched].
  - destruct (get i (h_pend s)) as [p|] eqn:Ep; [|right; split; [now apply Same|reflexivity]].
    destruct (prefix_of p d); [|right; split; [now apply Same|reflexivity]].
    set (s0 := hw_pend (del i (h_pend s)) (h_next s) s).
    pose proof (@validated_adl c d s0 (iv_nodup I)) as E. unfold content_validated, hseq, hemit in *.
    destruct (info_at 3 d); [|right; split; [now apply Same|reflexivity]].
    set (n := drop_end 4 d) in *.
    set (l' := put_touts n 0 (put_status n SActive (h_adl s0))) in *.
    assert (El : l' = map (on_reply n) (h_adl s)).
    { destruct (eqb (get_status n (h_adl s0)) (get_status n l')).
      - cbn [fst] in E. apply (f_equal h_adl) in E. exact E.
      - rewrite changed_out in E. pose proof (initial_data_st c n (hw_adl l' s0)) as Q.
        destruct (initial_data c n (hw_adl l' s0)) as [s2 o2]. cbn [fst] in *. rewrite Q in E. apply (f_equal h_adl) in E. exact E. }
    assert (Ha : h_adl (fst (let (s1, o1) := (if eqb (get_status n (h_adl s0)) (get_status n l') then (hw_adl l' s0, [])
       else let (s1, o1) := changed c (hw_adl l' s0) in let (s2, o2) := initial_data c n s1 in (s2, o1 ++ o2)) in
       (s1, o1 ++ [HStat RcvHelloData]))) = map (on_reply n) (h_adl s)).
    { destruct (eqb (get_status n (h_adl s0)) (get_status n l')); [exact El|]. rewrite changed_out.
      pose proof (initial_data_st c n (hw_adl l' s0)) as Q. destruct (initial_data c n (hw_adl l' s0)) as [s2 o2].
      cbn [fst] in *. rewrite Q. exact El. }
    assert (Ef : adl_find n l' = option_map (fun a => set_touts 0 (set_status SActive a)) (adl_find n (h_adl s))).
    { unfold l', put_touts, put_status. rewrite !adl_find_upd, !eqb_refl by reflexivity.
      change (h_adl s0) with (h_adl s). now destruct (adl_find n (h_adl s)). }
    assert (Hnew : get_status n l' = match adl_find n (h_adl s) with Some _ => SActive | None => SUnknown end).
    { unfold get_status. rewrite Ef. now destruct (adl_find n (h_adl s)). }
    destruct (adl_find n (h_adl s)) as [a|] eqn:Ea.
    + destruct (adl_find_some _ _ Ea) as [Hin Hna].
      destruct (eqb (get_status n (h_adl s0)) (get_status n l')) eqn:Eq.
      * right. split; [|reflexivity]. apply active_same. rewrite Ha, map_map. apply map_ext_in. intros b Hb.
        unfold on_reply. destruct (eqb (a_name b) n) eqn:En; [|reflexivity]. apply (proj1 (eqb_eq _ _)) in En.
        assert (b = a) by (apply (nodup_name (iv_nodup I) Hb Hin); congruence). subst b.
        apply (proj1 (eqb_eq _ _)) in Eq. rewrite Hnew in Eq. unfold get_status in Eq. change (h_adl s0) with (h_adl s) in Eq.
        rewrite Ea in Eq. cbn. now rewrite Eq.
      * apply (proj1 (eqb_neq _ _)) in Eq. rewrite Hnew in Eq. unfold get_status in Eq. change (h_adl s0) with (h_adl s) in Eq.
        rewrite Ea in Eq. left. split.
        -- exists n. right. split.
           ++ intros (b & [Hb Hbn] & Hbs). apply Eq. assert (b = a) by (apply (nodup_name (iv_nodup I) Hb Hin); congruence). now subst b.
           ++ eexists. split; [split; [rewrite Ha; apply in_map; exact Hin|]|].
              ** pose proof (on_reply_stat n a) as Q. unfold stat in Q. congruence.
              ** unfold on_reply. rewrite Hna, eqb_refl. reflexivity.
        -- rewrite changed_out. unfold initial_data. cbn [h_adl hw_adl]. rewrite Ef. cbn. now rewrite sched_recompute.
    + assert (Hold : get_status n (h_adl s0) = SUnknown).
      { unfold get_status. change (h_adl s0) with (h_adl s). now rewrite Ea. }
      rewrite Hnew, Hold, eqb_refl. right. split; [|reflexivity]. apply active_same. cbn [fst h_adl hw_adl]. rewrite El, map_map. apply map_ext_in. intros b Hb.
      unfold on_reply. destruct (eqb (a_name b) n) eqn:En; [|reflexivity]. apply (proj1 (eqb_eq _ _)) in En.
      apply adl_find_none in Ea. exfalso. apply Ea. rewrite <- En. now apply in_map.
  - right. split; [now apply Same|reflexivity].
  - destruct (get i (h_pend s)); right; (split; [now apply Same|reflexivity]).
  - destruct (get t (h_nack s)) as [p|] eqn:Ep; [|right; split; [now apply Same|reflexivity]].
    destruct (iv_pend I t _ (or_intror Ep)) as (n & Hn & ->). now apply timed_out_sched.
  - destruct (get i (h_pend s)) as [p|] eqn:Ep; [|right; split; [now apply Same|reflexivity]].
    destruct (iv_pend I i _ (or_introl Ep)) as (n & Hn & ->). now apply timed_out_sched.
  - destruct (prefix_of _ iname); right; [|split; [now apply Same|reflexivity]].
    split; [apply Same, process_interest_adl|apply process_interest_sched].
  - unfold face_destroyed. destruct (adl_find_face f (h_adl s)) as [x|] eqn:Ex; [|right; split; [now apply Same|reflexivity]].
    assert (Hx : exists l1 l2, h_adl s = l1 ++ x :: l2 /\ a_face x = f /\ forall g,
               upd_first (fun b => eqb (a_face b) f) g (h_adl s) = l1 ++ g x :: l2).
    { clear I Same. induction (h_adl s) as [|y l IH]; cbn [adl_find_face] in Ex; [discriminate|].
      destruct (eqb (a_face y) f) eqn:Ey.
      - injection Ex as ->. exists [], l. split; [reflexivity|]. split; [now apply (proj1 (eqb_eq _ _))|].
        intros g. cbn [upd_first]. now rewrite Ey.
      - destruct (IH Ex) as (l1 & l2 & E1 & E2 & E3). exists (y :: l1), l2. rewrite E1. split; [reflexivity|].
        split; [exact E2|]. intros g. cbn [upd_first]. rewrite Ey. rewrite <- E1, E3. reflexivity. }
    destruct Hx as (l1 & l2 & El & Ef & Hg). destruct (eqb (a_status x) SActive) eqn:Es.
    + rewrite changed_out. left. split; [|cbn [snd filter]; now rewrite sched_recompute].
      apply (proj1 (eqb_eq _ _)) in Es. exists (a_name x). left. split.
      * exists x. repeat split; auto. rewrite El. apply in_elt.
      * intros (b & [Hb Hbn] & Hbs). cbn [fst h_adl hw_adl] in Hb. rewrite Hg in Hb.
        pose proof (iv_nodup I) as Hnd. rewrite El, map_app in Hnd. cbn [map] in Hnd. apply NoDup_remove_2 in Hnd.
        rewrite <- map_app in Hnd. apply in_app_iff in Hb. destruct Hb as [Hb|[Hb|Hb]].
        -- apply Hnd. rewrite <- Hbn. apply in_map, in_app_iff. now left.
        -- subst b. discriminate Hbs.
        -- apply Hnd. rewrite <- Hbn. apply in_map, in_app_iff. now right.
    + right. split; [|reflexivity]. apply active_same. cbn [fst h_adl hw_adl]. apply upd_first_map. reflexivity.
  - unfold face_created. destruct (adl_find_uri u (h_adl s)) as [x|]; [|right; split; [now apply Same|reflexivity]].
    destruct (_ || _); right; [|split; [now apply Same|reflexivity]].
    split; [|reflexivity]. apply active_same. cbn [fst h_adl hw_adl]. apply upd_first_map. reflexivity.
  - unfold face_dataset. pose proof (match_all_adl c fs (h_adl s)) as E.
    assert (Eo : filter is_sched (snd (match_all c fs (h_adl s))) = []).
    { assert (X : forall q a, filter is_sched (snd (match_faces c q a)) = []).
      { induction q as [|[f u] q IHq]; intros a; cbn [match_faces]; [reflexivity|].
        destruct (_ && _); [|apply IHq]. specialize (IHq (set_face f a)). destruct (match_faces c q (set_face f a)). exact IHq. }
      clear E I Same. induction (h_adl s) as [|a q IH]; cbn [match_all]; [reflexivity|]. specialize (X fs a).
      destruct (match_faces c fs a) as [a' o]. destruct (match_all c fs q) as [r o']. cbn [snd] in *.
      rewrite filter_app, X, IH. reflexivity. }
    destruct (match_all c fs (h_adl s)) as [q o]. cbn [fst snd] in *. subst q. right. split; [|exact Eo].
    apply active_same. cbn [h_adl hw_adl hw_ds]. rewrite map_map. apply map_ext. intros a.
    destruct (match_faces_stat c fs a) as (Q1 & Q2 & _). unfold stat in Q1. congruence.
  - destruct (h_ds s); right; [|split; [now apply Same|reflexivity]].
    unfold dataset_failed. destruct (_ <? _); (split; [now apply Same|reflexivity]).
  - destruct (h_ds s); right; (split; [now apply Same|reflexivity]).
  - right. split; [|reflexivity]. apply active_same. cbn [fst h_adl hw_adl]. apply upd_first_map. reflexivity.
Qed.

Example C19_ex : filter is_sched (snd (hexec (hcX HOff) nbX (upX ++ [HvTimeout 6]))) = [HBuild; HBuild] /\
  filter is_sched (snd (hexec (hcX HOn) nbX (upX ++ [HvDestroyed 300]))) = [HRecalc; HRecalc].
Proof. vm_compute. split; reflexivity. Qed.

Print Assumptions C16_list.
Print Assumptions C16_running.
Print Assumptions C17_down.
Print Assumptions C17_limit.
Print Assumptions C17_up.
Print Assumptions C17_local.
Print Assumptions C18_interest.
Print Assumptions C18_reply.
Print Assumptions C18_pending.
Print Assumptions C18_registered.
Print Assumptions C19_recompute.

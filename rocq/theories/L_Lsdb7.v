(** Fetching: which names are fetched, highest known numbers, deadlines; and which events end the
    process. *)
From Verif Require Import Base M_Nexthop M_Tlv M_Adj M_Lsa M_Lsdb L_Lsdb S_Lsdb L_Lsdb2.
Open Scope Z_scope.
Set Implicit Arguments.

(** ** Names *)

Lemma back1_snoc u x : back 1 (u ++ [x]) = Some x.
Proof. unfold back. rewrite rev_app_distr. reflexivity. Qed.
Lemma back2_snoc u x : back 2 (u ++ [x]) = back 1 u.
Proof. unfold back. rewrite rev_app_distr. reflexivity. Qed.
Lemma drop_last_app (u v : name) : drop_last (length v) (u ++ v) = u.
Proof.
  unfold drop_last. rewrite app_length, Nat.add_sub, firstn_app, Nat.sub_diag, firstn_O, app_nil_r.
  apply firstn_all.
Qed.
Lemma drop_last_snoc (u : name) x : drop_last 1 (u ++ [x]) = u.
Proof. apply (drop_last_app u [x]). Qed.
Lemma back1_Some u : u <> [] -> exists x, back 1 u = Some x.
Proof.
  intros H. destruct (exists_last H) as (v & x & ->). exists x. apply back1_snoc.
Qed.
Lemma to_number_comp q : (q < 2 ^ 64)%N -> to_number (number_comp q) = Some q.
Proof. intros H. unfold to_number, number_comp. cbn [cval gen]. now apply nni_dec_enc. Qed.

(** ** Actions that have nothing to do with fetching *)

Definition is_express (x : nat * timer) : bool :=
  match t_act (snd x) with AExpress _ _ _ => true | _ => false end.
Definition exp (s : st) : list (nat * timer) := filter is_express (s_timers s).

Record subF (s s' : st) : Prop := SubF
  { sF_fetch : s_fetch s' = s_fetch s; sF_high : s_high s' = s_high s; sF_fifo : s_fifo s' = s_fifo s;
    sF_now : s_now s' = s_now s; sF_dead : s_dead s' = s_dead s;
    sF_in : forall x, In x (exp s') -> In x (exp s);
    sF_len : (length (exp s') <= length (exp s))%nat }.

Definition calm (o : out) : bool :=
  match o with OFetch _ _ | OThrow | OUb | OData _ _ _ => false | _ => true end.

Definition quietF (a : act) : Prop := forall s, subF s (fst (a s)) /\ forallb calm (snd (a s)) = true.

Lemma subF_refl s : subF s s. Proof. constructor; auto. Qed.
Lemma subF_trans a b c : subF a b -> subF b c -> subF a c.
Proof. intros [] []. constructor; try congruence; [auto|lia]. Qed.

Lemma quietF_andthen f g : quietF f -> quietF g -> quietF (f ;; g).
Proof.
  intros Hf Hg s. rewrite andthen_fst, andthen_snd, forallb_app. destruct (Hf s) as [A ->].
  destruct (Hg (fst (f s))) as [B ->]. split; [eapply subF_trans; eassumption|reflexivity].
Qed.
Lemma quietF_ret : quietF ret. Proof. intros s. split; [apply subF_refl|reflexivity]. Qed.
Lemma quietF_emit o : calm o = true -> quietF (emit o).
Proof. intros H s. split; [apply subF_refl|]. simpl. now rewrite H. Qed.

Lemma filter_set_len p (k : nat) (v : timer) m : p (k, v) = false ->
  (length (filter p (set k v m)) <= length (filter p m))%nat /\
  forall x, In x (filter p (set k v m)) -> In x (filter p m).
Proof.
  intros Hp. induction m as [|[k' v'] m [IH1 IH2]].
  - cbn. rewrite Hp. auto.
  - cbn [set]. destruct (eqb k k') eqn:E.
    + cbn [filter]. rewrite Hp. destruct (p (k', v')); cbn [length]; split; auto. intros x Hx. now right.
    + cbn [filter]. destruct (p (k', v')); cbn [length]; split; auto; [lia|].
      intros x [Hx|Hx]; [now left|right; auto].
Qed.
Lemma filter_del_len p (k : nat) (m : amap nat timer) :
  (length (filter p (del k m)) <= length (filter p m))%nat /\
  forall x, In x (filter p (del k m)) -> In x (filter p m).
Proof.
  induction m as [|[k' v'] m [IH1 IH2]]; [auto|]. cbn [del]. destruct (eqb k k') eqn:E; cbn [filter].
  - destruct (p (k', v')); cbn [length]; split; auto. intros x Hx. now right; apply IH2.
  - destruct (p (k', v')); cbn [length]; split; auto; [lia|]. intros x [Hx|Hx]; [now left|right; auto].
Qed.

Lemma subF_schedule d a s : (forall i n q, a <> AExpress i n q) -> subF s (fst (schedule d a s)).
Proof.
  intros Ha. unfold schedule. cbn [fst].
  destruct (@filter_set_len is_express (s_ntid s) (Timer (s_now s + d) a) (s_timers s)) as [L I].
  { unfold is_express. cbn. destruct a; try reflexivity. now destruct (Ha iname count deadline). }
  constructor; auto.
Qed.
Lemma subF_cancel t s : subF s (cancel t s).
Proof.
  unfold cancel. destruct t as [i|]; [|apply subF_refl].
  destruct (filter_del_len is_express i (s_timers s)) as [L I]. constructor; auto.
Qed.
Lemma subF_heap v n s : subF s (w_heap v n s). Proof. constructor; auto. Qed.
Lemma subF_store v s : subF s (w_store v s). Proof. constructor; auto. Qed.
Lemma subF_seqs v s : subF s (w_seqs v s). Proof. constructor; auto. Qed.
Lemma subF_build b n t s : subF s (w_build b n t s). Proof. constructor; auto. Qed.
Lemma subF_sto v s : subF s (w_sto v s). Proof. constructor; auto. Qed.

Lemma subF_schedule_expiration oid secs s : subF s (schedule_expiration oid secs s).
Proof.
  unfold schedule_expiration.
  pose proof (@subF_schedule ((secs + GRACE_PERIOD) * SEC) (AExpire oid) s ltac:(discriminate)) as H.
  destruct (schedule _ _ s) as [s1 t]. cbn [fst] in H.
  destruct (get oid (s_heap s1)) as [o|]; [|exact H].
  eapply subF_trans; [exact H|]. eapply subF_trans; [apply subF_cancel|apply subF_heap].
Qed.

Lemma subF_schedule_build d s : subF s (schedule_build d s).
Proof.
  unfold schedule_build. pose proof (@subF_schedule d ABuild s ltac:(discriminate)) as H.
  destruct (schedule _ _ s) as [s1 t]. cbn [fst] in H.
  eapply subF_trans; [exact H|]. eapply subF_trans; [apply subF_cancel|apply subF_build].
Qed.

Lemma quietF_install c sys l : quietF (install c sys l).
Proof.
  intros s. unfold install. destruct (find_oid (l_key l) s) as [oid|].
  - destruct (get oid (s_heap s)) as [o|]; [|split; [apply subF_refl|reflexivity]].
    destruct (_ <? _)%N; [|split; [apply subF_refl|reflexivity]].
    destruct (update_body _ _) as [[[u b] ad] rm]. cbn [fst snd]. split; [|now destruct u].
    eapply subF_trans; [apply subF_heap|apply subF_schedule_expiration].
  - cbn [fst snd]. split; [|reflexivity].
    eapply subF_trans; [apply subF_heap|]. eapply subF_trans; [apply subF_store|apply subF_schedule_expiration].
Qed.
Lemma quietF_remove k : quietF (remove k).
Proof. intros s. unfold remove. destruct (find_lsa k s); (split; [apply subF_refl || apply subF_store|reflexivity]). Qed.
Lemma quietF_bump t : quietF (bump t).
Proof. intros s. split; [apply subF_seqs|reflexivity]. Qed.
Lemma quietF_setseq t q : quietF (upd (fun s => w_seqs (seq_set t q (s_seqs s)) s)).
Proof. intros s. split; [apply subF_seqs|reflexivity]. Qed.
Lemma quietF_write : quietF write_seqs. Proof. intros s. split; [apply subF_refl|reflexivity]. Qed.
Lemma quietF_publish t : quietF (publish t). Proof. intros s. split; [apply subF_refl|reflexivity]. Qed.

Lemma quietF_app (f : st -> act) : (forall x, quietF (f x)) -> quietF (fun s => f s s).
Proof. intros H s. apply H. Qed.

Lemma quietF_build_name c e : quietF (build_name c e).
Proof.
  unfold build_name. apply quietF_app with (f := fun x => _). intros x.
  repeat apply quietF_andthen; auto using quietF_bump, quietF_write, quietF_publish, quietF_install.
Qed.
Lemma quietF_build_coord c e : quietF (build_coord c e).
Proof.
  unfold build_coord. apply quietF_app with (f := fun x => _). intros x.
  repeat apply quietF_andthen; auto using quietF_bump, quietF_write, quietF_install.
  destruct (eqb _ _); auto using quietF_ret, quietF_publish.
Qed.
Lemma quietF_build_own_adj c e : quietF (build_own_adj c e).
Proof.
  unfold build_own_adj. apply quietF_app with (f := fun x => _). intros x.
  repeat apply quietF_andthen; auto using quietF_bump, quietF_write, quietF_install.
  destruct (eqb _ _); auto using quietF_ret, quietF_publish.
Qed.
Lemma quietF_schedule_adj_build c : quietF (schedule_adj_build c).
Proof.
  intros s. unfold schedule_adj_build. destruct (eqb _ _); (split; [|reflexivity]); cbn [fst].
  - apply subF_build.
  - eapply subF_trans; [apply subF_build|apply subF_schedule_build].
Qed.
Lemma quietF_build_adj c e : quietF (build_adj c e).
Proof.
  intros s. unfold build_adj. destruct (is_buildable _ _).
  - destruct (0 <? _).
    + assert (H : forall n, quietF ((if Nat.ltb 0 (num_active (e_adl e)) then build_own_adj c e else remove (c_self c, TAdj)) ;;
         upd (fun s => w_build (s_sched s) (s_count s - n) (s_btid s) s))).
      { intros n. apply quietF_andthen.
        - destruct (Nat.ltb _ _); [apply quietF_build_own_adj|apply quietF_remove].
        - intros s'. split; [apply subF_build|reflexivity]. }
      match goal with |- context [andthen _ (upd (fun s => w_build _ (s_count s - ?n) _ s)) ?s1] =>
        destruct (H n s1) as [A B] end.
      split; [|exact B]. eapply subF_trans; [apply subF_build|exact A].
    + split; [apply subF_build|reflexivity].
  - split; [|reflexivity]. cbn [fst]. eapply subF_trans; [apply subF_build|apply subF_schedule_build].
Qed.
Lemma quietF_expire c sys oid : quietF (expire_or_refresh c sys oid).
Proof.
  intros s. unfold expire_or_refresh.
  destruct (get oid (s_heap s)) as [o|]; [|split; [apply subF_refl|reflexivity]].
  destruct (find_oid _ s) as [oid'|]; [|split; [apply subF_refl|reflexivity]].
  destruct (get oid' (s_heap s)) as [o'|]; [|split; [apply subF_refl|reflexivity]].
  destruct (_ =? _)%N; [|split; [apply subF_refl|reflexivity]].
  destruct (eqb _ _); [|apply quietF_remove].
  rewrite andthen_fst, andthen_snd. split; [|reflexivity]. cbn [write_seqs publish fst].
  eapply subF_trans; [|apply subF_schedule_expiration].
  eapply subF_trans; [apply subF_heap|apply subF_seqs].
Qed.
Lemma quietF_segment fid n d : quietF (segment_validated fid n d).
Proof.
  intros s. unfold segment_validated. destruct (get fid (s_fetch s)); [|split; [apply subF_refl|reflexivity]].
  rewrite andthen_fst, andthen_snd. split; [|reflexivity]. cbn [emit upd fst].
  eapply subF_trans; [apply subF_sto|]. now apply subF_schedule.
Qed.

(** ** The invariant *)

(** LSA names this router asks for: reported by sync for another router. *)
Definition okname (c : conf) (u : name) : Prop :=
  u <> [] /\ exists o, update_origin u = Some o /\ o <> c_self c.

Definition okreq (c : conf) (s : st) (i : name) (d : Z) : Prop :=
  exists (u : name) q, i = u ++ [number_comp q] /\ (q < 2 ^ 64)%N /\ okname c u /\
    (exists h, get u (s_high s) = Some h /\ (q <= h)%N) /\ d <= s_now s + LSA_REFRESH_TIME_MAX * SEC.

Record invF (c : conf) (s : st) (o : list out) : Prop := InvF
  { iF_order : forall n, nondecreasing (fetched n o);
    iF_high : forall n q, In q (fetched n o) -> exists h, get n (s_high s) = Some h /\ (q <= h)%N;
    iF_fetch : forall fid f, get fid (s_fetch s) = Some f -> okreq c s (f_iname f) (f_deadline f);
    iF_exp : forall tid due i n d, In (tid, Timer due (AExpress i n d)) (exp s) -> okreq c s i d;
    iF_out : forall i face, In (OFetch i face) o ->
      exists (u : name) q, i = u ++ [number_comp q] /\ (q < 2 ^ 64)%N /\ okname c u;
    iF_known : forall n h, get n (s_high s) = Some h -> In h (fetched n o) }.

Lemma fetched_app n a b : fetched n (a ++ b) = fetched n a ++ fetched n b.
Proof.
  induction a as [|x a IH]; [reflexivity|]. cbn [app]. destruct x; cbn [fetched]; try exact IH.
  destruct (back 1 iname); [|exact IH]. destruct (to_number c); [|exact IH].
  destruct (eqb _ _); [simpl; f_equal|]; exact IH.
Qed.
Lemma fetched_calm n o : forallb calm o = true -> fetched n o = [].
Proof.
  induction o as [|x o IH]; [reflexivity|]. cbn [forallb]. rewrite andb_true_iff. intros [A B].
  destruct x; cbn [fetched]; try discriminate; auto.
Qed.
Lemma calm_no_fetch i face o : forallb calm o = true -> ~ In (OFetch i face) o.
Proof. intros H Hin. rewrite forallb_forall in H. now apply H in Hin. Qed.

Lemma okreq_mono c s s' i d : s_now s <= s_now s' ->
  (forall n h, get n (s_high s) = Some h -> exists h', get n (s_high s') = Some h' /\ (h <= h')%N) ->
  okreq c s i d -> okreq c s' i d.
Proof.
  intros Hn Hh (u & q & E & Hq & Hu & (h & Hg & Hl) & Hd). exists u, q. repeat split; trivial; try apply Hu.
  - destruct (Hh _ _ Hg) as (h' & Hg' & Hl'). exists h'. split; [exact Hg'|lia].
  - lia.
Qed.

Lemma invF_sub c s s' o o' : subF s s' -> forallb calm o' = true -> invF c s o -> invF c s' (o ++ o').
Proof.
  intros [] Hc [A B C D E K].
  assert (M : forall i d, okreq c s i d -> okreq c s' i d).
  { intros i d. apply okreq_mono; [lia|]. rewrite sF_high0. intros n h H. exists h. split; [exact H|lia]. }
  constructor.
  - intros n. rewrite fetched_app, (fetched_calm n _ Hc), app_nil_r. apply A.
  - intros n q. rewrite fetched_app, (fetched_calm n _ Hc), app_nil_r, sF_high0. apply B.
  - rewrite sF_fetch0. eauto.
  - eauto.
  - intros i face H. apply in_app_iff in H. destruct H as [H|H]; [eauto|].
    now apply calm_no_fetch in H.
  - intros n h. rewrite sF_high0, fetched_app, in_app_iff. auto.
Qed.

Lemma nondecreasing_snoc l x : nondecreasing l -> (forall y, In y l -> (y <= x)%N) -> nondecreasing (l ++ [x]).
Proof.
  induction l as [|a l IH]; cbn [app nondecreasing]; [intros _ _; split; [intros y []|exact I]|].
  intros [H1 H2] Hx. split.
  - intros y Hy. apply in_app_iff in Hy. destruct Hy as [Hy|[<-|[]]]; [auto|]. apply Hx. now left.
  - apply IH; [exact H2|]. intros y Hy. apply Hx. now right.
Qed.

Lemma note_high_spec n q s s1 : note_high n q s = Some s1 ->
  s1 = w_high (s_high s1) s /\ get n (s_high s1) = Some q /\
  (forall h, get n (s_high s) = Some h -> (h <= q)%N) /\
  (forall m h, get m (s_high s) = Some h -> exists h', get m (s_high s1) = Some h' /\ (h <= h')%N).
Proof.
  assert (W : forall h, (forall h', get n (s_high s) = Some h' -> (h' <= h)%N) ->
    forall m h1, get m (s_high s) = Some h1 ->
    exists h', get m (s_high (w_high (set n h (s_high s)) s)) = Some h' /\ (h1 <= h')%N).
  { intros h Hh m h1 H. cbn [s_high w_high]. rewrite get_set. eqb_case m n; [exists h|exists h1]; split; auto; lia. }
  unfold note_high. destruct (get n (s_high s)) as [h|] eqn:E.
  - destruct (N.ltb_spec h q).
    + intros X. injection X as <-. split; [reflexivity|]. split; [apply get_set_eq|].
      split; [intros h' Eh; injection Eh as <-; lia|]. apply W. intros h' Eh. injection Eh as <-. lia.
    + destruct (N.ltb_spec q h); [discriminate|]. intros X. injection X as <-.
      assert (h = q) by lia. subst h. split; [destruct s; reflexivity|]. split; [exact E|].
      split; [intros h' Eh; injection Eh as <-; lia|]. intros m h1 Hm. exists h1. split; [exact Hm|lia].
  - intros X. injection X as <-. split; [reflexivity|]. split; [apply get_set_eq|].
    split; [discriminate|]. apply W. discriminate.
Qed.

Lemma note_high_other n q s s1 m : note_high n q s = Some s1 -> m <> n -> get m (s_high s1) = get m (s_high s).
Proof.
  unfold note_high. intros H N. destruct (get n (s_high s)) as [h|].
  - destruct (h <? q)%N; [|destruct (q <? h)%N; [discriminate|]]; injection H as <-; [|reflexivity].
    cbn [s_high w_high]. now apply get_set_ne.
  - injection H as <-. cbn [s_high w_high]. now apply get_set_ne.
Qed.
Lemma note_high_kept n q s s1 h : note_high n q s = Some s1 -> get n (s_high s) = Some h -> (q <= h)%N -> s1 = s.
Proof.
  unfold note_high. intros H G L. rewrite G in H. destruct (N.ltb_spec h q); [lia|]. destruct (q <? h)%N; [discriminate|].
  now injection H as <-.
Qed.

Definition alive (o : list out) : Prop := forall x, In x o -> x <> OThrow /\ x <> OUb.

Lemma calm_alive o : forallb calm o = true -> alive o.
Proof. intros H x Hx. rewrite forallb_forall in H. apply H in Hx. destruct x; split; discriminate. Qed.

(** [express] for an acceptable name. *)
Lemma invF_express c s o u q n face dl :
  invF c s o -> okname c u -> (q < 2 ^ 64)%N ->
  (forall d, dl = Some d -> d <= s_now s + LSA_REFRESH_TIME_MAX * SEC) ->
  let r := express (u ++ [number_comp q]) n face dl s in
  invF c (fst r) (o ++ snd r) /\ alive (snd r) /\ s_dead (fst r) = s_dead s /\
  s_fifo (fst r) = s_fifo s /\ s_timers (fst r) = s_timers s /\ s_now (fst r) = s_now s /\
  (length (filter is_fetch (snd r)) <= 1)%nat /\
  (forall x l k, ~ In (OData x l k) (snd r)).
Proof.
  intros [A B C D E K] Hu Hq Hd r. unfold r, express. clear r.
  rewrite drop_last_snoc, back1_snoc, (to_number_comp Hq), back2_snoc.
  destruct (note_high u q s) as [s1|] eqn:En.
  - destruct (note_high_spec _ _ _ En) as (E1 & E2 & E3 & E4).
    destruct (back1_Some (proj1 Hu)) as [ct Hct]. rewrite Hct.
    set (d := match dl with Some d => d | None => _ end).
    assert (Hdd : d <= s_now s + LSA_REFRESH_TIME_MAX * SEC) by (unfold d; destruct dl; [auto|lia]).
    assert (N1 : s_now s1 = s_now s) by (rewrite E1; reflexivity).
    assert (T1 : s_timers s1 = s_timers s) by (rewrite E1; reflexivity).
    assert (F1 : s_fetch s1 = s_fetch s) by (rewrite E1; reflexivity).
    assert (Ef : s_fifo s1 = s_fifo s) by (rewrite E1; reflexivity).
    assert (D1 : s_dead s1 = s_dead s) by (rewrite E1; reflexivity).
    set (s2 := w_fetch (set (s_nfid s1) (Fetch (u ++ [number_comp q]) n d) (s_fetch s1)) (S (s_nfid s1)) s1).
    set (R := (_ ;; _) s1).
    assert (Rf : fst R = s2).
    { unfold R. rewrite !andthen_fst. unfold stat_type. destruct (comp_type ct); reflexivity. }
    assert (Rs : exists tl, snd R = [OStat SentInt; OFetch (u ++ [number_comp q]) face] ++ tl /\
                 forallb calm tl = true /\ (forall x l k, ~ In (OData x l k) tl)).
    { unfold R. rewrite !andthen_snd. unfold stat_type. destruct (comp_type ct); cbn;
        eexists; (split; [reflexivity|]); (split; [reflexivity|]); intros x y k Hx;
        [destruct Hx as [Hx|[]]; discriminate|destruct Hx]. }
    destruct Rs as (tl & Rs & Hc & Hnd). rewrite Rf, Rs. clearbody R.
    assert (M : forall i d, okreq c s i d -> okreq c s2 i d).
    { intros i d'. apply okreq_mono; [unfold s2; cbn [s_now w_fetch]; lia|exact E4]. }
    split; [constructor|].
    + intros m. rewrite !fetched_app. rewrite (fetched_calm m tl Hc), app_nil_r.
      cbn [fetched]. rewrite back1_snoc, (to_number_comp Hq), drop_last_snoc.
      eqb_case u m; [|rewrite app_nil_r; apply A]. apply nondecreasing_snoc; [apply A|].
      intros y Hy. destruct (B _ _ Hy) as (h & Hh & Hl). specialize (E3 _ Hh). lia.
    + intros m y. rewrite !fetched_app. rewrite (fetched_calm m tl Hc), app_nil_r.
      cbn [fetched]. rewrite back1_snoc, (to_number_comp Hq), drop_last_snoc. intros Hy.
      apply in_app_iff in Hy. destruct Hy as [Hy|Hy].
      * destruct (B _ _ Hy) as (h & Hh & Hl). destruct (E4 _ _ Hh) as (h' & Hh' & Hl').
        exists h'. split; [exact Hh'|lia].
      * eqb_case u m; [|destruct Hy]. destruct Hy as [<-|[]]. exists q. split; [exact E2|lia].
    + intros fid f. unfold s2. cbn [s_fetch w_fetch]. rewrite get_set. destruct (eqb fid _).
      * intros X. injection X as <-. cbn [f_iname f_deadline]. exists u, q. repeat split; try apply Hu; trivial.
        -- exists q. split; [exact E2|lia].
        -- cbn [s_now w_fetch]. lia.
      * rewrite F1. intros X. apply M. eauto.
    + intros tid due i n' d'. unfold s2, exp. cbn [s_timers w_fetch]. rewrite T1. intros X. apply M. eauto.
    + intros i fc X. rewrite !in_app_iff in X. destruct X as [X|[X|X]]; [eauto| |].
      * destruct X as [X|[X|[]]]; [discriminate|]. injection X as <- <-. exists u, q. auto.
      * now apply calm_no_fetch in X.
    + intros m h. unfold s2. cbn [s_high w_fetch]. rewrite !fetched_app, !in_app_iff.
      cbn [fetched]. rewrite back1_snoc, (to_number_comp Hq), drop_last_snoc.
      destruct (eq_dec m u) as [->|Nm].
      * rewrite E2. intros X. injection X as <-. rewrite eqb_refl. right. left. now left.
      * rewrite (@note_high_other _ _ _ _ _ En Nm). intros X. left. now apply K.
    + split.
      { intros x Hx. apply in_app_iff in Hx. destruct Hx as [[<-|[<-|[]]]|Hx]; try (split; discriminate).
        exact (calm_alive _ Hc _ Hx). }
      unfold s2. cbn [s_dead s_fifo s_timers s_now w_fetch]. rewrite D1, Ef, T1, N1. repeat split; auto.
      * cbn [app filter is_fetch length].
        assert (filter is_fetch tl = []) as ->; [|auto]. clear - Hc. induction tl as [|x tl IH]; [reflexivity|].
        cbn [forallb] in Hc. apply andb_true_iff in Hc. destruct Hc as [H1 H2]. cbn [filter].
        destruct x; try discriminate; cbn [is_fetch]; auto.
      * intros x l k Hx. apply in_app_iff in Hx. destruct Hx as [[Hx|[Hx|[]]]|Hx]; try discriminate. eapply Hnd; eassumption.
  - cbn [fst snd]. split; [apply (@invF_sub c s s); [apply subF_refl|reflexivity|now constructor]|].
    split; [now apply calm_alive|]. repeat split; auto. intros x l k [Hx|[]]; discriminate.
Qed.

Lemma after_fetch_cases c sys u q content s : u <> [] -> (q < 2 ^ 64)%N ->
  let r := after_fetch c sys (u ++ [number_comp q]) content s in
  (note_high u q s = None /\ r = (s, [OStat RcvData])) \/
  exists s1, note_high u q s = Some s1 /\ subF s1 (fst r) /\ forallb calm (snd r) = true.
Proof.
  intros Hu Hq r. unfold r, after_fetch. clear r.
  rewrite drop_last_snoc, back1_snoc, (to_number_comp Hq), back2_snoc.
  destruct (note_high u q s) as [s1|]; [|now left]. right. exists s1. split; [reflexivity|].
  destruct (back1_Some Hu) as [ct Hct]. rewrite Hct.
  assert (Q : forall a, quietF a -> subF s1 (fst (a s1)) /\ forallb calm (snd (a s1)) = true) by (intros a Ha; apply Ha).
  apply Q. apply quietF_andthen; [now apply quietF_emit|].
  destruct (name_origin _ _) as [origin|]; [|apply quietF_ret].
  destruct (comp_type ct) as [t|]; [|apply quietF_ret].
  apply quietF_andthen; [now apply quietF_emit|].
  intros s'. destruct (is_new _ _ _ _); [|split; [apply subF_refl|reflexivity]].
  destruct content as [l|]; [|split; [apply subF_refl|reflexivity]].
  destruct (eqb _ _); [apply quietF_install|split; [apply subF_refl|reflexivity]].
Qed.

Lemma invF_del_fetch c s o fid : invF c s o -> invF c (w_fetch (del fid (s_fetch s)) (s_nfid s) s) o.
Proof.
  intros [A B C D E K]. constructor; auto.
  intros i f. cbn [s_fetch w_fetch]. rewrite get_del. destruct (eqb i fid); [discriminate|]. apply C.
Qed.

(** What matters for [C59]: the process survives and keeps its FIFO. *)
Definition survives (s : st) (r : st * list out) : Prop :=
  s_dead (fst r) = s_dead s /\ s_fifo (fst r) = s_fifo s /\ alive (snd r) /\
  forall x l k, ~ In (OData x l k) (snd r).

Lemma calm_data o x l k : forallb calm o = true -> ~ In (OData x l k) o.
Proof. intros H Hin. rewrite forallb_forall in H. now apply H in Hin. Qed.
Lemma survives_calm s s' o : subF s s' -> forallb calm o = true -> survives s (s', o).
Proof.
  intros [] H. repeat split; cbn [fst snd]; trivial; try (apply (calm_alive _ H); assumption).
  intros. now apply calm_data.
Qed.

Lemma invF_fetch_done c s o sys fid content : invF c s o ->
  let r := fetch_done c sys fid content s in
  invF c (fst r) (o ++ snd r) /\ survives s r /\ s_now (fst r) = s_now s /\
  forallb calm (snd r) = true /\
  (forall x, In x (exp (fst r)) -> In x (exp s)) /\ (length (exp (fst r)) <= length (exp s))%nat /\
  (forall i f, get i (s_fetch (fst r)) = Some f -> get i (s_fetch s) = Some f).
Proof.
  intros H r. unfold r, fetch_done, survives. clear r.
  destruct (get fid (s_fetch s)) as [f|] eqn:Ef.
  2: { cbn [fst snd]. rewrite app_nil_r. split; [exact H|]. split; [apply (@survives_calm s s []); [apply subF_refl|reflexivity]|]. auto. }
  destruct (iF_fetch H _ Ef) as (u & q & Ei & Hq & Hu & (h & Hh & Lh) & _). cbv zeta.
  rewrite Ei. rewrite drop_last_snoc, back1_snoc, (to_number_comp Hq).
  rewrite !andthen_fst, !andthen_snd. cbn [upd fst snd app]. rewrite app_nil_r.
  set (s0 := w_sto _ s).
  assert (S0 : subF s s0) by apply subF_sto.
  pose proof (@invF_sub c s s0 o [] S0 eq_refl H) as H0. rewrite app_nil_r in H0.
  destruct (@after_fetch_cases c sys u q content s0 (proj1 Hu) Hq) as [[En Er]|(s1 & En & Sr & Cr)].
  - rewrite Er. cbn [fst snd].
    split; [apply invF_del_fetch; apply (@invF_sub c s0 s0); [apply subF_refl|reflexivity|exact H0]|].
    split; [split; [reflexivity|]; split; [reflexivity|]; split; [now apply calm_alive|intros x l k; now apply calm_data]|].
    repeat split; auto. intros i g. cbn [s_fetch w_fetch s0 w_sto]. rewrite get_del. destruct (eqb i fid); [discriminate|auto].
  - destruct (note_high_spec _ _ _ En) as (E1 & _).
    assert (H1 : invF c s1 o) by (rewrite (@note_high_kept _ _ _ _ _ En Hh Lh); exact H0).
    destruct (after_fetch c sys (u ++ [number_comp q]) content s0) as [s2 o2]. cbn [fst snd] in *.
    split; [apply invF_del_fetch; exact (@invF_sub c s1 s2 o o2 Sr Cr H1)|].
    destruct Sr. assert (X1 : exp s1 = exp s) by (unfold exp; rewrite E1; reflexivity).
    split; [|].
    + split; [cbn [fst snd s_dead w_fetch]; rewrite sF_dead0, E1; reflexivity|].
      split; [cbn [fst snd s_fifo w_fetch]; rewrite sF_fifo0, E1; reflexivity|].
      split; [now apply calm_alive|]. intros x l k. cbn [snd]. now apply calm_data.
    + split; [cbn [s_now w_fetch]; rewrite sF_now0, E1; reflexivity|].
      split; [exact Cr|].
      split; [intros x Hx; rewrite <- X1; apply sF_in0; exact Hx|].
      split; [change (length (exp s2) <= length (exp s))%nat; rewrite <- X1; exact sF_len0|].
      intros i g. cbn [s_fetch w_fetch]. rewrite get_del. destruct (eqb i fid); [discriminate|].
      rewrite sF_fetch0, E1. auto.
Qed.

Lemma in_set_timer (x : nat * timer) k v m : In x (set k v m) -> x = (k, v) \/ In x m.
Proof.
  induction m as [|[k' v'] m IH]; cbn [set].
  - intros [<-|[]]; auto.
  - destruct (eqb k k'); intros [H|H]; auto; [right; now right|right; left; auto|].
    destruct (IH H); [auto|right; now right].
Qed.

Lemma invF_fetch_err c s o fid timeout : invF c s o ->
  let r := fetch_err c fid timeout s in
  invF c (fst r) (o ++ snd r) /\ survives s r /\ snd r = [] /\ s_now (fst r) = s_now s /\
  s_high (fst r) = s_high s /\
  (forall i f, get i (s_fetch (fst r)) = Some f -> get i (s_fetch s) = Some f) /\
  (s_timers (fst r) = s_timers s \/
   exists f (u : name) q due, get fid (s_fetch s) = Some f /\ s_now s < f_deadline f /\
     f_iname f = u ++ [number_comp q] /\ get u (s_high s) = Some q /\
     s_timers (fst r) = set (s_ntid s) (Timer due (AExpress (f_iname f) (f_count f + 1) (f_deadline f))) (s_timers s)).
Proof.
  intros H r. unfold r, fetch_err, survives. clear r. destruct (get fid (s_fetch s)) as [f|] eqn:Ef.
  2: { cbn [fst snd]. rewrite app_nil_r. split; [exact H|]. split; [apply (@survives_calm s s []); [apply subF_refl|reflexivity]|]. auto 10. }
  pose proof (iF_fetch H _ Ef) as Hok. pose proof Hok as (u & q & Ei & Hq & Hu & _ & _).
  unfold on_error. rewrite andthen_fst, andthen_snd. cbn [upd fst snd].
  rewrite Ei, drop_last_snoc, back1_snoc, (to_number_comp Hq).
  assert (G : forall i g, get i (del fid (s_fetch s)) = Some g -> get i (s_fetch s) = Some g).
  { intros i g. rewrite get_del. destruct (eqb i fid); [discriminate|auto]. }
  destruct (_ && _) eqn:Ec.
  - apply andb_true_iff in Ec. destruct Ec as [Et Eh]. apply Z.ltb_lt in Et.
    destruct (get u (s_high s)) as [h|] eqn:Eg in Eh; [|discriminate]. apply N.eqb_eq in Eh. subst h.
    unfold schedule. cbn [fst snd app]. rewrite app_nil_r. split; [|].
    + apply invF_del_fetch. destruct H as [A B C D E K]. constructor; auto.
      intros tid due i n d Hin. unfold exp in Hin. cbn [s_timers w_timers] in Hin.
      apply filter_In in Hin. destruct Hin as [Hin Hx]. apply in_set_timer in Hin.
      destruct Hin as [Heq|Hin].
      * rewrite Ei in Hok. inversion Heq; subst. exact Hok.
      * apply (D tid due i n d). apply filter_In. auto.
    + split; [split; [reflexivity|]; split; [reflexivity|]; split; [intros x []|intros x l k []]|].
      split; [reflexivity|]. split; [reflexivity|]. split; [reflexivity|]. split; [exact G|].
      right. exists f, u, q. eexists. repeat split; eauto. rewrite Ei. reflexivity.
  - cbn [fst snd app]. rewrite app_nil_r. split; [now apply invF_del_fetch|].
    split; [split; [reflexivity|]; split; [reflexivity|]; split; [intros x []|intros x l k []]|].
    split; [reflexivity|]. split; [reflexivity|]. split; [reflexivity|]. split; [exact G|]. now left.
Qed.

Lemma update_origin_nil u o : update_origin u = Some o -> u <> [].
Proof. intros H ->. discriminate. Qed.

Lemma invF_sync c s o e u q face : invF c s o -> (q < 2 ^ 64)%N ->
  let r := on_sync c e u q face s in
  invF c (fst r) (o ++ snd r) /\ survives s r /\ s_now (fst r) = s_now s.
Proof.
  intros H Hq r. unfold r, on_sync. clear r.
  assert (Q : forall a, quietF a -> invF c (fst (a s)) (o ++ snd (a s)) /\ survives s (a s) /\ s_now (fst (a s)) = s_now s).
  { intros a Ha. destruct (Ha s) as [A B]. split; [exact (@invF_sub _ _ _ _ _ A B H)|].
    destruct (a s) as [s' o']. split; [apply survives_calm; assumption|exact (sF_now A)]. }
  destruct (update_origin u) as [origin|] eqn:Eo; [|apply (Q _ quietF_ret)].
  pose proof (@update_origin_nil _ _ Eo) as Hne. unfold process_update.
  destruct (back1_Some Hne) as [ct Hct]. rewrite Hct.
  eqb_case origin (c_self c).
  - destruct (is_new _ _ _ _); [|apply (Q _ quietF_ret)].
    destruct (comp_type ct) as [[]|]; [| | |apply (Q _ quietF_ret)].
    + destruct (eqb _ _); [|apply (Q _ quietF_ret)]. apply Q. apply quietF_andthen; [apply quietF_setseq|apply quietF_build_own_adj].
    + destruct (eqb _ _); [|apply (Q _ quietF_ret)]. apply Q. apply quietF_andthen; [apply quietF_setseq|apply quietF_build_coord].
    + apply Q. apply quietF_andthen; [apply quietF_setseq|apply quietF_build_name].
  - destruct (is_new _ _ _ _); [|apply (Q _ quietF_ret)].
    destruct (_ && _); [apply (Q _ quietF_ret)|]. destruct (_ && _); [apply (Q _ quietF_ret)|].
    rewrite andthen_fst, andthen_snd. cbn [emit fst snd].
    assert (H1 : invF c s (o ++ [ONewLsa u q origin face])) by (apply (@invF_sub c s s); [apply subF_refl|reflexivity|exact H]).
    destruct (@invF_express c s _ u q 0%N face None H1) as (A & B & C & D & E0 & F & _ & K); trivial.
    { split; [exact Hne|]. eauto. }
    { discriminate. }
    rewrite app_assoc. split; [exact A|]. split; [|exact F].
    split; [rewrite andthen_fst; exact C|]. split; [rewrite andthen_fst; exact D|].
    rewrite andthen_snd. cbn [emit fst snd]. split.
    + intros x [<-|Hx]; [split; discriminate|apply B; exact Hx].
    + intros x l k [Hx|Hx]; [discriminate|]. eapply K; exact Hx.
Qed.

Lemma invF_fire c s o e tid : invF c s o ->
  let r := fire c e tid s in
  invF c (fst r) (o ++ snd r) /\ s_dead (fst r) = s_dead s /\ alive (snd r) /\
  (forall x l k, ~ In (OData x l k) (snd r)) /\ s_now (fst r) = s_now s /\
  (length (filter is_fetch (snd r)) + length (exp (fst r)) <= length (exp s))%nat.
Proof.
  intros H r. unfold r, fire. clear r.
  assert (Id : invF c s (o ++ []) /\ s_dead s = s_dead s /\ alive [] /\ (forall x l k, ~ In (OData x l k) []) /\
     s_now s = s_now s /\ (length (filter is_fetch []) + length (exp s) <= length (exp s))%nat).
  { rewrite app_nil_r. split; [exact H|]. split; [reflexivity|]. split; [intros x []|]. split; [intros x l k []|]. split; [reflexivity|]. simpl. lia. }
  destruct (get tid (s_timers s)) as [[due a]|] eqn:Et; [|exact Id].
  cbn [t_due t_act]. destruct (due <=? s_now s); [|exact Id]. clear Id.
  set (s1 := w_timers (del tid (s_timers s)) (s_ntid s) s).
  assert (S1 : subF s s1) by (destruct (filter_del_len is_express tid (s_timers s)); constructor; auto).
  pose proof (@invF_sub c s s1 o [] S1 eq_refl H) as H1. rewrite app_nil_r in H1.
  assert (NF : forall o, forallb calm o = true -> length (filter is_fetch o) = O).
  { clear. induction o as [|x o IH]; [reflexivity|]. cbn [forallb]. intros Hx.
    apply andb_true_iff in Hx. destruct Hx. destruct x; try discriminate; cbn; auto. }
  assert (Q : forall a, quietF a -> invF c (fst (a s1)) (o ++ snd (a s1)) /\ s_dead (fst (a s1)) = s_dead s /\
     alive (snd (a s1)) /\ (forall x l k, ~ In (OData x l k) (snd (a s1))) /\ s_now (fst (a s1)) = s_now s /\
     (length (filter is_fetch (snd (a s1))) + length (exp (fst (a s1))) <= length (exp s))%nat).
  { intros b Hb. destruct (Hb s1) as [A B]. split; [exact (@invF_sub _ _ _ _ _ A B H1)|].
    pose proof (subF_trans S1 A) as A'. split; [exact (sF_dead A')|]. split; [now apply calm_alive|].
    split; [intros; now apply calm_data|]. split; [exact (sF_now A')|]. rewrite (NF _ B). exact (sF_len A'). }
  destruct a as [oid| |i n d|n|n].
  - apply Q, quietF_expire.
  - apply Q, quietF_build_adj.
  - assert (Hin : In (tid, Timer due (AExpress i n d)) (exp s)).
    { apply filter_In. split; [now apply get_In|reflexivity]. }
    destruct (iF_exp H _ _ _ _ _ Hin) as (u & q & -> & Hq & Hu & _ & Hd).
    destruct (@invF_express c s1 o u q n 0%N (Some d) H1 Hu Hq) as (A & B & C & D & E0 & F & L & K).
    { intros d' X. injection X as <-. exact Hd. }
    split; [exact A|]. split; [exact C|]. split; [exact B|]. split; [exact K|]. split; [exact F|].
    unfold exp at 1. rewrite E0.
    assert (length (filter is_express (s_timers s1)) < length (exp s))%nat; [|lia].
    clear - Hin. unfold s1, exp in *. cbn [s_timers w_timers].
    induction (s_timers s) as [|[k v] m IH]; [destruct Hin|]. cbn [del].
    destruct (filter_del_len is_express tid m) as [L _].
    cbn [filter] in Hin. destruct (eqb tid k) eqn:E.
    + cbn [filter]. destruct (is_express (k, v)) eqn:X; cbn [length]; [lia|].
      specialize (IH Hin). lia.
    + cbn [filter]. destruct (is_express (k, v)) eqn:X; cbn [length].
      * destruct Hin as [Hin|Hin]; [injection Hin as -> _; rewrite eqb_refl in E; discriminate|].
        specialize (IH Hin). lia.
      * apply IH. exact Hin.
  - cbn [fst snd]. rewrite app_nil_r. split; [|split; [reflexivity|]; split; [intros x []|]; split; [intros x l k []|];
      split; [reflexivity|exact (sF_len S1)]].
    destruct H1 as [A B C D E K]. constructor; auto.
  - cbn [fst snd]. rewrite app_nil_r. split; [|split; [reflexivity|]; split; [intros x []|]; split; [intros x l k []|];
      split; [reflexivity|exact (sF_len S1)]].
    destruct H1 as [A B C D E K]. constructor; auto.
Qed.

(** ** Interests *)

Record subG (s s' : st) : Prop := SubG
  { sG_fetch : s_fetch s' = s_fetch s; sG_high : s_high s' = s_high s; sG_now : s_now s' = s_now s;
    sG_same : sameS s s' \/ (s_store s' = s_store s /\ s_heap s' = s_heap s);
    sG_seqs : s_seqs s' = s_seqs s;
    sG_in : forall x, In x (exp s') -> In x (exp s);
    sG_len : (length (exp s') <= length (exp s))%nat }.

Lemma subG_refl s : subG s s. Proof. constructor; auto. Qed.
Lemma subG_trans a b c : subG a b -> subG b c -> subG a c.
Proof.
  intros [] []. constructor; try congruence; [|auto|lia]. right.
  assert (G : forall s s', sameS s s' \/ (s_store s' = s_store s /\ s_heap s' = s_heap s) ->
     s_store s' = s_store s /\ s_heap s' = s_heap s).
  { intros s s' [(A & B & _)|[A B]]; split; congruence. }
  apply G in sG_same0. apply G in sG_same1. intuition congruence.
Qed.

Lemma invF_subG c s s' o o' : subG s s' -> existsb is_fetch o' = false -> invF c s o -> invF c s' (o ++ o').
Proof.
  intros [] Hc [A B C D E K].
  assert (M : forall i d, okreq c s i d -> okreq c s' i d).
  { intros i d. apply okreq_mono; [lia|]. rewrite sG_high0. intros n h H. exists h. split; [exact H|lia]. }
  assert (Fn : forall n, fetched n o' = []).
  { intros n. clear - Hc. induction o' as [|x o' IH]; [reflexivity|]. cbn [existsb] in Hc.
    apply orb_false_iff in Hc. destruct Hc as [H1 H2]. destruct x; try discriminate; cbn [fetched]; auto. }
  constructor.
  - intros n. rewrite fetched_app, Fn, app_nil_r. apply A.
  - intros n q. rewrite fetched_app, Fn, app_nil_r, sG_high0. apply B.
  - rewrite sG_fetch0. eauto.
  - eauto.
  - intros i face H. apply in_app_iff in H. destruct H as [H|H]; [eauto|].
    exfalso. rewrite <- not_true_iff_false in Hc. apply Hc. apply existsb_exists. eexists. split; [exact H|reflexivity].
  - intros n h. rewrite sG_high0, fetched_app, in_app_iff. auto.
Qed.

Lemma subG_fifo_insert c e s : subG s (fifo_insert c e s).
Proof.
  unfold fifo_insert, schedule. cbn [fst].
  match goal with |- subG s (w_timers (set ?k ?v ?m) _ _) =>
    destruct (@filter_set_len is_express k v m eq_refl) as [L I] end.
  constructor; auto.
Qed.
Lemma subG_fifo_inserts c es s : subG s (fold_left (fun s e => fifo_insert c e s) es s).
Proof.
  revert s. induction es as [|e es IH]; intros s; [apply subG_refl|]. cbn [fold_left].
  eapply subG_trans; [apply subG_fifo_insert|apply IH].
Qed.
Lemma fifo_inserts_dead c es s : s_dead (fold_left (fun s e => fifo_insert c e s) es s) = s_dead s.
Proof. revert s. induction es as [|e es IH]; intros s; [reflexivity|]. cbn [fold_left]. now rewrite IH. Qed.

Lemma subG_dead s : subG s (w_dead s). Proof. constructor; auto. Qed.

Definition quietG (a : act) : Prop := forall s, subG s (fst (a s)) /\ existsb is_fetch (snd (a s)) = false.
Lemma quietG_andthen f g : quietG f -> quietG g -> quietG (f ;; g).
Proof.
  intros Hf Hg s. rewrite andthen_fst, andthen_snd, existsb_app. destruct (Hf s) as [A ->].
  destruct (Hg (fst (f s))) as [B ->]. split; [eapply subG_trans; eassumption|reflexivity].
Qed.
Lemma quietG_ret : quietG ret. Proof. intros s. split; [apply subG_refl|reflexivity]. Qed.
Lemma quietG_emit o : is_fetch o = false -> quietG (emit o).
Proof. intros H s. split; [apply subG_refl|]. simpl. now rewrite H. Qed.
Lemma quietG_throw : quietG throw. Proof. intros s. split; [apply subG_dead|reflexivity]. Qed.
Lemma quietG_ub : quietG ub. Proof. intros s. split; [apply subG_dead|reflexivity]. Qed.
Lemma quietG_for_lsa c i o t q k v : quietG (interest_for_lsa c i o t q k v).
Proof.
  intros s. unfold interest_for_lsa. destruct (find_lsa _ s) as [l|]; [|apply quietG_ret].
  destruct (_ =? _)%N; [|apply quietG_ret].
  assert (Q : forall a, quietG a -> subG s (fst (a s)) /\ existsb is_fetch (snd (a s)) = false) by (intros a Ha; apply Ha).
  apply Q. apply quietG_andthen; [intros s'; split; [apply subG_fifo_inserts|reflexivity]|].
  apply quietG_andthen; [|apply quietG_andthen; now apply quietG_emit].
  destruct (nth_error _ _) as [[n [l' k']]|]; [now apply quietG_emit|apply quietG_ret].
Qed.
Lemma quietG_stored i p : quietG (serve_stored i p).
Proof. intros s. unfold serve_stored. destruct (find _ _) as [[n d]|]; (split; [apply subG_refl|reflexivity]). Qed.
Lemma quietG_interest c i p k v : quietG (process_interest c i p k v).
Proof.
  intros s. unfold process_interest. destruct (back 2 i) as [cv|]; [|apply quietG_ub].
  destruct (if is_version cv then _ else _) as [[n [l k']]|]; [split; [apply subG_refl|reflexivity]|].
  assert (Q : forall a, quietG a -> subG s (fst (a s)) /\ existsb is_fetch (snd (a s)) = false) by (intros a Ha; apply Ha).
  apply Q. apply quietG_andthen; [now apply quietG_emit|].
  destruct (name_origin _ _) as [o|]; [|apply quietG_stored].
  destruct (eqb _ _); [|apply quietG_stored].
  destruct (back 1 _) as [cq|]; [|apply quietG_ub]. destruct (back 2 _) as [ct|]; [|apply quietG_ub].
  destruct (to_number cq); [|apply quietG_throw]. destruct (comp_type ct); [|apply quietG_ret].
  apply quietG_andthen; [now apply quietG_emit|apply quietG_for_lsa].
Qed.

(** ** Steps *)

Lemma invF_tick c s o d : invF c s o -> invF c (w_now (s_now s + Z.abs d) s) o.
Proof.
  intros [A B C D E K].
  assert (M : forall i x, okreq c s i x -> okreq c (w_now (s_now s + Z.abs d) s) i x).
  { intros i x. apply okreq_mono; [cbn; lia|]. intros n h H. exists h. split; [exact H|lia]. }
  constructor; eauto.
Qed.

Lemma invF_step c s o x : invF c s o -> invF c (fst (step c s x)) (o ++ snd (step c s x)).
Proof.
  intros H. unfold step. destruct (s_dead s) eqn:Ed; [now rewrite app_nil_r|]. destruct x as [e v].
  assert (Q : forall a, quietF a -> invF c (fst (a s)) (o ++ snd (a s))).
  { intros a Ha. destruct (Ha s) as [A B]. exact (@invF_sub _ _ _ _ _ A B H). }
  destruct v; cbn [step_live].
  - cbn [fst snd]. rewrite app_nil_r. now apply invF_tick.
  - apply invF_sync; [exact H|]. apply N.mod_lt. discriminate.
  - apply (invF_fire e tid H).
  - apply (@invF_fetch_done c s o (e_sys e) fid content H).
  - apply (@invF_fetch_err c s o fid timeout H).
  - apply Q, quietF_segment.
  - destruct (is_prefix _ _); [|cbn [fst snd]; now rewrite app_nil_r].
    destruct (@quietG_interest c iname can_be_prefix nseg ver s) as [A B]. exact (@invF_subG _ _ _ _ _ A B H).
  - apply Q, quietF_build_name.
  - apply Q, quietF_schedule_adj_build.
Qed.

Lemma step_survives c s o x : invF c s o -> (forall i p k v, snd x <> EInterest i p k v) ->
  s_dead (fst (step c s x)) = s_dead s /\ alive (snd (step c s x)) /\
  forall n l k, ~ In (OData n l k) (snd (step c s x)).
Proof.
  intros H Hx. unfold step. destruct (s_dead s) eqn:Ed; [split; [exact Ed|split; [intros y []|intros n l k []]]|].
  destruct x as [e v].
  assert (Q : forall a, quietF a -> s_dead (fst (a s)) = false /\ alive (snd (a s)) /\ forall n l k, ~ In (OData n l k) (snd (a s))).
  { intros a Ha. destruct (Ha s) as [A B]. split; [rewrite (sF_dead A); exact Ed|]. split; [now apply calm_alive|].
    intros. now apply calm_data. }
  destruct v; cbn [step_live].
  - cbn. split; [exact Ed|]. split; [intros y []|intros n l k []].
  - pose proof (@invF_sync c s o e u (q mod 2 ^ 64)%N face H ltac:(apply N.mod_lt; discriminate)) as (_ & (A & _ & B & D) & _).
    rewrite A. auto.
  - pose proof (invF_fire e tid H) as (_ & A & B & D & _). rewrite A. auto.
  - pose proof (@invF_fetch_done c s o (e_sys e) fid content H) as (_ & (A & _ & B & D) & _). rewrite A. auto.
  - pose proof (@invF_fetch_err c s o fid timeout H) as (_ & (A & _ & B & D) & _). rewrite A. auto.
  - apply Q, quietF_segment.
  - exfalso. eapply Hx. reflexivity.
  - apply Q, quietF_build_name.
  - apply Q, quietF_schedule_adj_build.
Qed.

Lemma invF_exec c f now e0 evs : invF c (fst (exec c f now e0 evs)) (snd (exec c f now e0 evs)).
Proof.
  induction evs as [|x evs IH] using rev_ind.
  - rewrite exec_fst, exec_snd. cbn [run fst snd]. rewrite app_nil_r. unfold init.
    set (b := St _ _ _ _ _ _ _ _ _ _ _ _ _ _ _ _).
    assert (H0 : invF c b []).
    { constructor.
      - intros n. exact Logic.I.
      - intros n q [].
      - discriminate.
      - intros t1 due i n d [].
      - intros i face [].
      - discriminate. }
    assert (Q : quietF (build_name c e0 ;; (if eqb (c_hyp c) HOff then ret else build_coord c e0))).
    { apply quietF_andthen; [apply quietF_build_name|]. destruct (eqb _ _); [apply quietF_ret|apply quietF_build_coord]. }
    destruct (Q b) as [A B]. exact (@invF_sub _ _ _ _ _ A B H0).
  - rewrite exec_fst, exec_snd in *. rewrite run_snoc.
    destruct (run (step c) (fst (init c f now e0)) evs) as [s o]. cbn [fst snd] in *.
    pose proof (invF_step x IH) as H. destruct (step c s x) as [s' o']. cbn [fst snd] in *.
    now rewrite app_assoc.
Qed.

(** ** Fetching stops *)

Definition expired (s : st) : Prop :=
  (forall fid f, get fid (s_fetch s) = Some f -> f_deadline f <= s_now s) /\
  (forall tid due i n d, In (tid, Timer due (AExpress i n d)) (exp s) -> d <= s_now s).

Lemma filter_fetch_calm o : forallb calm o = true -> filter is_fetch o = [].
Proof.
  induction o as [|x o IH]; [reflexivity|]. cbn [forallb]. intros Hx.
  apply andb_true_iff in Hx. destruct Hx. destruct x; try discriminate; cbn; auto.
Qed.
Lemma filter_fetch_none o : existsb is_fetch o = false -> filter is_fetch o = [].
Proof.
  induction o as [|x o IH]; [reflexivity|]. cbn [existsb filter]. intros Hx.
  apply orb_false_iff in Hx. destruct Hx as [-> ?]. auto.
Qed.

Lemma express_fetches i n face d s : let r := express i n face d s in
  forall fid f, get fid (s_fetch (fst r)) = Some f -> get fid (s_fetch s) = Some f \/
    f_deadline f = match d with Some d => d | None => s_now s + LSA_REFRESH_TIME_MAX * SEC end.
Proof.
  intros r. unfold r, express. clear r. destruct (back 1 i) as [cq|]; [|auto].
  destruct (to_number cq) as [q|]; [|auto]. destruct (note_high _ q s) as [s1|] eqn:En; [|auto].
  destruct (note_high_spec _ _ _ En) as (E1 & _).
  assert (F1 : s_fetch s1 = s_fetch s) by (rewrite E1; reflexivity).
  rewrite !andthen_fst. cbn [emit upd fst].
  assert (G : forall a : act, (forall s', s_fetch (fst (a s')) = s_fetch s') -> forall s' fid f,
    get fid (s_fetch (fst (a s'))) = Some f -> get fid (s_fetch s') = Some f) by (intros a Ha s' fid f; now rewrite Ha).
  intros fid f Hf. apply G in Hf.
  - cbn [s_fetch w_fetch] in Hf. rewrite get_set in Hf. destruct (eqb fid _).
    + injection Hf as <-. now right.
    + rewrite F1 in Hf. now left.
  - intros s'. destruct (back 2 i); [|reflexivity]. unfold stat_type. destruct (comp_type _); reflexivity.
Qed.

Lemma expired_step c s o x : invF c s o -> expired s -> is_sync (snd x) = false ->
  expired (fst (step c s x)) /\
  (length (filter is_fetch (snd (step c s x))) + length (exp (fst (step c s x))) <= length (exp s))%nat.
Proof.
  intros H [E1 E2] Hx. unfold step. destruct (s_dead s); [split; [split; assumption|simpl; lia]|].
  destruct x as [e v].
  assert (Q : forall a, quietF a -> expired (fst (a s)) /\
     (length (filter is_fetch (snd (a s))) + length (exp (fst (a s))) <= length (exp s))%nat).
  { intros a Ha. destruct (Ha s) as [A B]. rewrite (filter_fetch_calm _ B). destruct A. split; [|simpl; lia].
    split; rewrite sF_now0; [rewrite sF_fetch0; exact E1|]. intros tid due i n d Hin. eauto. }
  destruct v; cbn [step_live]; try discriminate Hx.
  - cbn [fst snd]. split; [|simpl; unfold exp; cbn; lia]. split; cbn [s_fetch s_now w_now].
    + intros fid f Hf. specialize (E1 _ _ Hf). lia.
    + intros tid due i n d' Hin. specialize (E2 _ _ _ _ _ Hin). lia.
  - pose proof (invF_fire e tid H) as (I' & _ & _ & _ & N & L). split; [|exact L]. clear I' L.
    revert N. unfold fire. destruct (get tid (s_timers s)) as [[due a]|] eqn:Et; [|intros; split; assumption].
    cbn [t_due t_act]. destruct (due <=? s_now s); [|intros; split; assumption].
    set (s1 := w_timers (del tid (s_timers s)) (s_ntid s) s).
    assert (S1 : subF s s1) by (destruct (filter_del_len is_express tid (s_timers s)); constructor; auto).
    assert (X1 : expired s1).
    { destruct S1. split; rewrite sF_now0; [rewrite sF_fetch0; exact E1|]. intros t' due' i n d Hin. eauto. }
    intros N.
    assert (Q1 : forall a, quietF a -> expired (fst (a s1))).
    { intros b Hb. destruct (Hb s1) as [A _]. destruct X1 as [X1 X2], A. split; rewrite sF_now0.
      - rewrite sF_fetch0. exact X1.
      - intros t' due' i n d Hin. eauto. }
    destruct a as [oid| |i n d|n|n].
    + apply Q1, quietF_expire.
    + apply Q1, quietF_build_adj.
    + assert (Hin : In (tid, Timer due (AExpress i n d)) (exp s)).
      { apply filter_In. split; [now apply get_In|reflexivity]. }
      pose proof (E2 _ _ _ _ _ Hin) as Hd. split.
      * intros fid f Hf. rewrite N. apply express_fetches in Hf. destruct Hf as [Hf|Hf]; [exact (E1 _ _ Hf)|].
        rewrite Hf. exact Hd.
      * intros t' due' i' n' d' Hin'. rewrite N. destruct X1 as [_ X2].
        apply (X2 t' due' i' n' d'). revert Hin'.
        destruct (iF_exp H _ _ _ _ _ Hin) as (u & q & -> & Hq & Hu & _ & Hdd).
        pose proof (@invF_sub c s s1 o [] S1 eq_refl H) as H1.
        destruct (@invF_express c s1 _ u q n 0%N (Some d) H1 Hu Hq) as (_ & _ & _ & _ & E0 & _).
        { intros dd X. injection X as <-. exact Hdd. }
        unfold exp. rewrite E0. auto.
    + exact X1.
    + exact X1.
  - pose proof (@invF_fetch_done c s o (e_sys e) fid content H) as (_ & _ & N & Cc & I1 & L & F).
    rewrite (filter_fetch_calm _ Cc). split; [|simpl; lia]. split; rewrite N; eauto.
  - pose proof (@invF_fetch_err c s o fid timeout H) as (_ & _ & O & N & _ & F & T).
    rewrite O. destruct T as [T|(f & u & q & due & Ef & Hd & _)].
    + unfold exp. rewrite T. split; [|simpl; lia]. split; rewrite N; [eauto|]. unfold exp. rewrite T. exact E2.
    + exfalso. specialize (E1 _ _ Ef). lia.
  - apply Q, quietF_segment.
  - destruct (is_prefix _ _); [|cbn [fst snd]; split; [split; assumption|simpl; lia]].
    destruct (@quietG_interest c iname can_be_prefix nseg ver s) as [A B].
    rewrite (filter_fetch_none _ B). destruct A. split; [|simpl; lia].
    split; rewrite sG_now0; [rewrite sG_fetch0; exact E1|]. intros tid due i n d Hin. eauto.
  - apply Q, quietF_build_name.
  - apply Q, quietF_schedule_adj_build.
Qed.

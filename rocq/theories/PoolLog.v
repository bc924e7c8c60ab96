(** More that holds along runs: what must precede received bytes, what follows
    a request to end a connection, ids of asynchronous operations, loads. *)
From Coq Require Import Arith NArith List Bool Lia.
From Verif Require Import PoolModel PoolProofs PoolInv PoolCalm PoolFed PoolRun.
Import ListNotations.

(** ** Bytes are received only after the callback *)
Definition gate (tls : bool) (o : obs) : bool := match o with OCb _ true (Some r) => r || negb tls | _ => false end.
Lemma gate_t l : cnt (gate true) l = cnt (oC1 true) l.
Proof. induction l as [|o l IH]; [reflexivity|]. cbn [cnt]. rewrite IH. destruct o as [c [|] [[|]|]| | | | | | | | |]; reflexivity. Qed.
Lemma gate_f l : cnt (gate false) l = cnt (oC1 true) l + cnt (oC1 false) l.
Proof. induction l as [|o l IH]; [reflexivity|]. cbn [cnt]. rewrite IH. destruct o as [c [|] [[|]|]| | | | | | | | |]; cbn; lia. Qed.

Lemma gate_step tls dead cm fo c v o v' l : A tls dead v l -> vstep tls dead cm fo c v o v' -> cnt oRecv o = 0 \/ 0 < cnt (gate tls) l.
Proof.
  intros I H. destruct tls; [rewrite gate_t|rewrite gate_f].
  all: destruct I as [i1 i2 i3 i4 i5 i6 i7 i8 i9 i10 i11 i12 i13 i14 i15 i16 i17 i18]; clear i1 i2 i3 i4 i5 i6 i7 i8 i9 i10 i11 i12 i13 i18.
  all: destruct v as [[fd [wk|] term evc evs arm rs recv] w d u lv]; vinv H; spl; norm; try congruence; subst; cn; try (left; reflexivity); right; lia.
Qed.

(** ** A connection asked to end *)
Definition isDT a := match a with ADispTerm _ => true | _ => false end.
Definition pend (v : view) : nat := b2n (c_term (v_k v)) + cnt isX (v_w v) + cnt isE (v_d v) + cnt isDT (v_d v).
Lemma pend_step tls cm fo c v o v' l : A tls false v l -> vstep tls false cm fo c v o v' -> 0 < pend v -> 0 < pend v'.
Proof.
  intros I H P. destruct v as [[fd [wk|] term evc evs arm rs recv] w d u lv]; destruct tls; vinv H; spl; norm; try congruence; subst; unfold pend in *; cn; cng; cbn [isDT] in *; cb; cn; lia.
Qed.

Definition ends (c : nat) (e : ev) : Prop :=
  match e with
  | ETerm d | EBad d | EReady d _ _ false | ESock d (IoRead _ true) | ESock d (IoWrite true _) | ESock d (IoHand _ None) => d = c
  | _ => False
  end.

Definition asked (c : nat) (s : st) : Prop :=
  In (ADispTerm c) (s_q s D) \/ In (ADExch c) (s_q s D) \/ exists w, c_worker (s_conn s c) = Some w /\ In (AWExch c) (s_q s (W w)).
Lemma asked_pend c s : asked c s -> 0 < pend (see s c).
Proof.
  unfold pend. intros [I|[I|(w & E & I)]].
  - assert (0 < cnt isDT (v_d (see s c))); [|lia]. apply cnt_In. exists (ADispTerm c). split; [|reflexivity]. apply V_In'; [apply in_or_app; auto|reflexivity..].
  - assert (0 < cnt isE (v_d (see s c))); [|lia]. apply cnt_In. exists (ADExch c). split; [|reflexivity]. apply V_In'; [apply in_or_app; auto|reflexivity..].
  - assert (0 < cnt isX (v_w (see s c))); [|lia]. apply cnt_In. exists (AWExch c). split; [|reflexivity]. cbn [see v_w]. unfold vw. rewrite E. apply V_In'; [apply in_or_app; auto|reflexivity..].
Qed.
Lemma post_In t a s : In a (s_q (post t a s) t).
Proof. cbn. rewrite updt_same. apply in_or_app. right. left. reflexivity. Qed.
Lemma post_In' t t' a b s : In b (s_q s t) -> In b (s_q (post t' a s) t).
Proof. intros I. cbn. unfold updt. destruct (tid_eqb_spec t t') as [E|N]; [subst; apply in_or_app; auto|exact I]. Qed.
Lemma asked_wterm c s s' o : worker_terminate c s = (s', o) -> c_worker (s_conn s c) <> None -> asked c s'.
Proof. unfold worker_terminate. intros X N. destruct (c_worker (s_conn s c)) as [w|] eqn:E; [|congruence]. injection X as <- <-. right. right. exists w. split; [exact E|apply post_In]. Qed.
Lemma asked_dterm c s : asked c (disp_terminate c s).
Proof. unfold disp_terminate. destruct (c_worker (s_conn s c)) as [w|] eqn:E; [right; right; exists w; split; [exact E|apply post_In]|right; left; apply post_In]. Qed.
Lemma asked_post c t a s : asked c s -> asked c (post t a s).
Proof. intros [I|[I|(w & E & I)]]; [left|right; left|right; right; exists w; split; [exact E|]]; apply post_In'; exact I. Qed.

Section Log.
Variables burst nw : nat.
Notation step := (step burst nw).
Notation run := (run burst nw).

Lemma ends_asked c e s s' o : step e s = Some (s', o) -> ends c e -> asked c s'.
Proof.
  intros X E. unfold PoolModel.step in X. destruct (s_stop s); [discriminate|]. destruct e as [|d|d|fd w ok|d w tmo ok|d i|d|t|t|t ch|]; cbn in E; try contradiction.
  - subst d. destruct (c <? s_nc s); [|discriminate]. injection X as <- <-. left. apply post_In.
  - subst d. destruct (c_worker (s_conn s c)) as [w|] eqn:EW; [|discriminate]. injection X as X. apply (asked_wterm _ _ _ _ X). congruence.
  - destruct ok; [contradiction|]. subst d. destruct (_ && _); [|discriminate]. injection X as <- <-. apply asked_post, asked_dterm.
  - assert (d = c) by (destruct i as [? []|[] ?|? [[]|]]; auto; contradiction). subst d. destruct (c_worker (s_conn s c)) as [w|] eqn:EW; [|discriminate]. destruct (_ && _); [|discriminate].
    assert (Y : forall s0 l0 s1 o1, c_worker (s_conn s0 c) <> None -> (let '(s', o') := worker_terminate c s0 in Some (s', l0 ++ o')) = Some (s1, o1) -> asked c s1).
    { intros s0 l0 s1 o1 H0 Z. destruct (worker_terminate c s0) as (s2 & o2) eqn:E2. injection Z as <- <-. apply (asked_wterm _ _ _ _ E2 H0). }
    unfold io_step in X. destruct i as [bs []|[] rs|wr [[]|]]; try contradiction; destruct (c_recv (s_conn s c)); try discriminate.
    1,2: (eapply Y; [|exact X]; congruence).
    1-3: (eapply Y; [|exact X]; cbn; rewrite upd_same; cbn; congruence).
    destruct (worker_terminate c _) as (s2 & o2) eqn:E2. injection X as <- <-. apply (asked_wterm _ _ _ _ E2). destruct wr; cbn; [rewrite upd_same; cbn|]; congruence.
Qed.

Lemma ends_lt c e s s' o : step e s = Some (s', o) -> G s -> ends c e -> c < s_nc s.
Proof.
  intros X g E. destruct (le_lt_dec (s_nc s) c) as [L|L]; [|exact L]. exfalso. destruct (g_new s g c L) as (E0 & _). unfold PoolModel.step in X. destruct (s_stop s); [discriminate|].
  destruct e as [|d|d|fd w ok|d w tmo ok|d i|d|t|t|t ch|]; cbn in E; try contradiction.
  - subst d. destruct (Nat.ltb_spec c (s_nc s)); [lia|discriminate].
  - subst d. rewrite E0 in X. discriminate.
  - destruct ok; [contradiction|]. subst d. rewrite E0 in X. cbn in X. rewrite andb_false_r in X. discriminate.
  - assert (d = c) by (destruct i as [? []|[] ?|? [[]|]]; auto; contradiction). subst d. rewrite E0 in X. discriminate.
Qed.

Lemma dead_step e s s' o l : Inv false false s l -> step e s = Some (s', o) -> e <> EStop -> s_dead s' = false -> s_dead s = false.
Proof.
  intros H X N E. destruct (sim_step burst nw false false e s s' o X N (n_G _ _ _ _ H) (Inv_HD _ _ _ _ H)) as ([_ _ DD _] & _); try discriminate. destruct (s_dead s); [rewrite DD in E by reflexivity; discriminate|reflexivity].
Qed.

Lemma pend_run1 e s s' o l c : Inv false false s l -> step e s = Some (s', o) -> e <> EStop -> s_dead s = false -> c < s_nc s -> 0 < pend (see s c) -> 0 < pend (see s' c).
Proof.
  intros H X N E L P. destruct (sim_step burst nw false false e s s' o X N (n_G _ _ _ _ H) (Inv_HD _ _ _ _ H)) as (_ & V0); try discriminate.
  destruct (V0 c) as [(Q & _)|[(_ & VS)|(Q & _)]]; [rewrite Q; exact P| |lia]. pose proof (n_A _ _ _ _ H c L) as HA. rewrite E in HA, VS. exact (pend_step _ _ _ _ _ _ _ _ HA VS P).
Qed.

Lemma nc_run es : forall s s' o l, Inv false false s l -> run es s = Some (s', o) -> ~ In EStop es -> s_nc s <= s_nc s' /\ (s_dead s' = false -> s_dead s = false).
Proof.
  induction es as [|e es IH]; intros s s' o l H X N; cbn [PoolModel.run] in X; [injection X as <- <-; auto|].
  destruct (step e s) as [(s1 & o1)|] eqn:E; [|discriminate]. destruct (run es s1) as [(s2 & o2)|] eqn:E2; [|discriminate]. injection X as <- <-.
  assert (N1 : e <> EStop) by (intros ->; apply N; left; reflexivity).
  destruct (sim_step burst nw false false e s s1 o1 E N1 (n_G _ _ _ _ H) (Inv_HD _ _ _ _ H)) as ([_ _ DD NC] & _); try discriminate.
  destruct (IH s1 s2 o2 (l ++ o1)) as (I1 & I2); auto; [apply (Inv_step burst nw _ _ e s); auto; discriminate|intros I; apply N; right; exact I|].
  split; [lia|]. intros D0. apply I2 in D0. destruct (s_dead s); [rewrite DD in D0 by reflexivity; discriminate|reflexivity].
Qed.

Lemma pend_run c es : forall s s' o l, Inv false false s l -> run es s = Some (s', o) -> ~ In EStop es -> s_dead s' = false ->
  (c < s_nc s /\ 0 < pend (see s c)) \/ (exists e, In e es /\ ends c e) -> c < s_nc s' /\ 0 < pend (see s' c).
Proof.
  induction es as [|e es IH]; intros s s' o l H X N D0 P; cbn [PoolModel.run] in X.
  - injection X as <- <-. destruct P as [P|(e & [] & _)]. exact P.
  - pose proof (nc_run (e :: es) s s' o l H) as NR. cbn [PoolModel.run] in NR. destruct (step e s) as [(s1 & o1)|] eqn:E; [|discriminate]. destruct (run es s1) as [(s2 & o2)|] eqn:E2; [|discriminate]. specialize (NR X N). injection X as <- <-. destruct NR as (_ & DS). specialize (DS D0).
    assert (N1 : e <> EStop) by (intros ->; apply N; left; reflexivity).
    destruct (sim_step burst nw false false e s s1 o1 E N1 (n_G _ _ _ _ H) (Inv_HD _ _ _ _ H)) as ([_ _ _ NC] & _); try discriminate.
    apply (IH s1 s2 o2 (l ++ o1)); auto; [apply (Inv_step burst nw _ _ e s); auto; discriminate|intros I; apply N; right; exact I|].
    destruct P as [(L & P)|(e0 & [<-|I] & P)].
    + left. split; [lia|]. exact (pend_run1 _ _ _ _ _ _ H E N1 DS L P).
    + left. pose proof (ends_lt _ _ _ _ _ E (n_G _ _ _ _ H) P). split; [lia|]. apply asked_pend. exact (ends_asked _ _ _ _ _ E P).
    + right. exists e0. auto.
Qed.

(** ** Received bytes, over a run *)
Lemma gate_run es : forall s l s' o, Inv false false s l -> (forall c, after (gate (s_tls s)) oRecv (of c l)) -> run es s = Some (s', o) -> ~ In EStop es -> s_tls s' = s_tls s /\ forall c, after (gate (s_tls s)) oRecv (of c (l ++ o)).
Proof.
  induction es as [|e es IH]; intros s l s' o H AF X N; cbn [PoolModel.run] in X; [injection X as <- <-; rewrite app_nil_r; auto|].
  destruct (step e s) as [(s1 & o1)|] eqn:E; [|discriminate]. destruct (run es s1) as [(s2 & o2)|] eqn:E2; [|discriminate]. injection X as <- <-.
  assert (N1 : e <> EStop) by (intros ->; apply N; left; reflexivity).
  destruct (sim_step burst nw false false e s s1 o1 E N1 (n_G _ _ _ _ H) (Inv_HD _ _ _ _ H)) as ([_ TL _ _] & V0); try discriminate.
  rewrite app_assoc. rewrite <- TL. apply (IH s1 (l ++ o1) s2 o2); auto; [apply (Inv_step burst nw _ _ e s); auto; discriminate| |intros I; apply N; right; exact I].
  rewrite TL. intros c. rewrite of_app. apply after_app; [apply AF|]. destruct (V0 c) as [(_ & Q)|[(L & VS)|(_ & _ & _ & Q)]]; [left; unfold of; rewrite Q; reflexivity| |left; unfold of; rewrite Q; reflexivity].
  exact (gate_step _ _ _ _ _ _ _ _ _ (n_A _ _ _ _ H c L) VS).
Qed.

End Log.

(** The invariants along every run. *)
From Coq Require Import Arith NArith List Bool Lia.
From Verif Require Import PoolModel PoolProofs PoolInv PoolCalm PoolFed.
Import ListNotations.

Definition of (c : nat) (l : list obs) : list obs := filter (oabout c) l.
Lemma of_app c l m : of c (l ++ m) = of c l ++ of c m.
Proof. apply filter_app. Qed.

Lemma A_dead tls dead v l : A tls false v l -> A tls dead v l.
Proof. intros [i1 i2 i3 i4 i5 i6 i7 i8 i9 i10 i11 i12 i13 i14 i15 i16 i17 i18]. cbn in *. constructor; auto. Qed.
Lemma A_weak tls dead dead' v l : (dead = true -> dead' = true) -> A tls dead v l -> A tls dead' v l.
Proof. intros D0 H. destruct dead; [rewrite (D0 eq_refl); exact H|apply A_dead; exact H]. Qed.

Lemma A_new tls dead c v : vnew c v -> A tls dead v [].
Proof. intros H. destruct H; destruct tls, dead; constructor; cbn; lia. Qed.
Lemma B_new c v : vnew c v -> B v [].
Proof. intros H. destruct H; constructor; cbn; lia. Qed.
Lemma C_new c v : vnew c v -> C v [].
Proof. intros H. destruct H; constructor; cbn; lia. Qed.

Lemma G_init tls aid us : G (st0 tls aid us).
Proof.
  constructor; cbn; try (intros; contradiction); try (intros; discriminate).
  - intros t. constructor.
  - intros c _. split; reflexivity.
  - constructor.
Qed.

(** No fatal error on the way. *)
Definition NF (s : st) : Prop := s_dead s = false /\ forall t, ~ In AFatal (s_cur s t ++ s_q s t).
Lemma NF_post t a s : NF s -> a <> AFatal -> NF (post t a s).
Proof.
  intros (D0 & H) N. split; [exact D0|]. intros t' I. cbn [post w_q s_cur s_q] in I. unfold updt in I. destruct (tid_eqb_spec t' t) as [X|X]; [subst t'|exact (H _ I)].
  rewrite app_assoc in I. apply in_app_or in I. destruct I as [I|[I|[]]]; [exact (H _ I)|congruence].
Qed.
Lemma NF_front t l s : NF s -> ~ In AFatal l -> NF (front t l s).
Proof.
  intros (D0 & H) N. split; [exact D0|]. intros t' I. cbn [front go w_cur s_cur s_q] in I. unfold updt in I. destruct (tid_eqb_spec t' t) as [X|X]; [subst t'|exact (H _ I)].
  rewrite <- app_assoc in I. apply in_app_or in I. destruct I as [I|I]; [exact (N I)|exact (H _ I)].
Qed.
Lemma NF_same s s' : s_dead s' = s_dead s -> s_cur s' = s_cur s -> s_q s' = s_q s -> NF s -> NF s'.
Proof. intros E1 E2 E3 (D0 & H). split; [congruence|]. rewrite E2, E3. exact H. Qed.
Lemma NF_dterm c s : NF s -> NF (disp_terminate c s).
Proof. intros H. unfold disp_terminate. destruct (c_worker _); apply NF_post; auto; discriminate. Qed.
Lemma NF_wterm c s s' o : worker_terminate c s = (s', o) -> NF s -> NF s'.
Proof. unfold worker_terminate. intros X H. destruct (c_worker _); injection X as <- <-; [apply NF_post; auto; discriminate|exact H]. Qed.
Lemma NF_go t a rest s : NF s -> s_cur s t = a :: rest -> NF (go t rest s) /\ a <> AFatal.
Proof.
  intros (D0 & H) E. split.
  - split; [exact D0|]. intros t' I. cbn [go w_cur s_cur s_q] in I. unfold updt in I. destruct (tid_eqb_spec t' t) as [X|X]; [subst t'|exact (H _ I)]. apply (H t). rewrite E. right. exact I.
  - intros ->. apply (H t). rewrite E. left. reflexivity.
Qed.

Section Run.
Variables burst nw : nat.
Notation step := (step burst nw).
Notation run := (run burst nw).

Lemma NF_step e s s' o : step e s = Some (s', o) -> feed_ev e s -> NF s -> NF s'.
Proof.
  intros X F H. unfold PoolModel.step in X. destruct (s_stop s); [discriminate|]. destruct e as [|c|c|fd w ok|c w tmo ok|c i|c|t|t|t ch|].
  - injection X as <- <-. apply NF_post; [apply (NF_same s); auto|discriminate].
  - destruct (c <? s_nc s); [|discriminate]. injection X as <- <-. apply NF_post; auto; discriminate.
  - destruct (c_worker _); [|discriminate]. injection X as X. apply (NF_wterm _ _ _ _ X H).
  - destruct (_ && _); [|discriminate]. destruct ok; [destruct (existsb _ _); [discriminate|]|]; injection X as <- <-; (apply NF_post; [apply (NF_same s); auto|discriminate]).
  - destruct (_ && _); [|discriminate]. destruct ok; injection X as <- <-; (apply NF_post; [|discriminate]); [apply (NF_same s); auto|]. apply NF_dterm. apply (NF_same s); auto.
  - destruct (c_worker _); [|discriminate]. destruct (_ && _); [|discriminate]. unfold io_step in X.
    assert (Y : forall s0 l0 s1 o1, NF s0 -> (let '(s', o') := worker_terminate c s0 in Some (s', l0 ++ o')) = Some (s1, o1) -> NF s1).
    { intros s0 l0 s1 o1 H0 Z. destruct (worker_terminate c s0) as (s2 & o2) eqn:E. injection Z as <- <-. apply (NF_wterm _ _ _ _ E H0). }
    destruct i as [bs [|]|[|] rs|wr res]; destruct (c_recv (s_conn s c)); try discriminate.
    all: try (eapply Y; [|exact X]; first [exact H|apply (NF_same s); auto]).
    all: try (injection X as <- <-; first [exact H|apply (NF_same s); auto; fail]).
    destruct res as [[|]|].
    + injection X as <- <-. apply NF_post; [|discriminate]. destruct wr; apply (NF_same s); auto.
    + injection X as <- <-. destruct wr; apply (NF_same s); auto.
    + destruct (worker_terminate c _) as (s2 & o2) eqn:E. injection X as <- <-. apply (NF_wterm _ _ _ _ E). apply NF_post; [|discriminate]. destruct wr; [apply (NF_same s); auto|exact H].
  - destruct (c_worker _); [|discriminate]. destruct (_ && _); [|discriminate]. injection X as <- <-. apply (NF_same s); auto.
  - destruct (idle t s); [|discriminate]. injection X as <- <-. apply (NF_same s); auto.
  - destruct (s_cur s t) as [|a0 r0] eqn:EC; [|discriminate]. destruct (s_left s t) as [|n]; [discriminate|]. destruct (s_q s t) as [|a q] eqn:EQ; [injection X as <- <-; apply (NF_same s); auto|].
    destruct H as (D0 & H). set (s1 := w_left (updt (s_left s) t n) (w_q (updt (s_q s) t q) s)) in *.
    assert (Y : NF (go t [a] s1)). { split; [exact D0|]. intros t' I. cbn [go w_cur s_cur s_q s1 w_left w_q] in I. unfold updt in I. destruct (tid_eqb_spec t' t) as [N|N]; [subst t'|exact (H _ I)]. apply (H t). rewrite EC, EQ. exact I. }
    rewrite D0 in X. assert (Z : go t [a] s1 = s') by (destruct t as [|[|w]]; congruence). rewrite <- Z. exact Y.
  - destruct (s_cur s t) as [|a rest] eqn:EC; [discriminate|]. destruct ch as [ok thr fd]. cbn in F. rewrite EC in F. destruct (NF_go _ _ _ _ H EC) as (H1 & NA). set (s1 := go t rest s) in *. clearbody s1. clear H EC.
    destruct a as [id|c|c|c|c|c|c|c ret|c b|fa id| |c|c|c|c|c|c|c ret]; cbn [act_step] in X.
    + destruct thr; [injection X as <- <-; apply NF_post; auto; discriminate|]. destruct (existsb _ _); [discriminate|]. injection X as <- <-. destruct ok; [|apply NF_dterm]; apply (NF_same s1); auto.
    + injection X as <- <-. apply NF_dterm. exact H1.
    + destruct (c_term _); injection X as <- <-; [exact H1|]. apply NF_front; [apply (NF_same s1); auto|]. intros [I|[I|[]]]; discriminate.
    + destruct (pool_find _ _); injection X as <- <-; [|exact H1]. apply NF_front; [apply (NF_same s1); auto|]. intros [I|[I|[]]]; discriminate.
    + destruct ok; injection X as <- <-; [apply NF_post; auto; discriminate|]. apply NF_dterm. apply NF_post; auto; discriminate.
    + subst ok. injection X as <- <-. assert (Y : NF (front t [AInc c] (on c (fun k => set_recv (if s_tls s1 then RHand else RPlain) (set_sock true (s_tls s1) k)) s1))). { apply NF_front; [apply (NF_same s1); auto|]. intros [I|[]]; discriminate. }
      destruct (s_tls s1); [exact Y|apply NF_post; [exact Y|discriminate]].
    + destruct (c_term _); injection X as <- <-; [exact H1|]. apply NF_front; [apply (NF_same s1); auto|]. intros [I|[I|[]]]; discriminate.
    + destruct (c_term _); [injection X as <- <-; exact H1|]. destruct (negb _); [injection X as <- <-; exact H1|]. destruct (s_tls s1); [destruct ret|].
      * injection X as <- <-. apply (NF_same s1); auto.
      * injection X as X. apply (NF_wterm _ _ _ _ X H1).
      * injection X as <- <-. apply (NF_same s1); auto.
    + destruct thr; injection X as <- <-; [exact H1|]. destruct b; [|exact H1]. apply NF_front; [exact H1|]. intros [I|[]]; discriminate.
    + injection X as <- <-. exact H1.
    + congruence.
    + destruct t; [discriminate|]. injection X as <- <-. apply (NF_same s1); auto.
    + injection X as <- <-. destruct (c_worker _); apply (NF_same s1); auto.
    + injection X as <- <-. destruct (c_worker _); apply (NF_same s1); auto.
    + injection X as <- <-. apply NF_post; auto; discriminate.
    + injection X as <- <-. apply NF_post; auto; discriminate.
    + injection X as <- <-. apply (NF_same s1); auto.
    + destruct (c_worker _); injection X as <- <-; [apply NF_post; auto; discriminate|exact H1].
  - destruct (forallb _ _); [|discriminate]. injection X as <- <-. apply (NF_same s); auto.
Qed.

(** ** What is true of a run so far *)
Record Inv (cm fo : bool) (s : st) (l : list obs) : Prop := {
  n_G : G s;
  n_A : forall c, c < s_nc s -> A (s_tls s) (s_dead s) (see s c) (of c l);
  n_new : forall c, s_nc s <= c -> of c l = [];
  n_B : cm = true -> forall c, c < s_nc s -> B (see s c) (of c l);
  n_C : cm = true -> fo = true -> NF s /\ forall c, c < s_nc s -> C (see s c) (of c l) }.

Lemma Inv_init cm fo tls aid us : Inv cm fo (st0 tls aid us) [].
Proof.
  constructor; [apply G_init| | | |]; try (cbn; intros; lia); try reflexivity.
  intros _ _. split; [|cbn; intros; lia]. split; [reflexivity|]. intros t [].
Qed.

Lemma see_fresh s c : G s -> s_nc s <= c -> see s c = mkV conn0 [] [] [] false.
Proof. intros g L. destruct (g_new s g c L) as (E1 & E2). unfold see, vw. rewrite E1, E2, !(V_none _ _ _ s g L). reflexivity. Qed.

Lemma Inv_HD cm fo s l : Inv cm fo s l -> forall c, In (ADel c) (v_d (see s c)) -> v_lv (see s c) = true.
Proof.
  intros H c I. assert (L : c < s_nc s). { cbn [see v_d] in I. apply V_In in I. destruct I as (I & _). apply (g_lt s (n_G _ _ _ _ H) _ _ _ I). reflexivity. }
  pose proof (a_term _ _ _ _ (n_A _ _ _ _ H c L)) as T. assert (X : 0 < cnt isDel (v_d (see s c))) by (apply cnt_In; exists (ADel c); auto).
  pose proof (b2n_le (c_term (v_k (see s c)))). destruct (v_lv (see s c)); [reflexivity|]. cbn [nb] in T. lia.
Qed.

Lemma Inv_step cm fo e s s' o l : Inv cm fo s l -> step e s = Some (s', o) -> e <> EStop -> (cm = true -> calm_ev e s) -> (fo = true -> feed_ev e s) -> Inv cm fo s' (l ++ o).
Proof.
  intros H X NS CM FO. destruct (sim_step burst nw cm fo e s s' o X NS (n_G _ _ _ _ H) (Inv_HD _ _ _ _ H) CM FO) as ([g' TL DD NC] & V0).
  assert (NEWQ : forall c, quiet s s' o c -> c < s_nc s' -> c < s_nc s).
  { intros c (Q1 & _) L. destruct (le_lt_dec (s_nc s) c) as [Y|Y]; [|exact Y]. destruct (V0 (s_nc s)) as [(Q3 & _)|[(Q3 & _)|(_ & E & V1 & _)]]; [| lia |].
    - exfalso. (* a connection appears only as a fresh one *)
      revert L Q1 Q3. clear - X NS Y H. intros L Q1 Q3.
      assert (Z : s_nc s' = s_nc s \/ (s_nc s' = S (s_nc s) /\ v_lv (see s' (s_nc s)) = true)).
      { unfold PoolModel.step in X. destruct (s_stop s); [discriminate|].
        assert (DT : forall c s, s_nc (disp_terminate c s) = s_nc s) by (intros c1 s1; unfold disp_terminate; destruct (c_worker (s_conn s1 c1)); reflexivity).
        assert (WT : forall c s s2 o2, worker_terminate c s = (s2, o2) -> s_nc s2 = s_nc s) by (intros c1 s1 s2 o2; unfold worker_terminate; destruct (c_worker (s_conn s1 c1)); intros Z; injection Z as <- <-; reflexivity).
        destruct e as [|c0|c0|fd w ok|c0 w tmo ok|c0 i|c0|t|t|t ch|].
        - injection X as <- <-. left. reflexivity.
        - destruct (c0 <? s_nc s); [|discriminate]. injection X as <- <-. left. reflexivity.
        - destruct (c_worker _); [|discriminate]. injection X as X. left. exact (WT _ _ _ _ X).
        - destruct (_ && _); [|discriminate]. destruct ok; [destruct (existsb _ _); [discriminate|]|]; injection X as <- <-; [right|left; reflexivity]. split; [reflexivity|]. cbn. unfold live. cbn. rewrite Nat.eqb_refl. reflexivity.
        - destruct (_ && _); [|discriminate]. destruct ok; injection X as <- <-; left; [reflexivity|]. cbn [post w_q s_nc]. rewrite DT. reflexivity.
        - destruct (c_worker _); [|discriminate]. destruct (_ && _); [|discriminate]. left. destruct (le_lt_dec (s_nc s) c0) as [Y0|Y0].
          + exfalso. destruct (g_new s (n_G _ _ _ _ H) c0 Y0) as (Z & _). unfold io_step in X. rewrite Z in X. destruct i as [? [|]|? ?|? ?]; discriminate.
          + unfold io_step in X. destruct i as [bs [|]|[|] rs|wr res]; destruct (c_recv (s_conn s c0)); try discriminate.
            1-2: destruct (worker_terminate c0 _) as (s2 & o2) eqn:E; injection X as <- <-; exact (WT _ _ _ _ E).
            4-6: destruct (worker_terminate c0 _) as (s2 & o2) eqn:E; injection X as <- <-; exact (WT _ _ _ _ E).
            all: try (injection X as <- <-; reflexivity).
            destruct res as [[|]|]; [injection X as <- <-; destruct wr; reflexivity|injection X as <- <-; destruct wr; reflexivity|].
            destruct (worker_terminate c0 _) as (s2 & o2) eqn:E. injection X as <- <-. rewrite (WT _ _ _ _ E). destruct wr; reflexivity.
        - destruct (c_worker _); [|discriminate]. destruct (_ && _); [|discriminate]. injection X as <- <-. left. reflexivity.
        - destruct (idle t s); [|discriminate]. injection X as <- <-. left. reflexivity.
        - destruct (s_cur s t); [|discriminate]. destruct (s_left s t); [discriminate|]. destruct (s_q s t); [injection X as <- <-; left; reflexivity|]. left. destruct t as [|[|w]]; injection X as <- <-; try reflexivity. destruct (s_dead s); reflexivity.
        - destruct (s_cur s t) as [|a rest]; [discriminate|]. destruct ch as [ok thr fd]. destruct a; cbn [act_step] in X.
          + destruct thr; [injection X as <- <-; left; reflexivity|]. destruct (existsb _ _); [discriminate|]. injection X as <- <-. right. destruct ok.
            * split; [reflexivity|]. cbn. unfold live. cbn. rewrite Nat.eqb_refl. reflexivity.
            * rewrite DT. split; [reflexivity|]. cbn [see v_lv]. unfold live, disp_terminate. destruct (c_worker _); cbn; rewrite Nat.eqb_refl; reflexivity.
          + injection X as <- <-. left. rewrite DT. reflexivity.
          + destruct (c_term _); injection X as <- <-; left; reflexivity.
          + destruct (pool_find _ _); injection X as <- <-; left; reflexivity.
          + destruct ok; injection X as <- <-; left; [reflexivity|]. rewrite DT. reflexivity.
          + left. destruct ok; [injection X as <- <-; destruct (s_tls _); reflexivity|]. destruct t as [|[|w]]; injection X as <- <-; reflexivity.
          + destruct (c_term _); injection X as <- <-; left; reflexivity.
          + left. destruct (c_term _); [injection X as <- <-; reflexivity|]. destruct (negb _); [injection X as <- <-; reflexivity|]. destruct (s_tls _); [destruct ret|]; [injection X as <- <-; reflexivity| |injection X as <- <-; reflexivity]. injection X as X. rewrite (WT _ _ _ _ X). reflexivity.
          + left. destruct thr; injection X as <- <-; [reflexivity|]. destruct b; reflexivity.
          + injection X as <- <-. left. reflexivity.
          + injection X as <- <-. left. reflexivity.
          + destruct t; [discriminate|]. injection X as <- <-. left. reflexivity.
          + injection X as <- <-. left. destruct (c_worker _); reflexivity.
          + injection X as <- <-. left. destruct (c_worker _); reflexivity.
          + injection X as <- <-. left. reflexivity.
          + injection X as <- <-. left. reflexivity.
          + injection X as <- <-. left. reflexivity.
          + destruct (c_worker _); injection X as <- <-; left; reflexivity.
        - congruence. }
      destruct Z as [Z|(Z1 & Z2)]; [lia|]. assert (c = s_nc s) by lia. subst c. rewrite Q1, see_fresh in Z2; [discriminate|exact (n_G _ _ _ _ H)|lia].
    - subst. exfalso. assert (c = s_nc s) by lia. subst c. rewrite Q1, see_fresh in V1 by (auto; exact (n_G _ _ _ _ H)). inversion V1. }
  constructor.
  - exact g'.
  - intros c L. rewrite of_app, TL. destruct (V0 c) as [Q|[(L0 & VS)|(E & E2 & VN & Q)]].
    + pose proof (NEWQ c Q L) as L0. destruct Q as (Q1 & Q2). unfold of at 2. rewrite Q1, Q2, app_nil_r. apply (A_weak _ (s_dead s)); [exact DD|]. exact (n_A _ _ _ _ H c L0).
    + apply (A_weak _ (s_dead s)); [exact DD|]. eapply A_step; [exact (n_A _ _ _ _ H c L0)|exact VS].
    + unfold of at 2. rewrite Q, app_nil_r, (n_new _ _ _ _ H c) by lia. eapply A_new. exact VN.
  - intros c L. rewrite of_app, (n_new _ _ _ _ H c) by lia. destruct (V0 c) as [Q|[(L0 & VS)|(E & E2 & VN & Q)]]; [exact (proj2 Q)|lia|exact Q].
  - intros C0 c L. rewrite of_app. destruct (V0 c) as [Q|[(L0 & VS)|(E & E2 & VN & Q)]].
    + pose proof (NEWQ c Q L) as L0. destruct Q as (Q1 & Q2). unfold of at 2. rewrite Q1, Q2, app_nil_r. exact (n_B _ _ _ _ H C0 c L0).
    + subst cm. eapply B_step; [exact (n_A _ _ _ _ H c L0)|exact (n_B _ _ _ _ H eq_refl c L0)|exact VS].
    + unfold of at 2. rewrite Q, app_nil_r, (n_new _ _ _ _ H c) by lia. eapply B_new. exact VN.
  - intros C0 F0. destruct (n_C _ _ _ _ H C0 F0) as (NF0 & HC). split; [exact (NF_step _ _ _ _ X (FO F0) NF0)|]. intros c L. rewrite of_app. destruct (V0 c) as [Q|[(L0 & VS)|(E & E2 & VN & Q)]].
    + pose proof (NEWQ c Q L) as L0. destruct Q as (Q1 & Q2). unfold of at 2. rewrite Q1, Q2, app_nil_r. exact (HC c L0).
    + subst cm fo. destruct NF0 as (ND & _). pose proof (n_A _ _ _ _ H c L0) as HA. rewrite ND in VS, HA. eapply C_step; [exact HA|exact (n_B _ _ _ _ H eq_refl c L0)|exact (HC c L0)|exact VS].
    + unfold of at 2. rewrite Q, app_nil_r, (n_new _ _ _ _ H c) by lia. eapply C_new. exact VN.
Qed.

(** A condition on the state at each event of a run. *)
Fixpoint along (P : ev -> st -> Prop) (es : list ev) (s : st) : Prop :=
  match es with
  | [] => True
  | e :: es => P e s /\ match step e s with Some (s1, _) => along P es s1 | None => True end
  end.

Lemma run_stop es s s' o : s_stop s = true -> run es s = Some (s', o) -> es = [] /\ s' = s /\ o = [].
Proof. intros E X. destruct es as [|e es]; cbn in X; [injection X as <- <-; auto|]. unfold PoolModel.step in X. rewrite E in X. discriminate. Qed.

Lemma Inv_run cm fo es : forall s l s' o, Inv cm fo s l -> run es s = Some (s', o) -> ~ In EStop es ->
  (cm = true -> along calm_ev es s) -> (fo = true -> along feed_ev es s) -> Inv cm fo s' (l ++ o).
Proof.
  induction es as [|e es IH]; intros s l s' o H X NS CM FO; cbn [PoolModel.run] in X.
  - injection X as <- <-. rewrite app_nil_r. exact H.
  - destruct (step e s) as [(s1 & o1)|] eqn:E; [|discriminate]. destruct (run es s1) as [(s2 & o2)|] eqn:E2; [|discriminate]. injection X as <- <-. rewrite app_assoc.
    assert (N1 : e <> EStop) by (intros ->; apply NS; left; reflexivity).
    apply (IH s1 (l ++ o1) s2 o2); [|exact E2|intros I; apply NS; right; exact I| |].
    + apply (Inv_step _ _ e s); auto; [intros C0; exact (proj1 (CM C0))|intros F0; exact (proj1 (FO F0))].
    + intros C0. specialize (CM C0). cbn in CM. rewrite E in CM. exact (proj2 CM).
    + intros F0. specialize (FO F0). cbn in FO. rewrite E in FO. exact (proj2 FO).
Qed.

Lemma run_app es1 : forall es2 s s' o, run (es1 ++ es2) s = Some (s', o) -> exists s1 o1 o2, run es1 s = Some (s1, o1) /\ run es2 s1 = Some (s', o2) /\ o = o1 ++ o2.
Proof.
  induction es1 as [|e es1 IH]; intros es2 s s' o X; [exists s, [], o; auto|]. cbn [app PoolModel.run] in *. destruct (step e s) as [(s1 & o1)|]; [|discriminate].
  destruct (run (es1 ++ es2) s1) as [(s2 & o2)|] eqn:E; [|discriminate]. injection X as <- <-. destruct (IH _ _ _ _ E) as (s3 & o3 & o4 & E1 & E2 & ->). rewrite E1. exists s3, (o1 ++ o3), o4. rewrite app_assoc. auto.
Qed.

(** A run either has not stopped or ends with [EStop]. *)
Lemma run_cases es s s' o : run es s = Some (s', o) -> ~ In EStop es \/ exists es', es = es' ++ [EStop] /\ ~ In EStop es'.
Proof.
  revert s s' o. induction es as [|e es IH]; intros s s' o X; [left; auto|]. cbn [PoolModel.run] in X. destruct (step e s) as [(s1 & o1)|] eqn:E; [|discriminate]. destruct (run es s1) as [(s2 & o2)|] eqn:E2; [|discriminate].
  assert (DE : e = EStop \/ e <> EStop) by (destruct e; try (right; discriminate); left; reflexivity). destruct DE as [->|N].
  - unfold PoolModel.step in E. destruct (s_stop s); [discriminate|]. destruct (forallb _ _); [|discriminate]. injection E as <- <-. destruct (run_stop _ (w_stop s) _ _ eq_refl E2) as (-> & _). right. exists []. auto.
  - destruct (IH _ _ _ E2) as [A0|(es' & -> & A0)].
    + left. intros [I|I]; [congruence|exact (A0 I)].
    + right. exists (e :: es'). split; [reflexivity|]. intros [I|I]; [congruence|exact (A0 I)].
Qed.
Lemma along_app P es1 : forall es2 s, along P (es1 ++ es2) s -> along P es1 s.
Proof. induction es1 as [|e es1 IH]; intros es2 s H; [exact I|]. cbn in *. destruct H as (H1 & H2). split; [exact H1|]. destruct (step e s) as [(s1 & o1)|]; [eauto|exact I]. Qed.

End Run.

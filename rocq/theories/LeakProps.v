(** Property C143: when the object of a connection is freed.

    A connection is an object shared by handles ([conn_t], ref.h): it is freed
    when no handle of it is left.  This file looks at the handles the pool
    itself keeps, in the model of PoolModel.v. *)
From Coq Require Import Arith NArith List Bool Lia.
From Verif Require Import PoolModel PoolProofs PoolInv PoolCalm PoolFed PoolRun PoolLog PoolIds PoolDrain PoolProps.
Import ListNotations.

(** ** Specification *)

(** The tasks whose lambda captured a handle of connection c. *)
Definition captures (c : nat) (a : act) : Prop :=
  match a with
  | ADispTerm d | ADExch d | ADel d | ASetup d | AFeed d | AWExch d | AGo d _ | ACb d _
  | AInc d | ATearW d | ATearD d | APostDel d | AOff d | ARelease d | APostGo d _ => d = c
  | AConn _ | AErr _ _ | AFatal => False
  end.

(** Who in the pool has a handle of c: the table of connections (conn.h 206);
    a task waiting or running; the callback of ev_connect (conn.cpp 426-428);
    the callback of ev_socket (conn.h 291) and those set up together with it
    and given up together with it: the send queue's handler (271), the timers
    ev_enqueue_poll and ev_timeout (network.h 139-140, 762).
    Simplified: a callback of ev_connect that is not active any more
    (conn.cpp 344) still has its handle, until ev_connect.clear() (447) just
    before the close; until then the table or a task has one as well
    ([C143_kept]).  Messages waiting for their handler have handles too; those
    go with the messages.  *)
Inductive held (s : st) (c : nat) : Prop :=
| held_table fd : In (fd, c) (s_pool s) -> held s c
| held_task t a : In a (s_cur s t ++ s_q s t) -> captures c a -> held s c
| held_connect : c_evc (s_conn s c) = true -> held s c
| held_socket : c_evs (s_conn s c) = true -> held s c.

(** *** Lemmas *)
Lemma captures_of c a : captures c a <-> conn_of a = Some c.
Proof. destruct a; cbn; split; intros H; try contradiction; try discriminate; try congruence. Qed.
Lemma live_table s c : live c s = true <-> exists fd, In (fd, c) (s_pool s).
Proof.
  unfold live. rewrite existsb_exists. split.
  - intros ((fd & d) & I & E). cbn in E. apply Nat.eqb_eq in E. subst. eauto.
  - intros (fd & I). exists (fd, c). split; [exact I|apply Nat.eqb_refl].
Qed.
(** A worker about to tear a connection down goes on to post its deletion. *)
Lemma tear_post s c : G s -> 0 < cnt isT (v_w (see s c)) -> 0 < cnt isP (v_w (see s c)).
Proof.
  intros g H. apply cnt_In in H. destruct H as (a & I & E). destruct a; try discriminate E. clear E. cbn [see v_w] in *. unfold vw in *.
  destruct (c_worker (s_conn s c)) as [w|]; [|destruct I]. unfold V in I. apply filter_In in I. destruct I as (I & B).
  assert (c0 = c). { unfold about in B. cbn in B. apply Nat.eqb_eq in B. exact B. } subst c0.
  apply in_app_or in I. destruct I as [I|I]; [|pose proof (g_task s g _ _ I) as X; discriminate X].
  apply cnt_In. exists (APostDel c). split; [|reflexivity]. unfold V. apply filter_In. split; [|unfold about; cbn; apply Nat.eqb_refl].
  apply in_or_app. left. pose proof (g_shape s g (W w)) as SH. revert I SH. generalize (s_cur s (W w)). intros cu I SH.
  destruct SH as [|a0 X|d|d|d|d|d|d|d r]; cbn in I |- *.
  all: try (destruct I as [I|I]; [subst; discriminate|]); try (destruct I as [I|I]; [discriminate|]); try contradiction.
  destruct I as [I|[I|[]]]; [injection I as ->; right; left; reflexivity|discriminate].
Qed.

(** ** The object lives as long as the connection is open *)
Theorem C143_kept : forall burst nw tls aid us es s o c,
  run burst nw es (st0 tls aid us) = Some (s, o) -> ~ In EStop es ->
  c < s_nc s -> count (closed c) o = 0 -> held s c.
Proof.
  intros burst nw tls aid us es s o c X N L Z. pose proof (start_inv burst nw tls aid us false false es s o X N ltac:(discriminate) ltac:(discriminate)) as H.
  rewrite count_closed in Z. pose proof (a_close _ _ _ _ (n_A _ _ _ _ H c L)) as K. rewrite Z in K. destruct (live c s) eqn:LV.
  - apply live_table in LV. destruct LV as (fd & I). exact (held_table s c fd I).
  - cbn [see v_lv] in K. rewrite LV in K. cbn [nb] in K. assert (Y : 0 < cnt isR (v_d (see s c))) by lia. apply cnt_In in Y. destruct Y as (a & I & E). cbn [see v_d] in I. unfold V in I. apply filter_In in I. destruct I as (I & B).
    apply (held_task s c D a I). apply captures_of. unfold about in B. apply andb_true_iff in B. destruct B as (_ & B). destruct (conn_of a) as [d|]; [|discriminate]. apply Nat.eqb_eq in B. congruence.
Qed.
Print Assumptions C143_kept.

(** ** It is freed afterwards *)

(** In full: once the socket is closed, no callback and no table has a handle
    any more, and when the threads have nothing left to do no one has. *)
Definition C143_freed_full : Prop := forall burst nw tls aid us es s o c,
  run burst nw es (st0 tls aid us) = Some (s, o) -> ~ In EStop es ->
  0 < count (closed c) o -> nothing_left s -> ~ held s c.

(** Proved where no connection is found established while its termination is
    under way.  Of the moment of the close already: only tasks still have
    handles. *)
Theorem C143_freed_partial : forall burst nw tls aid us es s o c,
  run burst nw es (st0 tls aid us) = Some (s, o) -> ~ In EStop es ->
  along burst nw (fun e s => match e with EReady d _ _ true => ~ In (ADExch d) (s_q s D) | _ => True end) es (st0 tls aid us) ->
  0 < count (closed c) o ->
  (held s c -> exists t a, In a (s_cur s t ++ s_q s t) /\ captures c a) /\
  (nothing_left s -> ~ held s c).
Proof.
  intros burst nw tls aid us es s o c X N CM Z. pose proof (start_inv burst nw tls aid us true false es s o X N (fun _ => CM) ltac:(discriminate)) as H.
  rewrite count_closed in Z. assert (L : c < s_nc s). { destruct (le_lt_dec (s_nc s) c) as [L|L]; [|exact L]. rewrite (n_new _ _ _ _ H c L) in Z. cbn in Z. lia. }
  pose proof (n_A _ _ _ _ H c L) as HA. pose proof (n_B _ _ _ _ H eq_refl c L) as HB. pose proof (a_close _ _ _ _ HA) as K1. pose proof (a_term _ _ _ _ HA) as K2. pose proof (nb_le (v_lv (see s c))) as K3. pose proof (b2n_le (c_term (v_k (see s c)))) as K4.
  assert (T1 : b2n (c_term (v_k (see s c))) = 1) by lia.
  assert (P : held s c -> exists t a, In a (s_cur s t ++ s_q s t) /\ captures c a).
  { intros [fd I|t a I CA|E|E].
    - exfalso. assert (LV : live c s = true) by (apply live_table; eauto). cbn [see v_lv] in K1. rewrite LV in K1. cbn [nb] in K1. lia.
    - eauto.
    - exfalso. pose proof (b_evc _ _ HB) as Y. cbn [see v_k] in Y, T1. rewrite E in Y. specialize (Y eq_refl T1). lia.
    - exfalso. pose proof (b_evs _ _ HB) as Y. cbn [see v_k] in Y, T1. rewrite E in Y. specialize (Y eq_refl T1). pose proof (tear_post s c (n_G _ _ _ _ H) Y). lia. }
  split; [exact P|]. intros Q HE. destruct (P HE) as (t & a & I & _). destruct (Q t) as (Q1 & Q2). rewrite Q1, Q2 in I. exact I.
Qed.
Print Assumptions C143_freed_partial.

(** And the threads do come to have nothing left: from every such state their
    loops alone lead to one in which no one has a handle. *)
Theorem C143_freed_in_the_end_partial : forall burst nw tls aid us es s o c, 0 < nw -> 0 < burst ->
  run burst nw es (st0 tls aid us) = Some (s, o) -> ~ In EStop es -> s_stop s = false ->
  along burst nw (fun e s => match e with EReady d _ _ true => ~ In (ADExch d) (s_q s D) | _ => True end) es (st0 tls aid us) ->
  0 < count (closed c) o ->
  exists es' s' o', Forall loop_step es' /\ run burst nw es' s = Some (s', o') /\ ~ held s' c.
Proof.
  intros burst nw tls aid us es s o c P1 P2 X N ST CM Z. pose proof (start_inv burst nw tls aid us false false es s o X N ltac:(discriminate) ltac:(discriminate)) as H.
  assert (wb : WB nw s) by (apply (WB_run burst nw es _ _ _ X); intros d w E; discriminate E).
  destruct (drain burst nw (M nw s) s o (le_n _) H wb P1 P2 ST) as (es' & s' & o' & L & R & Q). exists es', s', o'. split; [|split; [exact R|]].
  - apply Forall_forall. intros e I. rewrite forallb_forall in L. specialize (L e I). destruct e; try discriminate; exact Logic.I.
  - assert (N' : ~ In EStop es') by (intros I; rewrite forallb_forall in L; specialize (L _ I); discriminate L).
    assert (X2 : run burst nw (es ++ es') (st0 tls aid us) = Some (s', o ++ o')).
    { clear - X R. revert s s' o o' X R. generalize (st0 tls aid us). induction es as [|e es IH]; intros s0 s s' o o' X R; cbn [app PoolModel.run] in *; [injection X as <- <-; exact R|].
      destruct (step burst nw e s0) as [(s1 & o1)|]; [|discriminate]. destruct (run burst nw es s1) as [(s2 & o2)|] eqn:E; [|discriminate]. injection X as <- <-. rewrite (IH _ _ _ _ _ E R), app_assoc. reflexivity. }
    destruct (C143_freed_partial burst nw tls aid us (es ++ es') s' (o ++ o') c X2) as (_ & F).
    + intros I. apply in_app_or in I. destruct I; auto.
    + clear - CM X L. assert (K : forall es0 s0 s1 o1, run burst nw es0 s0 = Some (s1, o1) -> along burst nw calm_ev es0 s0 -> along burst nw calm_ev (es0 ++ es') s0).
      { assert (KL : forall es0 s0, forallb loop_ev es0 = true -> along burst nw calm_ev es0 s0).
        { induction es0 as [|e es0 IH]; intros s0 F; [exact I|]. cbn [forallb] in F. apply andb_true_iff in F. destruct F as (F1 & F2). cbn [along]. split; [destruct e; try discriminate; exact I|]. destruct (step burst nw e s0) as [(s1 & o1)|]; [auto|exact I]. }
        induction es0 as [|e es0 IH]; intros s0 s1 o1 R A; cbn [app]; [apply KL; exact L|]. cbn [along PoolModel.run] in *. destruct A as (A1 & A2). split; [exact A1|].
        destruct (step burst nw e s0) as [(s2 & o2)|]; [|exact I]. destruct (run burst nw es0 s2) as [(s3 & o3)|] eqn:E; [|discriminate]. exact (IH _ _ _ E A2). }
      exact (K es _ _ _ X CM).
    + rewrite !count_cnt, cnt_app. rewrite count_cnt in Z. lia.
    + apply F. exact Q.
Qed.
Print Assumptions C143_freed_in_the_end_partial.

(** ** In the race of C51 and C72 it is never freed *)

(** A connection closed and yet taken over by its worker. *)
Definition stuck (v : view) : Prop :=
  c_evs (v_k v) = true /\ c_term (v_k v) = true /\ c_worker (v_k v) <> None /\ v_lv v = false /\ cnt isT (v_w v) + cnt isTD (v_d v) + cnt isR (v_d v) = 0.

Lemma stuck_step tls dead c v o v' l : A tls dead v l -> stuck v -> vstep tls dead false false c v o v' -> stuck v'.
Proof.
  intros I (J1 & J2 & J3 & J4 & J5) H. destruct v as [[fd [wk|] term evc evs arm rs recv] w d u lv]; cbn in J1, J2, J3, J4, J5; [|congruence]. subst evs term lv. unfold stuck.
  destruct tls; vinv H; spl; norm; try congruence; subst.
  all: destruct I as [i1 i2 i3 i4 i5 i6 i7 i8 i9 i10 i11 i12 i13 i14 i15 i16 i17 i18]; clear i3 i4 i7 i8 i9 i10 i11 i12 i13 i14 i15 i16 i17 i18; cn; cb; cn.
  all: try lia; try (repeat split; try reflexivity; try discriminate; cn; lia).
Qed.

Section Forever.
Variables burst nw : nat.
Lemma stuck_ev e s s' o l c : Inv false false s l -> step burst nw e s = Some (s', o) -> c < s_nc s -> stuck (see s c) -> stuck (see s' c).
Proof.
  intros H X L K. assert (DE : e = EStop \/ e <> EStop) by (destruct e; try (right; discriminate); left; reflexivity). destruct DE as [->|N].
  - unfold step in X. destruct (s_stop s); [discriminate|]. destruct (forallb _ _); [|discriminate]. injection X as <- <-. exact K.
  - destruct (sim_step burst nw false false e s s' o X N (n_G _ _ _ _ H) (Inv_HD _ _ _ _ H) ltac:(discriminate) ltac:(discriminate)) as (_ & V0).
    destruct (V0 c) as [(Q & _)|[(_ & VS)|(E & _)]]; [rewrite Q; exact K|exact (stuck_step _ _ _ _ _ _ _ (n_A _ _ _ _ H c L) K VS)|lia].
Qed.
Lemma nc_mono e s s' o l : Inv false false s l -> step burst nw e s = Some (s', o) -> e <> EStop -> s_nc s <= s_nc s'.
Proof.
  intros H X N. destruct (sim_step burst nw false false e s s' o X N (n_G _ _ _ _ H) (Inv_HD _ _ _ _ H) ltac:(discriminate) ltac:(discriminate)) as ([_ _ _ K] & _). exact K.
Qed.
Lemma stuck_run es : forall s s' o l c, Inv false false s l -> run burst nw es s = Some (s', o) -> c < s_nc s -> stuck (see s c) -> stuck (see s' c).
Proof.
  induction es as [|e es IH]; intros s s' o l c H X L K; cbn [PoolModel.run] in X; [injection X as <- <-; exact K|].
  destruct (step burst nw e s) as [(s1 & o1)|] eqn:E; [|discriminate]. destruct (run burst nw es s1) as [(s2 & o2)|] eqn:E2; [|discriminate]. injection X as <- <-.
  pose proof (stuck_ev _ _ _ _ _ _ H E L K) as K1.
  assert (DE : e = EStop \/ e <> EStop) by (destruct e; try (right; discriminate); left; reflexivity). destruct DE as [->|N].
  - unfold step in E. destruct (s_stop s); [discriminate|]. destruct (forallb _ _); [|discriminate]. injection E as <- <-. destruct (run_stop burst nw _ (w_stop s) _ _ eq_refl E2) as (-> & -> & _). exact K1.
  - apply (IH s1 s2 o2 (l ++ o1)); auto; [apply (Inv_step burst nw _ _ e s); auto; discriminate|]. pose proof (nc_mono _ _ _ _ _ H E N). lia.
Qed.
End Forever.

(** The user's connect() is being established; the user terminates it; before
    the dispatcher gets to that, the connection is found established and
    handed to a worker; then it is torn down, closed and its disconnection
    reported.  The worker takes it over afterwards, and its callbacks keep a
    handle of the very object they belong to: whatever happens from then on,
    stop() included, it is never freed, although the threads have nothing left
    to do and the user has no handle. *)
Definition raced : list ev :=
  late ++ batch D (task D yes ++ [EAct D yes; EAct D yes; EAct D yes; EAct D yes]) ++ batch (W 1) (task (W 1) yes ++ [EAct (W 1) yes])
  ++ EBatch U :: concat (repeat (task U yes) 128).
Theorem C143_freed_refuted : exists es s o c, run 128 2 es (st0 false 0%N []) = Some (s, o) /\ ~ In EStop es /\
  0 < count (closed c) o /\ 0 < count (called c false) o /\ nothing_left s /\
  forall es' s' o', run 128 2 es' s = Some (s', o') -> held s' c.
Proof.
  destruct (run 128 2 raced (st0 false 0%N [])) as [(s & o)|] eqn:E; [|exfalso; vm_compute in E; discriminate].
  assert (K : option_map (fun x => (s_stop (fst x), s_nc (fst x), c_evs (s_conn (fst x) 0), c_term (s_conn (fst x) 0), c_worker (s_conn (fst x) 0), live 0 (fst x), cnt isT (v_w (see (fst x) 0)) + cnt isTD (v_d (see (fst x) 0)) + cnt isR (v_d (see (fst x) 0)), count (closed 0) (snd x), count (called 0 false) (snd x))) (run 128 2 raced (st0 false 0%N [])) = Some (false, 1, true, true, Some 1, false, 0, 1, 1)) by (vm_compute; reflexivity).
  assert (NS : forallb (fun e => match e with EStop => false | _ => true end) raced = true) by (vm_compute; reflexivity).
  assert (N : ~ In EStop raced) by (intros I; rewrite forallb_forall in NS; specialize (NS _ I); discriminate NS).
  rewrite E in K. cbn [option_map fst snd] in K. injection K as K1 K2 K3 K4 K5 K6 K7 K8 K9.
  pose proof (start_inv 128 2 false 0%N [] false false raced s o E N ltac:(discriminate) ltac:(discriminate)) as H.
  assert (wb : WB 2 s) by (apply (WB_run 128 2 raced _ _ _ E); intros d w Y; discriminate Y).
  assert (ST : stuck (see s 0)). { unfold stuck. split; [exact K3|]. split; [exact K4|]. split; [change (v_k (see s 0)) with (s_conn s 0); rewrite K5; discriminate|]. split; [exact K6|exact K7]. }
  destruct (drain 128 2 (M 2 s) s o (le_n _) H wb ltac:(lia) ltac:(lia) K1) as (es' & s' & o' & L & R & Q).
  assert (N' : ~ In EStop es') by (intros I; rewrite forallb_forall in L; specialize (L _ I); discriminate L).
  exists (raced ++ es'), s', (o ++ o'), 0.
  assert (X2 : run 128 2 (raced ++ es') (st0 false 0%N []) = Some (s', o ++ o')).
  { clear - E R. revert s s' o o' E R. generalize (st0 false 0%N []). induction raced as [|e es IH]; intros s0 s s' o o' X R; cbn [app PoolModel.run] in *; [injection X as <- <-; exact R|].
    destruct (step 128 2 e s0) as [(s1 & o1)|]; [|discriminate]. destruct (run 128 2 es s1) as [(s2 & o2)|] eqn:E; [|discriminate]. injection X as <- <-. rewrite (IH _ _ _ _ _ E R), app_assoc. reflexivity. }
  split; [exact X2|]. split; [intros I; apply in_app_or in I; destruct I; auto|]. split; [rewrite count_cnt, cnt_app, <- count_cnt; lia|]. split; [rewrite count_cnt, cnt_app, <- count_cnt; lia|]. split; [exact Q|].
  intros es2 s2 o2 R2. apply held_socket.
  assert (ST' : stuck (see s' 0)) by (apply (stuck_run 128 2 es' s s' o' o 0 H R); [lia|exact ST]).
  assert (H' : Inv false false s' (o ++ o')) by (apply (Inv_run 128 2 false false es' s o s' o' H R N'); discriminate).
  assert (L' : 0 < s_nc s').
  { destruct (le_lt_dec (s_nc s') 0) as [Y|Y]; [|exact Y]. destruct (g_new s' (n_G _ _ _ _ H') 0 Y) as (Y1 & _). destruct ST' as (Y2 & _). cbn [see v_k] in Y2. rewrite Y1 in Y2. discriminate. }
  exact (proj1 (stuck_run 128 2 es2 s' s2 o2 (o ++ o') 0 H' R2 L' ST')).
Qed.
Print Assumptions C143_freed_refuted.

Corollary C143_freed_full_refuted : ~ C143_freed_full.
Proof. intros F. destruct C143_freed_refuted as (es & s & o & c & X & N & Z & _ & Q & K). exact (F _ _ _ _ _ _ _ _ _ X N Z Q (K [] s [] eq_refl)). Qed.
Print Assumptions C143_freed_full_refuted.

(** A dialled connection is used, terminated and closed, and the threads come
    to have nothing left to do. *)
Example C143_nonvacuous : along 128 2 calm_ev (dialled ++ torn_down) (st0 false 0%N []) /\
  exists s o, run 128 2 (dialled ++ torn_down) (st0 false 0%N []) = Some (s, o) /\ count (closed 0) o = 1 /\ s_stop s = false /\
    (exists s1 o1, run 128 2 dialled (st0 false 0%N []) = Some (s1, o1) /\ s_nc s1 = 1 /\ count (closed 0) o1 = 0) /\ nothing_left s.
Proof.
  split; [exact (proj1 C51_nonvacuous)|].
  destruct (run 128 2 (dialled ++ torn_down) (st0 false 0%N [])) as [(s & o)|] eqn:E; [|exfalso; vm_compute in E; discriminate]. exists s, o. split; [reflexivity|].
  assert (K : option_map (fun x => (s_stop (fst x), count (closed 0) (snd x), map (fun t => s_cur (fst x) t ++ s_q (fst x) t) (tids 2))) (run 128 2 (dialled ++ torn_down) (st0 false 0%N [])) = Some (false, 1, [[]; []; []])) by (vm_compute; reflexivity).
  rewrite E in K. cbn [option_map fst snd] in K. injection K as K1 K2 K3 K4 K5. split; [exact K2|]. split; [exact K1|]. split.
  - destruct (run 128 2 dialled (st0 false 0%N [])) as [(s1 & o1)|] eqn:E1; [|exfalso; vm_compute in E1; discriminate]. exists s1, o1. split; [reflexivity|].
    assert (K' : option_map (fun x => (s_nc (fst x), count (closed 0) (snd x))) (run 128 2 dialled (st0 false 0%N [])) = Some (1, 0)) by (vm_compute; reflexivity). rewrite E1 in K'. cbn [option_map fst snd] in K'. injection K' as -> ->. auto.
  - intros t. assert (NS : forallb (fun e => match e with EStop => false | _ => true end) (dialled ++ torn_down) = true) by (vm_compute; reflexivity).
    assert (N : ~ In EStop (dialled ++ torn_down)) by (intros I; rewrite forallb_forall in NS; specialize (NS _ I); discriminate NS).
    pose proof (start_inv 128 2 false 0%N [] false false _ s o E N ltac:(discriminate) ltac:(discriminate)) as H. assert (wb : WB 2 s) by (apply (WB_run 128 2 _ _ _ _ E); intros d w Y; discriminate Y).
    destruct (s_cur s t ++ s_q s t) as [|a x] eqn:Y; [apply app_eq_nil in Y; exact Y|exfalso].
    assert (IT : In t (tids 2)) by (apply (In_tids 2 t a s (n_G _ _ _ _ H) wb ltac:(lia)); rewrite Y; left; reflexivity).
    cbn in IT. destruct IT as [<-|[<-|[<-|[]]]]; congruence.
Qed.

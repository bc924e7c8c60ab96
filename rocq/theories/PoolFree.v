(** When a connection is over, nothing refers to it any more (PoolModel).

    A connection object is counted: it is freed when the last reference is
    dropped.  Those the library holds are: the entry in the pool, tasks waiting
    in a queue, and the callbacks of the connection's own event objects, which
    capture a reference to the connection they belong to (conn.cpp 428-431, conn.h
    271-298).  The latter form a cycle: as long as they are not cleared,
    dropping every other reference does not free the connection, its send
    buffer, its notification descriptor and its TLS object. *)
From Coq Require Import Arith NArith List Bool Lia.
From Verif Require Import PoolModel PoolProofs PoolInv PoolCalm PoolRun PoolProps.
Import ListNotations.

Inductive ref :=
| RPool (fd : nat)        (* the pool's table *)
| REvConnect              (* captured by the callback of ev_connect *)
| REvSocket               (* captured by the callback of ev_socket *)
| RSendq                  (* captured by the send queue's handler *)
| RTask (t : tid) (a : act).   (* captured by a task *)
Definition mentions (c : nat) (a : act) : Prop :=
  match a with
  | ADispTerm d | ADExch d | ADel d | ASetup d | AFeed d | AWExch d | AGo d _ | ACb d _ | AInc d | ATearW d | ATearD d | APostDel d | AOff d | ARelease d | APostGo d _ => d = c
  | AConn _ | AErr _ _ | AFatal => False
  end.

(** The send queue's handler of connection [c]: registered when the worker
    takes over a connection without TLS (conn.h 314, 270-283), or when the TLS
    handshake ends (conn.cpp 252; an exception during the handshake may come
    before or after, it is counted as after); cleared by on_worker_teardown
    (conn.h 190), which both teardown tasks call (conn.cpp 278, 295), and not by
    release_conn (conn.cpp 445-450). *)
Definition registers (c : nat) (e : ev) (s : st) : bool :=
  match e with
  | EAct t _ => match s_cur s t with AFeed d :: _ => (d =? c) && negb (s_tls s) | _ => false end
  | ESock d (IoHand _ (Some true | None)) => d =? c
  | _ => false
  end.
Definition clears (c : nat) (o : obs) : bool := match o with OTorn d => d =? c | _ => false end.
Fixpoint sendq (burst nw c : nat) (es : list ev) (s : st) (b : bool) : bool :=
  match es with
  | [] => b
  | e :: es => match step burst nw e s with
               | Some (s1, o) => sendq burst nw c es s1 (if existsb (clears c) o then false else registers c e s || b)
               | None => b
               end
  end.

(** [q]: the send queue's handler is registered. *)
Definition refers (s : st) (q : bool) (c : nat) (r : ref) : Prop :=
  match r with
  | RPool fd => In (fd, c) (s_pool s)
  | REvConnect => c_evc (s_conn s c) = true
  | REvSocket => c_evs (s_conn s c) = true
  | RSendq => q = true
  | RTask t a => In a (s_cur s t ++ s_q s t) /\ mentions c a
  end.

(** ** C115 *)
Definition C115_freed_full : Prop := forall burst nw tls aid us es s o c fd,
  0 < nw -> run burst nw es (st0 tls aid us) = Some (s, o) -> s_stop s = false -> nothing_left s ->
  In (OClose c fd) o -> forall r, ~ refers s (sendq burst nw c es (st0 tls aid us) false) c r.

(** The race of C51 and C72: the worker takes the connection over after the
    dispatcher has closed it, and nothing ever clears its event object. *)
Definition late_free : list ev :=
  late ++ batch D (task D yes ++ [EAct D yes; EAct D yes; EAct D yes; EAct D yes]) ++ batch (W 1) (task (W 1) yes ++ [EAct (W 1) yes])
  ++ EBatch U :: concat (repeat (task U yes) 128).
Definition close0 (o : obs) : bool := match o with OClose 0 5 => true | _ => false end.
Theorem C115_freed_refuted : exists es s o c fd, run 128 2 es (st0 true 0%N []) = Some (s, o) /\ s_stop s = false /\ nothing_left s /\
  In (OClose c fd) o /\ refers s (sendq 128 2 c es (st0 true 0%N []) false) c REvSocket.
Proof.
  exists late_free. destruct (run 128 2 late_free (st0 true 0%N [])) as [(s & o)|] eqn:E.
  2: { assert (Z : (if run 128 2 late_free (st0 true 0%N []) then true else false) = true) by (vm_compute; reflexivity). rewrite E in Z. discriminate Z. }
  exists s, o, 0, 5. split; [reflexivity|].
  assert (ST : option_map (fun x => (s_stop (fst x), c_evs (s_conn (fst x) 0), existsb close0 (snd x))) (run 128 2 late_free (st0 true 0%N [])) = Some (false, true, true))
    by (vm_compute; reflexivity).
  assert (QT : forall t, option_map (fun x => (s_cur (fst x) t, s_q (fst x) t)) (run 128 2 late_free (st0 true 0%N [])) = Some ([], []))
    by (intros [|[|[|i]]]; vm_compute; reflexivity).
  rewrite E in ST, QT. cbn [option_map fst snd] in ST, QT. injection ST as S1 S2 S3.
  split; [exact S1|]. split; [intros t; specialize (QT t); injection QT as Q1 Q2; split; assumption|]. split; [|exact S2].
  apply existsb_exists in S3 as (x & I & X). destruct x as [ |[|?] [|[|[|[|[|[|?]]]]]]| | | | | | | | ]; try discriminate X. exact I.
Qed.
Print Assumptions C115_freed_refuted.

(** ** The handler is registered only while ev_socket exists *)
Lemma keeps tls dead c v o v' : vstep tls dead true true c v o v' -> c_evs (v_k v) = true ->
  c_evs (v_k v') = true \/ existsb (clears c) o = true \/ 0 < cnt isR (v_d v).
Proof.
  intros H E. destruct v as [[fd [wk|] term evc evs arm rs recv] w d u lv]; cbn [v_k c_evs] in E; subst evs; destruct tls; vinv H; spl; norm; try congruence; subst; auto.
  all: try (right; left; cbn; rewrite Nat.eqb_refl; reflexivity).
  all: try (right; right; cn; lia).
Qed.

Lemma no_release s l c : Inv true true s l -> c < s_nc s -> 0 < cnt isR (v_d (see s c)) -> c_evs (s_conn s c) = false.
Proof.
  intros H L R. destruct (c_evs (s_conn s c)) eqn:E; [exfalso|reflexivity].
  pose proof (n_A _ _ _ _ H c L) as HA. pose proof (n_B _ _ _ _ H eq_refl c L) as HB. pose proof (n_G _ _ _ _ H) as g.
  pose proof (a_close _ _ _ _ HA) as K1. pose proof (a_term _ _ _ _ HA) as K2.
  pose proof (nb_le (v_lv (see s c))) as K3. pose proof (b2n_le (c_term (v_k (see s c)))) as K4.
  pose proof (b_evs _ _ HB) as K5. cbn [see v_k] in K5. rewrite E in K5. specialize (K5 eq_refl). cbn [see v_k] in K2, K4.
  assert (KT : 0 < cnt isT (v_w (see s c))) by (apply K5; cbn [see v_k] in *; lia).
  assert (KP : 0 < cnt isP (v_w (see s c))); [|cbn [see v_k v_w] in *; lia].
  apply cnt_In in KT as (a & I & T). destruct a; try discriminate T. cbn [see v_w] in I |- *. unfold vw in *.
  destruct (c_worker (s_conn s c)) as [w|]; [|destruct I]. apply V_In in I as (I & CO & KO).
  apply in_app_or in I as [I|I]; [|apply (g_task s g) in I; discriminate I].
  cbn in CO. injection CO as ->. apply cnt_In. exists (APostDel c). split; [|reflexivity]. unfold V. apply filter_In. split; [|cbn; rewrite Nat.eqb_refl; reflexivity].
  apply in_or_app. left. revert I. generalize (g_shape s g (W w)). generalize (s_cur s (W w)). intros k SH I.
  destruct SH as [|a T0| | | | | | |]; cbn in I |- *; repeat destruct I as [I|I]; try contradiction; try discriminate I.
  - subst a. discriminate T0.
  - injection I as ->. auto.
Qed.

Lemma registers_evs burst nw c e s s' o : step burst nw e s = Some (s', o) -> feed_ev e s -> registers c e s = true -> c_evs (s_conn s' c) = true.
Proof.
  intros X FE R. unfold step in X. destruct (s_stop s); [discriminate|]. destruct e as [| | | | |d i| | | |t [ok thr fd]|]; try discriminate R; cbn [registers feed_ev] in R, FE.
  - destruct i as [| |wr [[|]|]]; try discriminate R; apply Nat.eqb_eq in R; subst d.
    + destruct (c_worker (s_conn s c)) as [w|]; [|discriminate X]. destruct (_ && _); [|discriminate X]. cbn [io_step] in X.
      destruct (c_recv (s_conn s c)); try discriminate X. injection X as <- <-. cbn. unfold upd. rewrite Nat.eqb_refl. reflexivity.
    + destruct (c_worker (s_conn s c)) as [w|] eqn:EW; [|discriminate X]. destruct (c_evs (s_conn s c)) eqn:EE; [|rewrite andb_false_r in X; discriminate X].
      destruct (_ && _); [|discriminate X]. cbn [io_step] in X. destruct (c_recv (s_conn s c)); try discriminate X.
      unfold worker_terminate in X. destruct wr; cbn in X; unfold upd in X; rewrite ?Nat.eqb_refl in X; cbn in X; rewrite EW in X; injection X as <- <-; cbn; unfold upd; rewrite ?Nat.eqb_refl; exact EE.
  - destruct (s_cur s t) as [|a rest]; [discriminate R|]. destruct a; try discriminate R. apply andb_true_iff in R as (R & T). apply Nat.eqb_eq in R. subst. cbn [act_step] in X.
    apply negb_true_iff in T. change (s_tls (go t rest s)) with (s_tls s) in X. rewrite T in X. injection X as <- <-. cbn. unfold upd. rewrite Nat.eqb_refl. reflexivity.
Qed.

Lemma sendq_evs burst nw c es : forall s l b s' o, Inv true true s l -> run burst nw es s = Some (s', o) -> ~ In EStop es ->
  along burst nw calm_ev es s -> along burst nw feed_ev es s -> (b = true -> c_evs (s_conn s c) = true) ->
  sendq burst nw c es s b = true -> c_evs (s_conn s' c) = true.
Proof.
  induction es as [|e es IH]; intros s l b s' o H X N CM FO HB Q; cbn [run sendq] in X, Q.
  - injection X as <- <-. auto.
  - destruct CM as (C1 & CM). destruct FO as (F1 & FO). destruct (step burst nw e s) as [(s1 & o1)|] eqn:E; [|discriminate X].
    destruct (run burst nw es s1) as [(s2 & o2)|] eqn:E2; [|discriminate X]. injection X as <- <-.
    assert (N1 : e <> EStop) by (intros ->; apply N; left; reflexivity).
    apply (IH s1 (l ++ o1) (if existsb (clears c) o1 then false else registers c e s || b) s2 o2); auto; [apply (Inv_step burst nw true true e s); auto|intros I; apply N; right; exact I|].
    destruct (existsb (clears c) o1) eqn:EC; [discriminate|]. intros RB. apply orb_true_iff in RB as [R|R]; [exact (registers_evs _ _ _ _ _ _ _ E F1 R)|].
    specialize (HB R). destruct (sim_step burst nw true true e s s1 o1 E N1 (n_G _ _ _ _ H) (Inv_HD _ _ _ _ H) (fun _ => C1) (fun _ => F1)) as (_ & V0).
    destruct (V0 c) as [(Q1 & _)|[(L & VS)|(L & _)]].
    + apply (f_equal (fun v => c_evs (v_k v))) in Q1. cbn [see v_k] in Q1. congruence.
    + destruct (keeps _ _ _ _ _ _ VS HB) as [K|[K|K]]; [exact K| |].
      * exfalso. apply existsb_exists in K as (x & I & K). apply filter_In in I as (I & _).
        assert (existsb (clears c) o1 = true) by (apply existsb_exists; eauto). congruence.
      * rewrite (no_release _ _ _ H L K) in HB. discriminate.
    + subst c. destruct (g_new s (n_G _ _ _ _ H) (s_nc s) (le_n _)) as (Z & _). rewrite Z in HB. discriminate.
Qed.

(** Without that race, and if workers manage to take connections over, the
    connection is free. *)
Theorem C115_freed_partial : forall burst nw tls aid us es s o c fd,
  run burst nw es (st0 tls aid us) = Some (s, o) -> ~ In EStop es ->
  along burst nw (fun e s => match e with EReady d _ _ true => ~ In (ADExch d) (s_q s D) | _ => True end) es (st0 tls aid us) ->
  along burst nw feed_ev es (st0 tls aid us) ->
  nothing_left s -> In (OClose c fd) o -> forall r, ~ refers s (sendq burst nw c es (st0 tls aid us) false) c r.
Proof.
  intros burst nw tls aid us es s o c fd X N CM FO Q IC r R.
  pose proof (start_inv burst nw tls aid us true true es s o X N (fun _ => CM) (fun _ => FO)) as H.
  assert (IO : In (OClose c fd) (of c o)) by (unfold of; apply filter_In; split; [exact IC|cbn; apply Nat.eqb_refl]).
  assert (L : c < s_nc s).
  { destruct (le_lt_dec (s_nc s) c) as [L|L]; [|exact L]. rewrite (n_new _ _ _ _ H c L) in IO. destruct IO. }
  pose proof (n_A _ _ _ _ H c L) as HA. pose proof (n_B _ _ _ _ H eq_refl c L) as HB.
  destruct (quiet_see s c Q) as (E1 & E2 & E3).
  pose proof (a_close _ _ _ _ HA) as K1. pose proof (a_term _ _ _ _ HA) as K2.
  assert (K0 : 0 < cnt oClose (of c o)) by (apply cnt_In; exists (OClose c fd); split; [exact IO|reflexivity]).
  pose proof (nb_le (v_lv (see s c))) as K3. pose proof (b2n_le (c_term (v_k (see s c)))) as K4.
  assert (K5 : b2n (c_term (v_k (see s c))) = 1) by lia.
  pose proof (b_evs _ _ HB) as B1. pose proof (b_evc _ _ HB) as B2. rewrite E1 in B1. rewrite E2 in B2. cbn [cnt] in B1, B2.
  assert (EV : c_evs (s_conn s c) = false) by (cbn [see v_k] in B1, K5; destruct (c_evs (s_conn s c)); [specialize (B1 eq_refl K5); lia|reflexivity]).
  destruct r as [f| | | |t a]; cbn [refers] in R.
  - assert (LV : v_lv (see s c) = true) by (cbn [see v_lv]; unfold live; apply existsb_exists; exists (f, c); split; [exact R|cbn; apply Nat.eqb_refl]).
    rewrite LV in K1. cbn [nb] in K1. lia.
  - cbn [see v_k] in B2, K5. rewrite R in B2. specialize (B2 eq_refl K5). lia.
  - congruence.
  - apply (sendq_evs _ _ _ _ _ [] _ _ _ (Inv_init true true tls aid us) X N CM FO) in R; [congruence|discriminate].
  - destruct R as [R _]. destruct (Q t) as (Q1 & Q2). rewrite Q1, Q2 in R. destruct R.
Qed.
Print Assumptions C115_freed_partial.

(** A connection that was dialled, served and torn down. *)
Definition served : list ev := dialled ++ torn_down.
Example C115_nonvacuous : along 128 2 calm_ev served (st0 false 0%N []) /\ along 128 2 feed_ev served (st0 false 0%N []) /\ ~ In EStop served /\
  existsb (fun n => sendq 128 2 0 (firstn n served) (st0 false 0%N []) false) (seq 0 (length served)) = true /\
  exists s o, run 128 2 served (st0 false 0%N []) = Some (s, o) /\ nothing_left s /\ (exists fd, In (OClose 0 fd) o) /\ In (OFed 0) o.
Proof.
  split; [exact (proj1 C51_nonvacuous)|]. split.
  { apply (alongb_ok feedb); [|vm_compute; reflexivity]. intros e s H. destruct e as [| | | | | | | | |t [ok thr fd]|]; cbn in *; auto; destruct (s_cur s t) as [|[] ?]; auto. }
  split; [intros I; vm_compute in I; repeat (destruct I as [I|I]; [discriminate I|]); destruct I|].
  split; [vm_compute; reflexivity|].
  destruct (run 128 2 served (st0 false 0%N [])) as [(s & o)|] eqn:E; [|exfalso; vm_compute in E; discriminate]. exists s, o. split; [reflexivity|].
  assert (EO : option_map snd (run 128 2 served (st0 false 0%N [])) = Some o) by (rewrite E; reflexivity). vm_compute in EO.
  assert (ES : Some s = option_map fst (run 128 2 served (st0 false 0%N []))) by (rewrite E; reflexivity). vm_compute in ES. injection ES as ES.
  split; [rewrite ES; intros [|[|[|i]]]; split; reflexivity|]. injection EO as <-. split; [eexists|]; cbn; intuition eauto.
Qed.

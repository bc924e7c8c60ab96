(** Properties C50-C56, C72 and C73: the life cycle of connections in a pool.

    [run burst nw es (st0 tls aid us) = Some (s, o)]: starting from a fresh
    pool with nw workers, the events es (operations of the user, readiness of
    sockets, time-outs, and every step of every thread, in any interleaving)
    lead to s, and o is what could be seen from outside, in order.  The lists
    es range over everything that can happen: outcomes of callbacks, of the
    kernel and of the hooks of derived classes included. *)
From Coq Require Import Arith NArith List Bool Lia.
From Verif Require Import PoolModel PoolProofs PoolInv PoolCalm PoolFed PoolRun PoolLog PoolIds PoolDrain.
Import ListNotations.

(** ** Specification *)

Fixpoint count {A} (p : A -> bool) (l : list A) : nat :=
  match l with [] => 0 | a :: l => if p a then S (count p l) else count p l end.
(** The callback for c with connected = b; the close of c's socket. *)
Definition called (c : nat) (b : bool) (o : obs) : bool := match o with OCb d b' _ => (d =? c) && Bool.eqb b b' | _ => false end.
Definition closed (c : nat) (o : obs) : bool := match o with OClose d _ => d =? c | _ => false end.

(** Something that ends connection c: the user terminates it, the user's
    handler rejects its message, connecting fails or times out, its worker
    meets an error or the end of the stream while reading, an error while writing, or a
    failing TLS handshake. *)
Definition ending (c : nat) (e : ev) : Prop :=
  e = ETerm c \/ e = EBad c \/ (exists w tmo, e = EReady c w tmo false) \/ (exists bs, e = ESock c (IoRead bs true))
  \/ (exists rs, e = ESock c (IoWrite true rs)) \/ (exists wr, e = ESock c (IoHand wr None)).

(** No thread has anything left to do. *)
Definition nothing_left (s : st) : Prop := forall t, s_cur s t = [] /\ s_q s t = [].
(** A step of a loop going through its posted tasks. *)
Definition loop_step (e : ev) : Prop := match e with EBatch _ | ENext _ | EAct _ _ => True | _ => False end.

(** *** From the specification to the invariants *)
Lemma count_cnt {A} (p : A -> bool) l : count p l = cnt p l.
Proof. induction l as [|a l IH]; [reflexivity|]. cbn. rewrite IH. destruct (p a); reflexivity. Qed.
Lemma count_called c b l : count (called c b) l = cnt (oC b) (of c l).
Proof. rewrite count_cnt. induction l as [|o l IH]; [reflexivity|]. unfold of in *. cbn [filter cnt]. rewrite IH. destruct o; cbn [oabout called]; try destruct (c0 =? c); cbn; auto. Qed.
Lemma count_closed c l : count (closed c) l = cnt oClose (of c l).
Proof. rewrite count_cnt. induction l as [|o l IH]; [reflexivity|]. unfold of in *. cbn [filter cnt]. rewrite IH. destruct o; cbn [oabout closed]; try destruct (c0 =? c); cbn; auto. Qed.
Lemma ub_of c l : In (OUb c) l <-> 0 < cnt oUb (of c l).
Proof.
  rewrite cnt_In. unfold of. split.
  - intros I. exists (OUb c). split; [apply filter_In; split; [exact I|cbn; apply Nat.eqb_refl]|reflexivity].
  - intros (o & I & E). apply filter_In in I. destruct I as (I & J). destruct o; try discriminate. cbn in J. apply Nat.eqb_eq in J. subst. exact I.
Qed.
Lemma ending_ends c e : ending c e -> ends c e.
Proof. intros [->|[->|[(w & t & ->)|[(b & ->)|[(r & ->)|(w & ->)]]]]]; reflexivity. Qed.

Section Facts.
Variables (burst nw : nat) (tls : bool) (aid : N) (us : list nat).
Notation run := (run burst nw).

Lemma start_inv cm fo es s o : run es (st0 tls aid us) = Some (s, o) -> ~ In EStop es ->
  (cm = true -> along burst nw calm_ev es (st0 tls aid us)) -> (fo = true -> along burst nw feed_ev es (st0 tls aid us)) -> Inv cm fo s o.
Proof. intros X N CM FO. apply (Inv_run burst nw cm fo es (st0 tls aid us) [] s o); auto. apply Inv_init. Qed.

Lemma start_tls es s o : run es (st0 tls aid us) = Some (s, o) -> ~ In EStop es -> s_tls s = tls /\ forall c, after (gate tls) oRecv (of c o).
Proof. intros X N. destruct (gate_run burst nw es (st0 tls aid us) [] s o) as (E & H); auto; [apply Inv_init|]. intros c l1 a l2 E. destruct l1; discriminate. Qed.

Lemma A_any cm fo s o c : Inv cm fo s o -> (exists tls dead v, A tls dead v (of c o) /\ v = see s c) \/ of c o = [].
Proof. intros H. destruct (le_lt_dec (s_nc s) c) as [L|L]; [right; exact (n_new _ _ _ _ H c L)|left; eauto 6 using (n_A _ _ _ _ H c L)]. Qed.

(** What stopping adds about a connection. *)
Lemma stop_of s : G s -> forall c, of c (flat_map (fun x => [OTorn (snd x); OClose (snd x) (fst x)]) (s_pool s)) = if live c s then [OTorn c; OClose c (c_fd (s_conn s c))] else [].
Proof.
  intros g c. pose proof (g_pool s g) as H. pose proof (g_fds s g) as N. unfold live. revert H N. generalize (s_pool s). induction l as [|(fd & d) l IH]; intros H N; [reflexivity|]. cbn [flat_map map fst] in *. inversion N as [|? ? N1 N2]; subst.
  rewrite of_app, IH; [|intros; apply H; right; auto|exact N2]. cbn [existsb snd]. unfold of. cbn [filter oabout snd fst]. destruct (Nat.eqb_spec d c) as [->|D0]; [|reflexivity]. cbn [orb].
  assert (Z : existsb (fun x => snd x =? c) l = false).
  { destruct (existsb _ l) eqn:E; [|reflexivity]. exfalso. apply existsb_exists in E. destruct E as ((fd' & d') & I & E). cbn in E. apply Nat.eqb_eq in E. subst d'. apply N1. apply in_map_iff. exists (fd', c). split; [|exact I]. cbn. rewrite <- (H fd' c (or_intror I)), <- (H fd c (or_introl eq_refl)). reflexivity. }
  rewrite Z, (H fd c (or_introl eq_refl)). reflexivity.
Qed.

Lemma cur_empty s x : forallb (fun x => match s_cur s (W x) with [] => true | _ => false end) (seq 0 nw) = true -> x < nw -> s_cur s (W x) = [].
Proof. intros F L. rewrite forallb_forall in F. specialize (F x). destruct (s_cur s (W x)); [reflexivity|]. discriminate F. apply in_seq. lia. Qed.

Lemma noR s c : G s -> s_cur s D = [] -> cnt isR (v_d (see s c)) = 0.
Proof. intros g E. destruct (tasks_cnt (v_d (see s c))) as (_ & _ & _ & _ & K & _); [exact (idle_tasks KD c D s g E)|exact K]. Qed.

Lemma quiet_see s c : nothing_left s -> v_w (see s c) = [] /\ v_d (see s c) = [] /\ v_u (see s c) = [].
Proof.
  intros H. assert (K : forall kd t, V kd c t s = []) by (intros kd t; destruct (H t) as (E1 & E2); unfold V; rewrite E1, E2; reflexivity).
  cbn [see v_w v_d v_u]. unfold vw. split; [destruct (c_worker (s_conn s c)); auto|auto].
Qed.
End Facts.

(** ** C50 *)

(** Under every schedule the disconnection callback and the close happen at
    most once for a connection, and serving it never fails an assertion nor
    uses a null pointer. *)
Theorem C50_at_most_once : forall burst nw tls aid us es s o c,
  0 < nw -> run burst nw es (st0 tls aid us) = Some (s, o) ->
  count (called c false) o <= 1 /\ count (closed c) o <= 1 /\ ~ In (OUb c) o.
Proof.
  intros burst nw tls aid us es s o c P X. rewrite count_called, count_closed, ub_of.
  destruct (run_cases _ _ _ _ _ _ X) as [N|(es' & -> & N)].
  - pose proof (start_inv burst nw tls aid us false false es s o X N) as H. destruct (A_any _ _ _ _ c (H ltac:(discriminate) ltac:(discriminate))) as [(t & d & v & HA & _)|E0]; [|rewrite E0; cbn; lia].
    pose proof (a_off _ _ _ _ HA). pose proof (a_close _ _ _ _ HA). pose proof (a_ub _ _ _ _ HA). pose proof (nb_le (v_lv v)). lia.
  - destruct (run_snoc_stop _ _ _ _ _ _ X) as (s1 & o1 & X1 & -> & -> & F). pose proof (start_inv burst nw tls aid us false false es' s1 o1 X1 N) as H. specialize (H ltac:(discriminate) ltac:(discriminate)).
    pose proof (n_G _ _ _ _ H) as g. rewrite of_app, (stop_of s1 g c), !cnt_app.
    destruct (le_lt_dec (s_nc s1) c) as [L|L].
    + rewrite (n_new _ _ _ _ H c L), (proj2 (g_new s1 g c L)). cbn. lia.
    + pose proof (n_A _ _ _ _ H c L) as HA. pose proof (a_off _ _ _ _ HA) as K1. pose proof (a_close _ _ _ _ HA) as K2. pose proof (a_ub _ _ _ _ HA) as K3. cbn [see v_lv] in K1, K2. destruct (live c s1); cbn [nb cnt oC oClose oUb] in *; lia.
Qed.
Print Assumptions C50_at_most_once.

(** Once nothing is left to do, a connection that anything ended has had
    exactly one disconnection callback and its socket was closed exactly
    once -- unless the dispatcher died of a fatal error. *)
Theorem C50_exactly_once : forall burst nw tls aid us es s o c,
  run burst nw es (st0 tls aid us) = Some (s, o) ->
  (exists e, In e es /\ ending c e) -> nothing_left s -> s_dead s = false -> s_stop s = false ->
  count (called c false) o = 1 /\ count (closed c) o = 1.
Proof.
  intros burst nw tls aid us es s o c X (e & I & E) Q D0 S0. rewrite count_called, count_closed.
  assert (N : ~ In EStop es). { destruct (run_cases _ _ _ _ _ _ X) as [N|(es' & -> & N)]; [exact N|]. destruct (run_snoc_stop _ _ _ _ _ _ X) as (s1 & o1 & _ & -> & _). discriminate. }
  pose proof (start_inv burst nw tls aid us false false es s o X N ltac:(discriminate) ltac:(discriminate)) as H.
  destruct (pend_run burst nw c es (st0 tls aid us) s o [] (Inv_init _ _ _ _ _) X N D0) as (L & PD); [right; exists e; split; [exact I|apply ending_ends; exact E]|].
  pose proof (n_A _ _ _ _ H c L) as HA. rewrite D0 in HA. destruct (quiet_see s c Q) as (E1 & E2 & E3). unfold pend in PD. pose proof (a_term' _ _ _ _ HA eq_refl) as K0. pose proof (a_off _ _ _ _ HA) as K1. pose proof (a_close _ _ _ _ HA) as K2.
  rewrite E1, E2 in PD, K0. rewrite E2, E3 in K1. rewrite E2 in K2. cbn [cnt] in *. pose proof (b2n_le (c_term (v_k (see s c)))). lia.
Qed.
Print Assumptions C50_exactly_once.

(** It does come to that: from every reachable state the loops, given time,
    run out of tasks; and whatever they run, they run at most as many actions
    as a number fixed by the state. *)
Theorem C50_loops_finish : forall burst nw tls aid us es s o,
  0 < nw -> 0 < burst -> run burst nw es (st0 tls aid us) = Some (s, o) -> s_stop s = false ->
  (exists es' s' o', Forall loop_step es' /\ run burst nw es' s = Some (s', o') /\ nothing_left s') /\
  (exists n, forall es' s' o', Forall loop_step es' -> run burst nw es' s = Some (s', o') -> count (fun e => match e with EAct _ _ => true | _ => false end) es' <= n).
Proof.
  intros burst nw tls aid us es s o P PB X S0.
  assert (N : ~ In EStop es). { destruct (run_cases _ _ _ _ _ _ X) as [N|(es' & -> & N)]; [exact N|]. destruct (run_snoc_stop _ _ _ _ _ _ X) as (s1 & o1 & _ & -> & _). discriminate. }
  pose proof (start_inv burst nw tls aid us false false es s o X N ltac:(discriminate) ltac:(discriminate)) as H.
  assert (wb : WB nw s) by (apply (WB_run burst nw es _ _ _ X); intros c w E; discriminate).
  assert (LS : forall l, Forall loop_step l <-> forallb loop_ev l = true) by (intros l; rewrite Forall_forall, forallb_forall; split; intros K e I; specialize (K e I); destruct e; try contradiction; try discriminate; try reflexivity; exact Logic.I).
  split.
  - destruct (drain burst nw (M nw s) s o (le_n _) H wb P PB S0) as (es' & s' & o' & L & R & Q). exists es', s', o'. split; [apply LS; exact L|]. split; [exact R|exact Q].
  - exists (M nw s). intros es' s' o' L R. apply LS in L. pose proof (loop_run burst nw es' s s' o' o L H wb P R) as K.
    assert (E : count (fun e => match e with EAct _ _ => true | _ => false end) es' = length (filter is_act es')) by (clear; induction es' as [|e es IH]; [reflexivity|]; cbn; rewrite IH; destruct e; reflexivity). lia.
Qed.
Print Assumptions C50_loops_finish.

(** stop() leaves no socket of a connection open: each one ever made is closed
    exactly once by then. *)
Theorem C50_stop_closes : forall burst nw tls aid us es s o c,
  0 < nw -> run burst nw es (st0 tls aid us) = Some (s, o) -> s_stop s = true -> c < s_nc s -> count (closed c) o = 1.
Proof.
  intros burst nw tls aid us es s o c P X S0 L. rewrite count_closed. destruct (run_cases _ _ _ _ _ _ X) as [N|(es' & -> & N)].
  - exfalso. assert (K : forall es s s' o, run burst nw es s = Some (s', o) -> ~ In EStop es -> s_stop s = false -> s_stop s' = false).
    { clear. induction es as [|e es IH]; intros s s' o X N S0; cbn in X; [injection X as <- <-; exact S0|]. destruct (step burst nw e s) as [(s1 & o1)|] eqn:E; [|discriminate]. destruct (run burst nw es s1) as [(s2 & o2)|] eqn:E2; [|discriminate]. injection X as <- <-.
      apply (IH s1 s2 o2 E2); [intros I; apply N; right; exact I|]. apply (stop_step burst nw _ _ _ _ E). intros ->. apply N. left. reflexivity. }
    rewrite (K _ _ _ _ X N eq_refl) in S0. discriminate.
  - destruct (run_snoc_stop _ _ _ _ _ _ X) as (s1 & o1 & X1 & -> & -> & F). pose proof (start_inv burst nw tls aid us false false es' s1 o1 X1 N ltac:(discriminate) ltac:(discriminate)) as H.
    pose proof (n_G _ _ _ _ H) as g. rewrite of_app, (stop_of s1 g c), !cnt_app. cbn [w_stop s_nc] in L. pose proof (n_A _ _ _ _ H c L) as HA. pose proof (a_close _ _ _ _ HA) as K2. rewrite (noR s1 c g (cur_empty nw s1 0 F P)) in K2. cbn [see v_lv] in K2. destruct (live c s1); cbn [nb cnt oClose] in *; lia.
Qed.
Print Assumptions C50_stop_closes.

(** Runs of the examples: [task t ch] runs one task of one action. *)
Definition yes := Ch true false 0.
Definition no := Ch false false 0.
Definition boom := Ch true true 0.
Definition task (t : tid) (ch : choice) : list ev := [ENext t; EAct t ch].
Definition batch (t : tid) (l : list ev) : list ev := EBatch t :: l ++ [ENext t].

(** A connection is accepted by worker 1 and set up; then the user terminates
    it twice while its worker meets the end of the stream. *)
Definition accepted : list ev :=
  EAccept 5 1 true :: batch (W 1) (task (W 1) yes ++ [EAct (W 1) yes]) ++ batch D (task D yes) ++ batch U (task U yes ++ [EAct U yes]) ++ batch (W 1) (task (W 1) yes).
Definition torn_down : list ev :=
  [ETerm 0; ETerm 0; ESock 0 (IoRead [1; 2] true)]
  ++ batch D (task D yes ++ task D yes) ++ batch (W 1) (task (W 1) yes ++ [EAct (W 1) yes; EAct (W 1) yes] ++ task (W 1) yes ++ task (W 1) yes)
  ++ batch D (task D yes ++ [EAct D yes; EAct D yes]) ++ batch U (task U yes).

Example C50_nonvacuous :
  exists s o, run 128 2 (accepted ++ torn_down) (st0 false 0%N [3]) = Some (s, o) /\ In (ETerm 0) (accepted ++ torn_down)
    /\ (s_cur s U, s_q s U, s_cur s D, s_q s D, s_cur s (W 1), s_q s (W 1)) = ([], [], [], [], [], []) /\ s_dead s = false /\ s_stop s = false
    /\ o = [OFed 0; OCb 0 true (Some true); OIo 0 5; ORecv 0 [1; 2]; OTorn 0; OClose 0 5; OCb 0 false (Some true)].
Proof.
  destruct (run 128 2 (accepted ++ torn_down) (st0 false 0%N [3])) as [(s & o)|] eqn:E; [|exfalso; vm_compute in E; discriminate].
  exists s, o. split; [reflexivity|]. split; [apply in_or_app; right; left; reflexivity|].
  assert (K : option_map (fun x => (s_cur (fst x) U, s_q (fst x) U, s_cur (fst x) D, s_q (fst x) D, s_cur (fst x) (W 1), s_q (fst x) (W 1), s_dead (fst x), s_stop (fst x), snd x)) (run 128 2 (accepted ++ torn_down) (st0 false 0%N [3])) = Some ([], [], [], [], [], [], false, false, [OFed 0; OCb 0 true (Some true); OIo 0 5; ORecv 0 [1; 2]; OTorn 0; OClose 0 5; OCb 0 false (Some true)])) by (vm_compute; reflexivity).
  rewrite E in K. cbn in K. injection K as -> -> -> -> -> -> -> -> ->. repeat split; reflexivity.
Qed.

(** stop() with an established connection. *)
Example C50_stop_nonvacuous :
  option_map (fun x => (s_stop (fst x), s_nc (fst x), snd x)) (run 128 2 (accepted ++ [EStop]) (st0 false 0%N [3])) = Some (true, 1, [OFed 0; OCb 0 true (Some true); OTorn 0; OClose 0 5]).
Proof. vm_compute. reflexivity. Qed.

(** ** C51 *)

(** The order can be wrong: the user terminates a connection being
    established behind 127 other tasks, so that its termination is put off to
    the dispatcher's next batch; in between the connection is found
    established and handed to a worker. *)
Definition late : list ev :=
  EConnect :: batch D (task D (Ch true false 5)) ++ repeat EConnect 127 ++ [ETerm 0; EBatch D] ++ concat (repeat (task D boom) 127) ++ task D yes ++ [EReady 0 1 false true].
Definition late_rest : list ev :=
  batch (W 1) (task (W 1) yes ++ [EAct (W 1) yes]) ++ EBatch D :: task D yes ++ [EAct D yes; EAct D yes; EAct D yes; EAct D yes] ++ task D yes
  ++ EBatch U :: concat (repeat (task U yes) 128) ++ EBatch U :: task U yes.
Definition about_conn (o : obs) : bool := match o with OAsync _ | OThrow _ | OErr _ _ => false | _ => true end.

Lemma split_at {A} (p q : A -> bool) (l : list A) : 0 < inv p q l -> exists l1 a l2 b, l = l1 ++ a :: l2 /\ p a = true /\ In b l2 /\ q b = true.
Proof.
  induction l as [|x l IH]; cbn; [lia|]. intros H. destruct (p x) eqn:E.
  - destruct (Nat.eq_dec (cnt q l) 0) as [Z|Z].
    + destruct IH as (l1 & a & l2 & b & -> & K); [lia|]. exists (x :: l1), a, l2, b. auto.
    + assert (Y : 0 < cnt q l) by lia. apply cnt_In in Y. destruct Y as (b & I & Q). exists [], x, l, b. auto.
  - destruct IH as (l1 & a & l2 & b & -> & K); [lia|]. exists (x :: l1), a, l2, b. auto.
Qed.

Lemma late_split o : inv (called 0 false) (called 0 true) o = 1 -> exists o1 o2 r r', o = o1 ++ OCb 0 false r :: o2 /\ In (OCb 0 true r') o2.
Proof.
  intros K. destruct (split_at (called 0 false) (called 0 true) o) as (o1 & a & o2 & b & EO & P & I & Q); [lia|].
  destruct a; try discriminate P. destruct b; try discriminate Q. unfold called in P, Q. apply andb_true_iff in P, Q. destruct P as (P1 & P2), Q as (Q1 & Q2). apply Nat.eqb_eq in P1, Q1. apply eqb_prop in P2, Q2. subst. eauto 8.
Qed.

Theorem C51_connected_first_refuted :
  exists es s o o1 o2 c r r', run 128 2 es (st0 false 0%N []) = Some (s, o) /\ o = o1 ++ OCb c false r :: o2 /\ In (OCb c true r') o2.
Proof.
  exists (late ++ late_rest). destruct (run 128 2 (late ++ late_rest) (st0 false 0%N [])) as [(s & o)|] eqn:E; [|exfalso; vm_compute in E; discriminate].
  assert (K : option_map (fun x => inv (called 0 false) (called 0 true) (snd x)) (run 128 2 (late ++ late_rest) (st0 false 0%N [])) = Some 1) by (vm_compute; reflexivity).
  rewrite E in K. cbn in K. injection K as K. destruct (late_split o K) as (o1 & o2 & r & r' & H1 & H2). exists s, o, o1, o2, 0, r, r'. split; [reflexivity|]. split; assumption.
Qed.
Print Assumptions C51_connected_first_refuted.

(** The rest of the claim.  In full: in every run, no callback with
    connected = true comes after the one with connected = false.  Missing: the
    runs in which a connection is found established while its termination is
    waiting in the dispatcher's queue. *)
Theorem C51_connected_first_partial : forall burst nw tls aid us es s o o1 o2 c r,
  run burst nw es (st0 tls aid us) = Some (s, o) ->
  along burst nw (fun e s => match e with EReady d _ _ true => ~ In (ADExch d) (s_q s D) | _ => True end) es (st0 tls aid us) ->
  o = o1 ++ OCb c false r :: o2 -> forall r', ~ In (OCb c true r') o2.
Proof.
  intros burst nw tls aid us es s o o1 o2 c r X CM EO r' I.
  assert (K : forall es s o, run burst nw es (st0 tls aid us) = Some (s, o) -> ~ In EStop es -> along burst nw calm_ev es (st0 tls aid us) -> inv (oC false) (oC true) (of c o) = 0).
  { clear. intros es s o X N CM. pose proof (start_inv burst nw tls aid us true false es s o X N (fun _ => CM) ltac:(discriminate)) as H. destruct (le_lt_dec (s_nc s) c) as [L|L]; [rewrite (n_new _ _ _ _ H c L); reflexivity|]. exact (b_order _ _ (n_B _ _ _ _ H eq_refl c L)). }
  assert (K2 : inv (oC false) (oC true) (of c o) = 0).
  { destruct (run_cases _ _ _ _ _ _ X) as [N|(es' & -> & N)]; [exact (K _ _ _ X N CM)|]. destruct (run_snoc_stop _ _ _ _ _ _ X) as (s1 & o3 & X1 & -> & EO' & F). pose proof (K _ _ _ X1 N (along_app _ _ _ _ _ _ CM)) as K1.
    rewrite EO', of_app, (stop_of s1 (n_G _ _ _ _ (start_inv burst nw tls aid us false false es' s1 o3 X1 N ltac:(discriminate) ltac:(discriminate)))). destruct (live c s1); [rewrite inv_snoc2; cbn; lia|rewrite app_nil_r; exact K1]. }
  subst o. unfold of in K2. rewrite filter_app in K2. cbn [filter oabout] in K2. rewrite Nat.eqb_refl in K2.
  assert (Y : forall l m, inv (oC false) (oC true) (l ++ OCb c false r :: m) = 0 -> cnt (oC true) m = 0).
  { clear. induction l as [|x l IH]; intros m; cbn; [lia|]. intros Z. apply IH. lia. }
  apply Y in K2. assert (0 < cnt (oC true) (filter (oabout c) o2)); [|lia]. apply cnt_In. exists (OCb c true r'). split; [|reflexivity]. apply filter_In. split; [exact I|]. cbn. apply Nat.eqb_refl.
Qed.
Print Assumptions C51_connected_first_partial.

(** Under every schedule there is at most one callback with connected = true. *)
Theorem C51_connected_once_partial : forall burst nw tls aid us es s o c,
  run burst nw es (st0 tls aid us) = Some (s, o) -> count (called c true) o <= 1.
Proof.
  intros burst nw tls aid us es s o c X. rewrite count_called.
  assert (K : forall es s o, run burst nw es (st0 tls aid us) = Some (s, o) -> ~ In EStop es -> cnt (oC true) (of c o) <= 1).
  { clear. intros es s o X N. destruct (A_any _ _ _ _ c (start_inv burst nw tls aid us false false es s o X N ltac:(discriminate) ltac:(discriminate))) as [(t & d & v & HA & _)|E0]; [|rewrite E0; cbn; lia]. pose proof (a_one _ _ _ _ HA) as K. unfold used in K. lia. }
  destruct (run_cases _ _ _ _ _ _ X) as [N|(es' & -> & N)]; [exact (K _ _ _ X N)|]. destruct (run_snoc_stop _ _ _ _ _ _ X) as (s1 & o3 & X1 & -> & -> & F). pose proof (K _ _ _ X1 N) as K1.
  rewrite of_app, cnt_app, (stop_of s1 (n_G _ _ _ _ (start_inv burst nw tls aid us false false es' s1 o3 X1 N ltac:(discriminate) ltac:(discriminate)))). destruct (live c s1); cbn; lia.
Qed.
Print Assumptions C51_connected_once_partial.

Definition alongb (P : ev -> st -> bool) (burst nw : nat) : list ev -> st -> bool :=
  fix f es s := match es with [] => true | e :: es => P e s && match step burst nw e s with Some (s1, _) => f es s1 | None => true end end.
Lemma alongb_ok P (Q : ev -> st -> Prop) burst nw : (forall e s, P e s = true -> Q e s) -> forall es s, alongb P burst nw es s = true -> along burst nw Q es s.
Proof.
  intros H. induction es as [|e es IH]; intros s E; [exact I|]. cbn in *. apply andb_true_iff in E. destruct E as (E1 & E2). split; [apply H; exact E1|]. destruct (step burst nw e s) as [(s1 & o1)|]; [apply IH; exact E2|exact I].
Qed.
Definition calmb (e : ev) (s : st) : bool := match e with EReady d _ _ true => forallb (fun a => match a with ADExch x => negb (x =? d) | _ => true end) (s_q s D) | _ => true end.
Lemma calmb_ok e s : calmb e s = true -> calm_ev e s.
Proof.
  destruct e as [| | | |d w tmo [|]| | | | | |]; cbn; auto. intros H I. rewrite forallb_forall in H. specialize (H _ I). cbn in H. rewrite Nat.eqb_refl in H. discriminate.
Qed.

(** A connection made by connect(), established in time, then terminated. *)
Definition dialled : list ev :=
  EConnect :: batch D (task D (Ch true false 5)) ++ [EReady 0 1 false true] ++ batch (W 1) (task (W 1) yes ++ [EAct (W 1) yes]) ++ batch D (task D yes) ++ batch U (task U yes ++ [EAct U yes]) ++ batch (W 1) (task (W 1) yes).
Example C51_nonvacuous : along 128 2 calm_ev (dialled ++ torn_down) (st0 false 0%N []) /\
  option_map (fun x => filter about_conn (snd x)) (run 128 2 (dialled ++ torn_down) (st0 false 0%N [])) = Some [OFed 0; OCb 0 true (Some true); OIo 0 5; ORecv 0 [1; 2]; OTorn 0; OClose 0 5; OCb 0 false (Some true)].
Proof. split; [apply (alongb_ok calmb _ _ _ calmb_ok); vm_compute; reflexivity|vm_compute; reflexivity]. Qed.

(** ** C52 *)

Theorem C52_tls_not_before_approval : forall burst nw aid us es s o o1 c bs o2,
  run burst nw es (st0 true aid us) = Some (s, o) -> o = o1 ++ ORecv c bs :: o2 -> In (OCb c true (Some true)) o1.
Proof.
  intros burst nw aid us es s o o1 c bs o2 X EO.
  assert (K : forall es s o, run burst nw es (st0 true aid us) = Some (s, o) -> ~ In EStop es -> after (gate true) oRecv (of c o)) by (intros es0 s0 o0 X0 N; exact (proj2 (start_tls burst nw true aid us es0 s0 o0 X0 N) c)).
  assert (K2 : after (gate true) oRecv (of c o)).
  { destruct (run_cases _ _ _ _ _ _ X) as [N|(es' & -> & N)]; [exact (K _ _ _ X N)|]. destruct (run_snoc_stop _ _ _ _ _ _ X) as (s1 & o3 & X1 & -> & EO' & F). rewrite EO', of_app. apply after_app; [exact (K _ _ _ X1 N)|left].
    rewrite (stop_of s1 (n_G _ _ _ _ (start_inv burst nw true aid us false false es' s1 o3 X1 N ltac:(discriminate) ltac:(discriminate)))). destruct (live c s1); reflexivity. }
  subst o. unfold of in K2. rewrite filter_app in K2. cbn [filter oabout] in K2. rewrite Nat.eqb_refl in K2. pose proof (K2 _ _ _ eq_refl eq_refl) as K3. apply cnt_In in K3. destruct K3 as (x & I & Gx). apply filter_In in I. destruct I as (I & J).
  destruct x as [d [|] [[|]|]| | | | | | | | |]; try discriminate. cbn in J. apply Nat.eqb_eq in J. subst d. exact I.
Qed.
Print Assumptions C52_tls_not_before_approval.

(** Never anything after a refusal, and the connection ends: once nothing is
    left to do it is closed and its disconnection was reported. *)
Theorem C52_tls_refused : forall burst nw aid us es s o c,
  run burst nw es (st0 true aid us) = Some (s, o) -> In (OCb c true (Some false)) o ->
  (forall bs, ~ In (ORecv c bs) o) /\
  (nothing_left s -> s_dead s = false -> s_stop s = false -> count (called c false) o = 1 /\ count (closed c) o = 1).
Proof.
  intros burst nw aid us es s o c X R. split.
  - intros bs I. apply in_split in I. destruct I as (o1 & o2 & EO). pose proof (C52_tls_not_before_approval _ _ _ _ _ _ _ _ _ _ _ X EO) as J.
    pose proof (C51_connected_once_partial _ _ _ _ _ _ _ _ c X) as L. rewrite count_cnt in L. assert (J' : In (OCb c true (Some true)) o) by (subst o; apply in_or_app; auto). clear - L R J'.
    apply in_split in R. destruct R as (l1 & l2 & ->). rewrite cnt_app in L. cbn [cnt called] in L. rewrite Nat.eqb_refl in L. cbn in L.
    assert (Z : 0 < cnt (called c true) (l1 ++ l2)); [|rewrite cnt_app in Z; lia]. apply cnt_In. exists (OCb c true (Some true)). split; [|cbn; rewrite Nat.eqb_refl; reflexivity].
    apply in_app_or in J'. apply in_or_app. destruct J' as [J'|[J'|J']]; auto. discriminate.
  - intros Q D0 S0. rewrite count_called, count_closed.
    assert (N : ~ In EStop es). { destruct (run_cases _ _ _ _ _ _ X) as [N|(es' & -> & N)]; [exact N|]. destruct (run_snoc_stop _ _ _ _ _ _ X) as (s1 & o1 & _ & -> & _). discriminate. }
    pose proof (start_inv burst nw true aid us false false es s o X N ltac:(discriminate) ltac:(discriminate)) as H.
    assert (R' : 0 < cnt (oC1 false) (of c o)). { apply cnt_In. exists (OCb c true (Some false)). split; [|reflexivity]. apply filter_In. split; [exact R|cbn; apply Nat.eqb_refl]. }
    destruct (le_lt_dec (s_nc s) c) as [L|L]; [rewrite (n_new _ _ _ _ H c L) in R'; cbn in R'; lia|].
    pose proof (n_A _ _ _ _ H c L) as HA. rewrite D0, (proj1 (start_tls burst nw true aid us es s o X N)) in HA. destruct (quiet_see s c Q) as (E1 & E2 & E3).
    pose proof (a_no _ _ _ _ HA eq_refl eq_refl R') as K. pose proof (a_term' _ _ _ _ HA eq_refl) as K0. pose proof (a_off _ _ _ _ HA) as K1. pose proof (a_close _ _ _ _ HA) as K2.
    rewrite E1, E3 in K. rewrite E1, E2 in K0. rewrite E2, E3 in K1. rewrite E2 in K2. cbn [cnt] in *. pose proof (b2n_le (c_term (v_k (see s c)))). lia.
Qed.
Print Assumptions C52_tls_refused.

(** A handshake, then approval or refusal. *)
Definition shaken (r : choice) : list ev :=
  EAccept 5 1 true :: batch (W 1) (task (W 1) yes ++ [EAct (W 1) yes]) ++ [ESock 0 (IoHand false (Some false)); ESock 0 (IoHand true (Some true))] ++ batch D (task D yes) ++ batch U (task U r ++ [EAct U yes]) ++ batch (W 1) (task (W 1) yes).
Example C52_nonvacuous :
  option_map snd (run 128 2 (shaken yes ++ [ESock 0 (IoRead [7] false)]) (st0 true 0%N [])) = Some [OFed 0; OIo 0 5; OIo 0 5; OCb 0 true (Some true); OIo 0 5; ORecv 0 [7]]
  /\ option_map snd (run 128 2 (shaken no ++ [EAct (W 1) yes; EAct (W 1) yes; EAct (W 1) yes; ENext (W 1)] ++ batch D (task D yes ++ [EAct D yes; EAct D yes]) ++ batch U (task U yes)) (st0 true 0%N []))
     = Some [OFed 0; OIo 0 5; OIo 0 5; OCb 0 true (Some false); OTorn 0; OClose 0 5; OCb 0 false (Some true)].
Proof. split; vm_compute; reflexivity. Qed.

(** ** C53 *)

(** Without TLS the answer of the callback is ignored: everything has settled,
    the connection is still open and goes on receiving. *)
Theorem C53_refusal_refuted :
  exists es s o c, run 128 2 es (st0 false 0%N []) = Some (s, o) /\ In (OCb c true (Some false)) o /\ nothing_left s /\ s_dead s = false /\
    count (called c false) o = 0 /\ count (closed c) o = 0 /\
    exists s' o', run 128 2 [ESock c (IoRead [1; 2] false)] s = Some (s', o') /\ In (ORecv c [1; 2]) o'.
Proof.
  set (es := EAccept 5 1 true :: batch (W 1) (task (W 1) yes ++ [EAct (W 1) yes]) ++ batch D (task D yes) ++ batch U (task U no ++ [EAct U yes]) ++ batch (W 1) (task (W 1) yes)).
  destruct (run 128 2 es (st0 false 0%N [])) as [(s & o)|] eqn:E; [|exfalso; vm_compute in E; discriminate]. exists es, s, o, 0. split; [exact E|].
  assert (EO : Some o = option_map snd (run 128 2 es (st0 false 0%N []))) by (rewrite E; reflexivity). vm_compute in EO. injection EO as ->.
  assert (ES : Some s = option_map fst (run 128 2 es (st0 false 0%N []))) by (rewrite E; reflexivity). vm_compute in ES. injection ES as ->. clear E.
  split; [right; left; reflexivity|]. split; [intros [|[|[|i]]]; split; reflexivity|]. split; [reflexivity|]. split; [reflexivity|]. split; [reflexivity|].
  eexists. eexists. split; [vm_compute; reflexivity|]. right. left. reflexivity.
Qed.
Print Assumptions C53_refusal_refuted.

(** With TLS a refusal ends the connection.  In full: the same for every
    connection. *)
Theorem C53_refusal_tls_partial : forall burst nw aid us es s o c,
  run burst nw es (st0 true aid us) = Some (s, o) -> In (OCb c true (Some false)) o ->
  nothing_left s -> s_dead s = false -> s_stop s = false -> count (called c false) o = 1 /\ count (closed c) o = 1.
Proof. intros burst nw aid us es s o c X R. exact (proj2 (C52_tls_refused _ _ _ _ _ _ _ _ X R)). Qed.
Print Assumptions C53_refusal_tls_partial.

(** ** C54 *)

Theorem C54_first_least_loaded : forall loads, loads <> [] ->
  exists best, nth_error loads (select_worker loads) = Some best
    /\ (forall i x, nth_error loads i = Some x -> (best <= x)%N) /\ (forall i x, nth_error loads i = Some x -> i < select_worker loads -> (best < x)%N).
Proof.
  assert (K : forall loads i idx best pre, length pre = i -> nth_error (pre ++ loads) idx = Some best -> (forall j x, nth_error pre j = Some x -> (best <= x)%N) -> (forall j x, nth_error pre j = Some x -> j < idx -> (best < x)%N) -> idx <= i ->
    let r := select_from i idx best loads in exists b, nth_error (pre ++ loads) r = Some b /\ (forall j x, nth_error (pre ++ loads) j = Some x -> (b <= x)%N) /\ (forall j x, nth_error (pre ++ loads) j = Some x -> j < r -> (b < x)%N)).
  { induction loads as [|t loads IH]; intros i idx best pre L1 E H1 H2 L2; cbn [select_from].
    - exists best. rewrite app_nil_r in *. auto.
    - replace (pre ++ t :: loads) with ((pre ++ [t]) ++ loads) in * by (rewrite <- app_assoc; reflexivity).
      assert (SN : forall j x, nth_error (pre ++ [t]) j = Some x -> nth_error pre j = Some x \/ (j = i /\ x = t)).
      { intros j x Ej. destruct (lt_dec j i) as [Lj|Lj]; [left; rewrite nth_error_app1 in Ej by lia; exact Ej|]. rewrite nth_error_app2 in Ej by lia. destruct (j - length pre) as [|k] eqn:Ek; cbn in Ej; [injection Ej as <-; right; split; [lia|reflexivity]|destruct k; discriminate]. }
      destruct (N.ltb_spec t best) as [Lt|Lt].
      + apply IH.
        * rewrite app_length. cbn. lia.
        * rewrite <- app_assoc. rewrite nth_error_app2 by lia. rewrite L1, Nat.sub_diag. reflexivity.
        * intros j x Ej. destruct (SN j x Ej) as [Ej'|(_ & ->)]; [specialize (H1 j x Ej'); lia|lia].
        * intros j x Ej Lj. destruct (SN j x Ej) as [Ej'|(-> & _)]; [specialize (H1 j x Ej'); lia|lia].
        * lia.
      + apply IH.
        * rewrite app_length. cbn. lia.
        * exact E.
        * intros j x Ej. destruct (SN j x Ej) as [Ej'|(_ & ->)]; [exact (H1 j x Ej')|lia].
        * intros j x Ej Lj. destruct (SN j x Ej) as [Ej'|(-> & _)]; [exact (H2 j x Ej' Lj)|lia].
        * lia. }
  intros loads NE. destruct loads as [|t loads]; [congruence|]. unfold select_worker. destruct (K (t :: loads) 0 0 t []) as (b & K1 & K2 & K3); auto; try (intros [|j] x Ej; discriminate).
  exists b. auto.
Qed.
Print Assumptions C54_first_least_loaded.
Example C54_nonvacuous : select_worker [4; 2; 7; 2]%N = 1. Proof. reflexivity. Qed.

(** ** C55 *)

Definition issued (o : list obs) : list N := flat_map (fun x => match x with OAsync i => [i] | _ => [] end) o.
Definition failed (id : N) (o : obs) : bool := match o with OThrow i => (i =? id)%N | _ => false end.
Definition started (id : N) (o : obs) : bool := match o with OAsync i => (i =? id)%N | _ => false end.
Definition reported (id : N) (o : obs) : bool := match o with OErr _ (Some i) => (i =? id)%N | _ => false end.

Lemma start_ids burst nw tls aid us es s o id : (aid < 2 ^ 16)%N -> run burst nw es (st0 tls aid us) = Some (s, o) -> ids id aid s o.
Proof.
  intros L X. apply (ids_run burst nw id aid es (st0 tls aid us) [] s o); [apply Inv_init| |exact X].
  constructor; cbn; auto. rewrite N.add_0_r. symmetry. apply N.mod_small. exact L.
Qed.

(** The ids handed out, in order: any 65536 in a row are different. *)
Theorem C55_ids_distinct : forall burst nw tls aid us es s o, (aid < 2 ^ 16)%N -> run burst nw es (st0 tls aid us) = Some (s, o) ->
  forall i j x y, nth_error (issued o) i = Some x -> nth_error (issued o) j = Some y -> i < j -> (N.of_nat j < N.of_nat i + 65536)%N -> x <> y.
Proof.
  intros burst nw tls aid us es s o L X i j x y Ei Ej L1 L2 E. subst y. destruct (start_ids burst nw tls aid us es s o 0%N L X) as [_ _ _ E]. change (asyncs o) with (issued o) in E. rewrite E in Ei, Ej.
  assert (Z : forall k z, nth_error (map (fun k => ((aid + N.of_nat k) mod 2 ^ 16)%N) (seq 0 (length (issued o)))) k = Some z -> z = ((aid + N.of_nat k) mod 2 ^ 16)%N).
  { intros k z Ek. assert (Lk : k < length (issued o)). { assert (NN : nth_error (map (fun k => ((aid + N.of_nat k) mod 2 ^ 16)%N) (seq 0 (length (issued o)))) k <> None) by congruence. apply nth_error_Some in NN. rewrite map_length, seq_length in NN. exact NN. }
    rewrite nth_error_map in Ek. rewrite (nth_error_nth' _ 0) in Ek by (rewrite seq_length; exact Lk). rewrite seq_nth in Ek by exact Lk. cbn [option_map Nat.add] in Ek. injection Ek as Ek. symmetry. exact Ek. }
  apply Z in Ei, Ej. rewrite Ei in Ej. clear - Ej L1 L2.
  assert (M0 : (2 ^ 16 <> 0)%N) by discriminate. pose proof (N.div_mod (aid + N.of_nat i) _ M0) as D1. pose proof (N.div_mod (aid + N.of_nat j) _ M0) as D2. rewrite Ej in D1. set (a := ((aid + N.of_nat i) / 2 ^ 16)%N) in *. set (b := ((aid + N.of_nat j) / 2 ^ 16)%N) in *. set (m := ((aid + N.of_nat j) mod 2 ^ 16)%N) in *.
  change (2 ^ 16)%N with 65536%N in *. assert (a < b \/ b <= a)%N by lia. lia.
Qed.
Print Assumptions C55_ids_distinct.

(** Every error reported under an id is that of an operation of that id that
    failed, and once nothing is left to do every failure has been reported. *)
Theorem C55_errors_carry_ids : forall burst nw tls aid us es s o id, (aid < 2 ^ 16)%N -> run burst nw es (st0 tls aid us) = Some (s, o) ->
  count (reported id) o <= count (failed id) o <= count (started id) o /\ (nothing_left s -> count (reported id) o = count (failed id) o).
Proof.
  intros burst nw tls aid us es s o id L X. rewrite !count_cnt. destruct (start_ids burst nw tls aid us es s o id L X) as [K1 K2 _ _]. change (cnt (oErr id) o) with (cnt (reported id) o) in *. change (cnt (oThrow id) o) with (cnt (failed id) o) in *. change (cnt (oAsync id) o) with (cnt (started id) o) in *.
  split; [lia|]. intros Q. unfold pn in K1. destruct (Q U) as (Q1 & Q2). rewrite Q1, Q2 in K1. cbn in K1. lia.
Qed.
Print Assumptions C55_errors_carry_ids.

(** Two connects around the wrap, the first fails. *)
Example C55_nonvacuous :
  option_map snd (run 128 2 ([EConnect; EConnect] ++ batch D (task D boom ++ task D (Ch true false 5)) ++ batch U (task U yes)) (st0 false 65535%N [])) = Some [OAsync 65535; OAsync 0; OThrow 65535; OErr false (Some 65535%N)].
Proof. vm_compute. reflexivity. Qed.

(** ** C56 *)

(** Connections of worker w that it accepted and has not given up. *)
Definition in_service (s : st) (o : list obs) (w : nat) : list nat :=
  filter (fun c => match c_worker (s_conn s c) with Some x => x =? w | None => false end
                   && existsb (fun x => match x with OFed d => d =? c | _ => false end) o
                   && negb (existsb (fun x => match x with OTorn d => d =? c | _ => false end) o)) (seq 0 (s_nc s)).

(** As in C51, but the dispatcher terminates the connection before the worker
    has taken it over: the worker has no connection and counts 2^64-1. *)
Theorem C56_load_refuted : exists es s o, run 128 2 es (st0 false 0%N []) = Some (s, o) /\ s_dead s = false /\ in_service s o 1 = [] /\ s_load s 1 = (2 ^ 64 - 1)%N.
Proof.
  set (es := late ++ EBatch D :: task D yes ++ [EAct D yes]). destruct (run 128 2 es (st0 false 0%N [])) as [(s & o)|] eqn:E; [|exfalso; vm_compute in E; discriminate]. exists es, s, o. split; [exact E|].
  assert (K : option_map (fun x => (s_dead (fst x), in_service (fst x) (snd x) 1, s_load (fst x) 1)) (run 128 2 es (st0 false 0%N [])) = Some (false, [], (2 ^ 64 - 1)%N)) by (vm_compute; reflexivity).
  rewrite E in K. cbn [option_map fst snd] in K. injection K as -> -> ->. auto.
Qed.
Print Assumptions C56_load_refuted.

(** Without that race, and if no worker fails to take over a connection, the
    count is right after every step, as long as fewer than 2^64 connections
    were ever made.  In full: in every run. *)
Theorem C56_load_partial : forall burst nw tls aid us es s o,
  run burst nw es (st0 tls aid us) = Some (s, o) -> ~ In EStop es ->
  along burst nw (fun e s => match e with EReady d _ _ true => ~ In (ADExch d) (s_q s D) | _ => True end) es (st0 tls aid us) ->
  along burst nw (fun e s => match e with EAct t (Ch ok _ _) => match s_cur s t with AFeed _ :: _ => ok = true | _ => True end | _ => True end) es (st0 tls aid us) ->
  (N.of_nat (s_nc s) < 2 ^ 64)%N ->
  forall w, s_load s w = N.of_nat (length (in_service s o w)).
Proof.
  intros burst nw tls aid us es s o X N CM FO L w.
  pose proof (load_run burst nw es (st0 tls aid us) [] s o (Inv_init _ _ _ _ _) (Inv_init _ _ _ _ _) X N CM) as K. rewrite K; auto.
  unfold total, in_service. f_equal. f_equal. apply filter_ext. intros c. unfold serves, fed, torn. destruct (c_worker (s_conn s c)) as [x|]; reflexivity.
Qed.
Print Assumptions C56_load_partial.
Definition feedb (e : ev) (s : st) : bool := match e with EAct t (Ch ok _ _) => match s_cur s t with AFeed _ :: _ => ok | _ => true end | _ => true end.
Example C56_nonvacuous : along 128 2 calm_ev dialled (st0 false 0%N []) /\ along 128 2 feed_ev dialled (st0 false 0%N []) /\
  option_map (fun x => (s_load (fst x) 1, in_service (fst x) (snd x) 1)) (run 128 2 dialled (st0 false 0%N [])) = Some (1%N, [0]) /\
  option_map (fun x => (s_load (fst x) 1, in_service (fst x) (snd x) 1)) (run 128 2 (dialled ++ torn_down) (st0 false 0%N [])) = Some (0%N, []).
Proof.
  split; [apply (alongb_ok calmb _ _ _ calmb_ok); vm_compute; reflexivity|]. split; [|split; vm_compute; reflexivity].
  apply (alongb_ok feedb); [|vm_compute; reflexivity]. intros e s H. destruct e as [| | | | | | | | |t [ok thr fd]|]; cbn in *; auto; destruct (s_cur s t) as [|[] ?]; auto.
Qed.

(** ** C72: no reads or writes for a connection whose socket was closed *)

(** With TLS the worker starts the handshake as soon as it gets the
    connection; in the race above this is after the close, when the number of
    the socket may belong to another connection already. *)
Definition close05 (o : obs) : bool := match o with OClose 0 5 => true | _ => false end.
Definition io05 (o : obs) : bool := match o with OIo 0 5 => true | _ => false end.
Lemma late_split2 o : inv close05 io05 o = 1 -> exists o1 o2, o = o1 ++ OClose 0 5 :: o2 /\ In (OIo 0 5) o2.
Proof.
  intros K. destruct (split_at close05 io05 o) as (o1 & a & o2 & b & EO & P & I & Q); [lia|].
  assert (Ea : a = OClose 0 5) by (destruct a as [ |[|?] [|[|[|[|[|[|?]]]]]]| | | | | | | | ]; try discriminate P; reflexivity).
  assert (Eb : b = OIo 0 5) by (destruct b as [ | | |[|?] [|[|[|[|[|[|?]]]]]]| | | | | | ]; try discriminate Q; reflexivity). subst a b. eauto.
Qed.

Definition late_io : list ev :=
  late ++ batch D (task D yes ++ [EAct D yes; EAct D yes; EAct D yes; EAct D yes]) ++ [EAccept 5 0 true] ++ batch (W 1) (task (W 1) yes ++ [EAct (W 1) yes]) ++ [ESock 0 (IoHand true (Some false))].
Theorem C72_io_after_close_refuted : exists es s o o1 o2 c c' fd, run 128 2 es (st0 true 0%N []) = Some (s, o) /\ o = o1 ++ OClose c fd :: o2 /\ In (OIo c fd) o2 /\ c' <> c /\ c_fd (s_conn s c') = fd /\ count (closed c') o = 0.
Proof.
  exists late_io. destruct (run 128 2 late_io (st0 true 0%N [])) as [(s & o)|] eqn:E; [|exfalso; vm_compute in E; discriminate].
  assert (K : option_map (fun x => (c_fd (s_conn (fst x) 1), count (closed 1) (snd x), inv close05 io05 (snd x))) (run 128 2 late_io (st0 true 0%N [])) = Some (5, 0, 1)) by (vm_compute; reflexivity).
  rewrite E in K. cbn [option_map fst snd] in K. injection K as K1 K2 K3. destruct (late_split2 o K3) as (o1 & o2 & H1 & H2).
  exists s, o, o1, o2, 0, 1, 5. split; [reflexivity|]. split; [exact H1|]. split; [exact H2|]. split; [intros Z; discriminate Z|]. split; assumption.
Qed.
Print Assumptions C72_io_after_close_refuted.

(** Without that race there are none.  In full: in every run. *)
Theorem C72_io_after_close_partial : forall burst nw tls aid us es s o o1 o2 c fd,
  run burst nw es (st0 tls aid us) = Some (s, o) ->
  along burst nw (fun e s => match e with EReady d _ _ true => ~ In (ADExch d) (s_q s D) | _ => True end) es (st0 tls aid us) ->
  o = o1 ++ OClose c fd :: o2 -> forall fd', ~ In (OIo c fd') o2.
Proof.
  intros burst nw tls aid us es s o o1 o2 c fd X CM EO fd' I.
  assert (K : forall es s o, run burst nw es (st0 tls aid us) = Some (s, o) -> ~ In EStop es -> along burst nw calm_ev es (st0 tls aid us) -> inv oClose oIo (of c o) = 0).
  { clear. intros es s o X N CM. pose proof (start_inv burst nw tls aid us true false es s o X N (fun _ => CM) ltac:(discriminate)) as H. destruct (le_lt_dec (s_nc s) c) as [L|L]; [rewrite (n_new _ _ _ _ H c L); reflexivity|]. exact (b_io _ _ (n_B _ _ _ _ H eq_refl c L)). }
  assert (K2 : inv oClose oIo (of c o) = 0).
  { destruct (run_cases _ _ _ _ _ _ X) as [N|(es' & -> & N)]; [exact (K _ _ _ X N CM)|]. destruct (run_snoc_stop _ _ _ _ _ _ X) as (s1 & o3 & X1 & -> & EO' & F). pose proof (K _ _ _ X1 N (along_app _ _ _ _ _ _ CM)) as K1.
    rewrite EO', of_app, (stop_of s1 (n_G _ _ _ _ (start_inv burst nw tls aid us false false es' s1 o3 X1 N ltac:(discriminate) ltac:(discriminate)))). destruct (live c s1); [rewrite inv_snoc2; cbn; lia|rewrite app_nil_r; exact K1]. }
  subst o. unfold of in K2. rewrite filter_app in K2. cbn [filter oabout] in K2. rewrite Nat.eqb_refl in K2.
  assert (Y : forall l m, inv oClose oIo (l ++ OClose c fd :: m) = 0 -> cnt oIo m = 0).
  { clear. induction l as [|x l IH]; intros m; cbn; [lia|]. intros Z. apply IH. lia. }
  apply Y in K2. assert (0 < cnt oIo (filter (oabout c) o2)); [|lia]. apply cnt_In. exists (OIo c fd'). split; [|reflexivity]. apply filter_In. split; [exact I|]. cbn. apply Nat.eqb_refl.
Qed.
Print Assumptions C72_io_after_close_partial.
(** [C51_nonvacuous] shows such a run with a close and earlier reads. *)
Example C72_nonvacuous : along 128 2 calm_ev (dialled ++ torn_down) (st0 false 0%N []) /\
  option_map (fun x => (count (closed 0) (snd x), count oIo (snd x))) (run 128 2 (dialled ++ torn_down) (st0 false 0%N [])) = Some (1, 1).
Proof. split; [exact (proj1 C51_nonvacuous)|vm_compute; reflexivity]. Qed.

(** ** C73: accepting goes on after an accept that failed *)

Lemma listen_step burst nw e s s' o : step burst nw e s = Some (s', o) -> s_listen s = false -> s_listen s' = false /\ forall fd w ok, e <> EAccept fd w ok.
Proof.
  intros X L. unfold step in X. destruct (s_stop s); [discriminate|]. rewrite L in X. split.
  - unfold act_step, io_step, worker_terminate, disp_terminate in X. destruct e; rewrite ?andb_false_r in X; try discriminate;
    repeat match type of X with context [match ?x with _ => _ end] => lazymatch x with context [match _ with _ => _ end] => fail | _ => destruct x; try discriminate end end; try (injection X as <- <-; exact L).
    destruct (forallb _ _); [injection X as <- <-; exact L|discriminate].
  - intros fd w ok ->. rewrite andb_false_r in X. discriminate.
Qed.

(** One failing accept (for example no descriptor left, EMFILE) and the pool
    never accepts again by itself, although its socket is still listening.  (The
    model has no second call of listen(), which would start a new listener.) *)
Theorem C73_accept_recovers_refuted :
  exists es s o, run 128 2 es (st0 false 0%N []) = Some (s, o) /\ s_stop s = false /\ nothing_left s /\
    forall es' s' o', run 128 2 es' s = Some (s', o') -> forall fd w ok, ~ In (EAccept fd w ok) es'.
Proof.
  set (es := EAccept 0 0 false :: batch U (task U yes)). destruct (run 128 2 es (st0 false 0%N [])) as [(s & o)|] eqn:E; [|exfalso; vm_compute in E; discriminate]. exists es, s, o. split; [exact E|].
  assert (ES : Some s = option_map fst (run 128 2 es (st0 false 0%N []))) by (rewrite E; reflexivity). vm_compute in ES. injection ES as ES.
  split; [rewrite ES; reflexivity|]. split; [rewrite ES; intros [|[|[|i]]]; split; reflexivity|].
  assert (L : s_listen s = false) by (rewrite ES; reflexivity). clear - L. intros es'. revert s L. induction es' as [|e es' IH]; intros s L s' o' X fd w ok I; [exact I|]. cbn [PoolModel.run] in X.
  destruct (step 128 2 e s) as [(s1 & o1)|] eqn:E1; [|discriminate]. destruct (run 128 2 es' s1) as [(s2 & o2)|] eqn:E2; [|discriminate]. destruct (listen_step _ _ _ _ _ _ E1 L) as (L1 & N). destruct I as [I|I]; [exact (N _ _ _ I)|]. exact (IH s1 L1 _ _ E2 _ _ _ I).
Qed.
Print Assumptions C73_accept_recovers_refuted.

Lemma listen_step2 burst nw e s s' o : step burst nw e s = Some (s', o) -> (forall fd w, e <> EAccept fd w false) -> e <> EStop -> s_listen s = true -> s_listen s' = true /\ s_stop s' = false.
Proof.
  intros X N1 N2 L. split; [|exact (proj2 (stop_step burst nw e s s' o X N2))]. unfold step in X. destruct (s_stop s); [discriminate|].
  unfold act_step, io_step, worker_terminate, disp_terminate in X. destruct e; try congruence; try (destruct ok; [|exfalso; exact (N1 _ _ eq_refl)]);
    repeat match type of X with context [match ?x with _ => _ end] => lazymatch x with context [match _ with _ => _ end] => fail | _ => destruct x; try discriminate end end; injection X as <- <-; exact L.
Qed.

(** As long as no accept failed and the pool was not stopped, whenever the
    dispatcher is free it accepts.  In full: also after an accept failed. *)
Theorem C73_accept_goes_on_partial : forall burst nw tls aid us es s o fd w,
  run burst nw es (st0 tls aid us) = Some (s, o) -> ~ In EStop es -> (forall fd w, ~ In (EAccept fd w false) es) ->
  idle D s = true -> w < nw -> ~ In fd (s_open s) ->
  exists s' o', run burst nw [EAccept fd w true] s = Some (s', o').
Proof.
  intros burst nw tls aid us es s o fd w X N1 N2 ID L O.
  assert (K : s_listen s = true /\ s_stop s = false).
  { assert (K0 : s_listen (st0 tls aid us) = true /\ s_stop (st0 tls aid us) = false) by (split; reflexivity). clear ID O. revert X N1 N2 K0. generalize (st0 tls aid us). revert s o. induction es as [|e es IH]; intros s o s0 X N1 N2 K0; [injection X as <- <-; exact K0|].
    cbn [PoolModel.run] in X. destruct (step burst nw e s0) as [(s1 & o1)|] eqn:E1; [|discriminate]. destruct (run burst nw es s1) as [(s2 & o2)|] eqn:E2; [|discriminate]. injection X as <- <-.
    apply (IH _ _ _ E2); [intros I; apply N1; right; exact I|intros f w' I; apply (N2 f w'); right; exact I|]. apply (listen_step2 _ _ _ _ _ _ E1); [intros f w' ->; apply (N2 f w'); left; reflexivity|intros ->; apply N1; left; reflexivity|apply K0]. }
  destruct K as (K1 & K2). cbn [PoolModel.run]. unfold step. rewrite K2, ID, K1. apply Nat.ltb_lt in L. rewrite L. cbn [andb].
  destruct (existsb (Nat.eqb fd) (s_open s)) eqn:E; [|eauto]. exfalso. apply existsb_exists in E. destruct E as (x & I & E). apply Nat.eqb_eq in E. subst x. exact (O I).
Qed.
Print Assumptions C73_accept_goes_on_partial.
Example C73_nonvacuous : option_map (fun x => (idle D (fst x), s_open (fst x))) (run 128 2 accepted (st0 false 0%N [])) = Some (true, [5]).
Proof. vm_compute. reflexivity. Qed.

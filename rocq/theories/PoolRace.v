(** Threads do not use the same part of a connection at the same time
    (PoolModel).

    Two threads that can both take their next step, where the steps access the
    same variable of the same connection and one of them writes it, race; C++
    leaves the behaviour undefined then.  Each action of PoolModel is small enough
    that steps of two threads overlapping in time can also be taken one after the
    other, so races show as states in which both steps can be taken. *)
From Coq Require Import Arith NArith List Bool Lia.
From Verif Require Import PoolModel PoolProofs PoolInv PoolCalm PoolRun PoolIds PoolProps.
Import ListNotations.

(** Variables of a connection (conn.h 77-98) that are not atomic and change
    after it was made: worker, ev_connect, ev_socket, send_data_func with
    recv_data_func and tls, ready_send with ready_recv and the receive buffer,
    peer_cert, the handler of the send queue (event.h 606-627).  fd, cpool, mode and addr
    do not change (conn.cpp 322-329, 404-411). *)
Inductive fld := Worker | EvConnect | EvSocket | Io | Flags | Cert | Handler.
Definition acc := (tid * nat * fld * bool)%type.     (* thread, connection, variable, is it written *)
Definition rd t c (l : list fld) : list acc := map (fun f => (t, c, f, false)) l.
Definition wr t c (l : list fld) : list acc := map (fun f => (t, c, f, true)) l.

(** What an action accesses. *)
Definition act_accs (t : tid) (a : act) (s : st) : list acc :=
  match a with
  | AConn _ => []                                        (* conn.cpp 404-434: an object nobody else knows yet *)
  | ADispTerm c => rd t c [Worker]                       (* conn.cpp 289 *)
  | ADExch _ | AWExch _ => []                            (* terminated is atomic *)
  | ADel _ => []                                         (* fd *)
  | ASetup c => rd t c [Worker; Cert]                    (* network.h 792, 795: tcall_reset_timeout, get_peer_id *)
  | AFeed c => rd t c [Worker] ++ wr t c [EvSocket; Io; Handler]    (* conn.h 285-334 *)
  | AGo c _ => if c_term (s_conn s c) then [] else rd t c [Worker] ++ wr t c [EvSocket; Io]   (* conn.h 219-233 *)
  | ACb c _ => rd t c [Cert]                             (* the user's callback may look at the certificate *)
  | AErr _ _ | AFatal | AInc _ => []
  | ATearW c | ATearD c => rd t c [Worker] ++ wr t c [EvSocket; Io; Handler]   (* conn.h 187-190 *)
  | APostDel _ | AOff _ => []
  | ARelease c => wr t c [EvConnect; EvSocket]           (* conn.cpp 447-448 *)
  | APostGo c _ => rd t c [Worker]                       (* conn.h 218, 230 *)
  end.
Definition accs (e : ev) (s : st) : list acc :=
  match e with
  | EConnect | ETerm _ | EBatch _ | ENext _ => []
  | EStop => []                                          (* after all other threads have been joined *)
  | EBad c => rd U c [Worker]                            (* conn.cpp 276 *)
  | EAccept _ _ _ => wr D (s_nc s) [Worker]              (* conn.cpp 332-333 *)
  | EReady c _ _ ok => wr D c [EvConnect] ++ (if ok then wr D c [Worker] else rd D c [Worker])   (* conn.cpp 343-347, 289 *)
  | ESock c i => match c_worker (s_conn s c) with
                 | Some w => rd (W w) c [Worker] ++ wr (W w) c [EvSocket; Io; Flags] ++ match i with IoHand _ (Some true) => wr (W w) c [Cert; Handler] | _ => [] end
                 | None => []
                 end
  | ESendq c => match c_worker (s_conn s c) with
                | Some w => rd (W w) c [Handler; Flags; Io] ++ wr (W w) c [EvSocket]    (* conn.h 274-280 *)
                | None => []
                end
  | EAct t _ => match s_cur s t with a :: _ => act_accs t a s | [] => [] end
  end.

(** The next step of some thread accesses this; two threads race. *)
Definition may (burst nw : nat) (s : st) (x : acc) : Prop := exists e s' o, step burst nw e s = Some (s', o) /\ In x (accs e s).
Definition race (burst nw : nat) (s : st) : Prop :=
  exists t1 t2 c f w1 w2, t1 <> t2 /\ w1 || w2 = true /\ may burst nw s (t1, c, f, w1) /\ may burst nw s (t2, c, f, w2).

(** ** C124 *)
Definition C124_race_full : Prop := forall burst nw tls aid us es s o,
  run burst nw es (st0 tls aid us) = Some (s, o) -> ~ race burst nw s.

(** The dispatcher tears a connection down which a worker is taking over (the
    order of events of C51). *)
Definition late_race : list ev := late ++ [EBatch D; ENext D; EAct D yes; EBatch (W 1); ENext (W 1)].
Theorem C124_race_refuted : exists es s o, run 128 2 es (st0 false 0%N []) = Some (s, o) /\
  race 128 2 s /\ forall f, In f [EvSocket; Io; Handler] -> exists t1 t2 c, t1 <> t2 /\ may 128 2 s (t1, c, f, true) /\ may 128 2 s (t2, c, f, true).
Proof.
  exists late_race. destruct (run 128 2 late_race (st0 false 0%N [])) as [(s & o)|] eqn:E.
  2: { assert (Z : (if run 128 2 late_race (st0 false 0%N []) then true else false) = true) by (vm_compute; reflexivity). rewrite E in Z. discriminate Z. }
  exists s, o. split; [reflexivity|].
  assert (K : option_map (fun x => (s_stop (fst x), s_cur (fst x) D, s_cur (fst x) (W 1), s_tls (fst x))) (run 128 2 late_race (st0 false 0%N [])) = Some (false, [ATearD 0; ADel 0], [AFeed 0], false)) by (vm_compute; reflexivity).
  rewrite E in K. cbn [option_map fst] in K. injection K as K1 K2 K3 K4.
  assert (R : forall f, In f [EvSocket; Io; Handler] -> exists t1 t2 c, t1 <> t2 /\ may 128 2 s (t1, c, f, true) /\ may 128 2 s (t2, c, f, true)).
  { intros f I. exists D, (W 1), 0. split; [discriminate|]. split.
    - exists (EAct D yes). eexists _, _. split; [unfold step; rewrite K1, K2; cbn [act_step]; reflexivity|]. cbn [accs]. rewrite K2. cbn [act_accs rd wr map app]. cbn [In] in I. destruct I as [<-|[<-|[<-|[]]]]; cbn [In]; auto.
    - exists (EAct (W 1) yes). eexists _, _. split; [unfold step; rewrite K1, K3; cbn [act_step yes]; reflexivity|]. cbn [accs]. rewrite K3. cbn [act_accs rd wr map app]. cbn [In] in I. destruct I as [<-|[<-|[<-|[]]]]; cbn [In]; auto. }
  split; [|exact R]. destruct (R EvSocket ltac:(cbn [In]; auto)) as (t1 & t2 & c & N & M1 & M2). exists t1, t2, c, EvSocket, true, true. auto.
Qed.
Print Assumptions C124_race_refuted.

(** A connection returned by connect_sync is in the user's hands before its
    handshake; asked for its certificate then, it is read while the worker
    sets it. *)
Definition made : list ev := EConnect :: batch D (task D (Ch true false 5)) ++ [EReady 0 1 false true] ++ batch (W 1) (task (W 1) yes ++ [EAct (W 1) yes]).
Theorem C124_cert_refuted : exists es s o, run 128 2 es (st0 true 0%N []) = Some (s, o) /\
  along 128 2 calm_ev es (st0 true 0%N []) /\ In EConnect es /\ s_nc s = 1 /\ may 128 2 s (W 1, 0, Cert, true).
Proof.
  exists made. destruct (run 128 2 made (st0 true 0%N [])) as [(s & o)|] eqn:E.
  2: { assert (Z : (if run 128 2 made (st0 true 0%N []) then true else false) = true) by (vm_compute; reflexivity). rewrite E in Z. discriminate Z. }
  exists s, o. split; [reflexivity|]. split; [apply (alongb_ok calmb _ _ _ calmb_ok); vm_compute; reflexivity|]. split; [left; reflexivity|].
  assert (K : option_map (fun x => (s_stop (fst x), s_cur (fst x) (W 1), s_left (fst x) (W 1), s_conn (fst x) 0, s_nc (fst x))) (run 128 2 made (st0 true 0%N [])) = Some (false, [], 0, mkConn 5 (Some 1) false false true true false RHand, 1)) by (vm_compute; reflexivity).
  rewrite E in K. cbn [option_map fst] in K. injection K as K1 K2 K3 K4 K5. split; [exact K5|].
  exists (ESock 0 (IoHand false (Some true))). eexists _, _. split.
  - unfold step, idle. rewrite K1, K4. cbn [c_worker c_evs c_arm]. rewrite K2, K3. cbn [andb io_step]. unfold io_step. rewrite K4. cbn [c_recv]. reflexivity.
  - cbn [accs]. rewrite K4. cbn [c_worker rd wr map app In]. auto 10.
Qed.
Print Assumptions C124_cert_refuted.

(** *** Otherwise: who accesses what, and in which situation *)
Inductive cl (s : st) (c : nat) : tid -> fld -> bool -> Prop :=
| c_acc w : s_nc s <= c -> cl s c D Worker w
| c_evcon w : cl s c D EvConnect w
| c_rdy w : c_evc (s_conn s c) = true -> cl s c D Worker w
| c_usr : c_worker (s_conn s c) <> None -> cl s c U Worker false
| c_dw : cl s c D Worker false
| c_set : 0 < cnt isS (v_d (see s c)) -> cl s c D Cert false
| c_cb b : 0 < cnt (isC b) (v_u (see s c)) -> cl s c U Cert false
| c_td f w : c_worker (s_conn s c) = None -> f <> Cert -> cl s c D f w
| c_rel w : cnt isP (v_w (see s c)) = 0 -> c_term (s_conn s c) = true -> cl s c D EvSocket w
| c_work i f w : c_worker (s_conn s c) = Some i -> c_term (s_conn s c) = false \/ 0 < cnt isP (v_w (see s c)) ->
    match f with EvConnect => False | Worker => w = false | Cert => c_recv (s_conn s c) = RHand /\ c_term (s_conn s c) = false | _ => True end -> cl s c (W i) f w.

Lemma in_cnt {X} (p : X -> bool) l a : In a l -> p a = true -> 0 < cnt p l.
Proof. intros I P. apply cnt_In. eauto. Qed.
Lemma seen_d s c a : In a (s_cur s D) -> conn_of a = Some c -> kind_of a = KD -> In a (v_d (see s c)).
Proof. intros I C K. apply V_In'; [apply in_or_app; auto|exact C|exact K]. Qed.
Lemma seen_u s c a : In a (s_cur s U) -> conn_of a = Some c -> kind_of a = KU -> In a (v_u (see s c)).
Proof. intros I C K. apply V_In'; [apply in_or_app; auto|exact C|exact K]. Qed.
Lemma seen_w s c a w : c_worker (s_conn s c) = Some w -> In a (s_cur s (W w)) -> conn_of a = Some c -> kind_of a = KW -> In a (v_w (see s c)).
Proof. intros E I C K. cbn [see v_w]. unfold vw. rewrite E. apply V_In'; [apply in_or_app; auto|exact C|exact K]. Qed.

Ltac pick I := cbn [rd wr map app In] in I; repeat (destruct I as [I|I]; [injection I as <- <- <- <-|]); [..|destruct I].

Lemma classify burst nw s l e s' o t c f w : Inv true false s l -> step burst nw e s = Some (s', o) -> In (t, c, f, w) (accs e s) -> cl s c t f w.
Proof.
  intros H S I. unfold step in S. destruct (s_stop s); [discriminate|]. pose proof (n_G _ _ _ _ H) as g.
  assert (IDLE : forall d i, c_worker (s_conn s d) = Some i -> idle (W i) s = true -> c_evs (s_conn s d) = true -> c_term (s_conn s d) = false).
  { intros d i WK ID EV. destruct (c_term (s_conn s d)) eqn:TM; [|reflexivity]. exfalso.
    assert (L : d < s_nc s). { destruct (le_lt_dec (s_nc s) d) as [L|L]; [|exact L]. destruct (g_new s g d L) as (E & _). rewrite E in WK. discriminate. }
    pose proof (b_evs _ _ (n_B _ _ _ _ H eq_refl d L)) as B1. cbn [see v_k] in B1. rewrite EV, TM in B1. specialize (B1 eq_refl eq_refl).
    pose proof (idle_tasks KW d (W i) s g (idle_cur _ _ ID)) as T. destruct (tasks_cnt _ T) as (T0 & _). cbn [see v_w] in B1. unfold vw in B1. rewrite WK in B1. lia. }
  destruct e as [|d|d|fd i ok|d i tmo ok|d i|d|u|u|u ch|]; cbn [accs] in I; try (cbn [In] in I; contradiction).
  - destruct (c_worker (s_conn s d)) eqn:WK; [|discriminate]. pick I. apply c_usr. rewrite WK. discriminate.
  - pick I. apply c_acc. lia.
  - destruct (idle D s); [|discriminate]. destruct (c_evc (s_conn s d)) eqn:EC; [|discriminate]. destruct ok; pick I; try apply c_evcon; apply c_rdy; exact EC.
  - destruct (c_worker (s_conn s d)) as [x|] eqn:WK; [|destruct I]. destruct (idle (W x) s) eqn:ID; [|discriminate]. destruct (c_evs (s_conn s d)) eqn:EV; [|discriminate]. destruct (c_arm (s_conn s d)); [|discriminate]. cbn [andb] in S.
    pose proof (IDLE _ _ WK ID EV) as TM. rewrite app_assoc in I. apply in_app_or in I as [I|I].
    + pick I; apply c_work; auto.
    + destruct i as [| |wr0 [[|]|]]; try (cbn [In] in I; contradiction). unfold io_step in S. destruct (c_recv (s_conn s d)) eqn:RC; try discriminate. pick I; apply c_work; auto.
  - destruct (c_worker (s_conn s d)) as [x|] eqn:WK; [|destruct I]. destruct (idle (W x) s) eqn:ID; [|discriminate]. destruct (c_evs (s_conn s d)) eqn:EV; [|discriminate].
    pose proof (IDLE _ _ WK ID EV) as TM. pick I; apply c_work; auto.
  - destruct (s_cur s u) as [|a rest] eqn:CU; [destruct I|]. clear S.
    assert (IA : In a (s_cur s u)) by (rewrite CU; left; reflexivity). assert (IA' : In a (s_cur s u ++ s_q s u)) by (apply in_or_app; auto).
    pose proof (g_home s g u a IA') as HM. pose proof (g_lt s g u a) as LT.
    destruct a as [id|d|d|d|d|d|d|d r|d b|fa id| |d|d|d|d|d|d|d r]; cbn [act_accs] in I; try (cbn [In] in I; contradiction); unfold home in HM; cbn [kind_of] in HM; specialize (LT d IA' eq_refl).
    + pick I. subst u. apply c_dw.
    + pick I; subst u; [apply c_dw|]. apply c_set. apply (in_cnt isS _ (ASetup d)); [|reflexivity]. apply seen_d; auto.
    + destruct (HM d eq_refl) as (x & WK & ->). pose proof (b_feed _ _ (n_B _ _ _ _ H eq_refl d LT)) as BF. specialize (BF (in_cnt isF _ _ (seen_w s d _ x WK IA eq_refl eq_refl) eq_refl)).
      assert (TM : c_term (s_conn s d) = false) by (cbn [see v_k] in BF; destruct (c_term (s_conn s d)); [discriminate BF|reflexivity]). pick I; apply c_work; auto.
    + destruct (HM d eq_refl) as (x & WK & ->). destruct (c_term (s_conn s d)) eqn:TM; [destruct I|]. pick I; apply c_work; auto.
    + pick I. subst u. apply (c_cb s d b). apply (in_cnt _ _ (ACb d b)); [|cbn; destruct b; reflexivity]. apply seen_u; auto.
    + destruct (HM d eq_refl) as (x & WK & ->).
      assert (P : 0 < cnt isP (v_w (see s d))).
      { pose proof (g_shape s g (W x)) as SH. rewrite CU in SH. assert (R : rest = [APostDel d]) by (inversion SH; subst; [discriminate|reflexivity]). subst rest.
        apply (in_cnt isP _ (APostDel d)); [|reflexivity]. apply (seen_w s d _ x WK); [rewrite CU; right; left; reflexivity|reflexivity|reflexivity]. }
      pick I; apply c_work; auto.
    + subst u. pose proof (b_work _ _ (n_B _ _ _ _ H eq_refl d LT)) as BW. assert (K : 0 < cnt isTD (v_d (see s d))) by (apply (in_cnt _ _ (ATearD d)); [apply seen_d; auto|reflexivity]).
      specialize (BW ltac:(lia)). assert (WK : c_worker (s_conn s d) = None) by (cbn [see v_k] in BW; destruct (c_worker (s_conn s d)); [discriminate BW|reflexivity]). pick I; apply c_td; try exact WK; discriminate.
    + subst u. pose proof (n_A _ _ _ _ H d LT) as HA. assert (K : 0 < cnt isR (v_d (see s d))) by (apply (in_cnt _ _ (ARelease d)); [apply seen_d; auto|reflexivity]).
      pose proof (a_close _ _ _ _ HA) as A1. pose proof (a_term _ _ _ _ HA) as A2. pick I; [apply c_evcon|]. apply c_rel; [|cbn [see v_k] in A2; destruct (c_term (s_conn s d)); [reflexivity|cbn [b2n] in A2; lia]].
      pose proof (b2n_le (c_term (v_k (see s d)))). lia.
    + subst u. pick I. apply c_usr. intros WK. pose proof (n_A _ _ _ _ H d LT) as HA. pose proof (a_work _ _ _ _ HA) as A1. cbn [see v_k] in A1. rewrite WK in A1. destruct (A1 eq_refl) as (_ & A2 & _).
      pose proof (a_recv _ _ _ _ HA A2) as A3. assert (K : 0 < cnt (isPG r) (v_u (see s d))) by (apply (in_cnt _ _ (APostGo d r)); [apply seen_u; auto|cbn; destruct r; reflexivity]). destruct r; lia.
Qed.

Lemma no_conflict s l c t1 t2 f w2 : Inv true false s l -> cl s c t1 f true -> cl s c t2 f w2 -> t1 = t2.
Proof.
  intros H C1 C2. pose proof (n_G _ _ _ _ H) as g.
  assert (NEW : forall i, s_nc s <= c -> c_worker (s_conn s c) = i -> i = None) by (intros i L E; destruct (g_new s g c L) as (X & _); rewrite X in E; cbn in E; congruence).
  assert (EVC : c_evc (s_conn s c) = true -> c_worker (s_conn s c) = None) by exact (g_evc s g c).
  assert (SET : c_worker (s_conn s c) <> None -> c_recv (s_conn s c) = RHand -> c_term (s_conn s c) = false -> cnt isS (v_d (see s c)) = 0 /\ cnt (isC true) (v_u (see s c)) = 0 /\ cnt (isC false) (v_u (see s c)) = 0).
  { intros WK RC TM. assert (L : c < s_nc s) by (destruct (le_lt_dec (s_nc s) c) as [L|L]; [destruct (WK (NEW _ L eq_refl))|exact L]). pose proof (n_A _ _ _ _ H c L) as HA.
    pose proof (a_one _ _ _ _ HA) as A1. unfold used in A1. pose proof (a_off _ _ _ _ HA) as A2. pose proof (a_term _ _ _ _ HA) as A3. cbn [see v_k v_lv v_w v_d v_u] in A1, A2, A3. rewrite RC in A1. rewrite TM in A3. cbn [rH b2n] in A1, A3. cbn [see v_k v_lv v_w v_d v_u]. lia. }
  inversion C1; subst; inversion C2; subst; try reflexivity; try contradiction; try congruence;
    repeat match goal with
    | L : s_nc s <= c, E : c_worker (s_conn s c) = Some _ |- _ => specialize (NEW _ L E); discriminate
    | L : s_nc s <= c, E : c_worker (s_conn s c) <> None |- _ => destruct (E (NEW _ L eq_refl))
    | E : c_evc (s_conn s c) = true |- _ => specialize (EVC E); congruence
    | E : c_term _ = false \/ 0 < _ |- _ => destruct E; [congruence|lia]
    | E : _ /\ _ |- _ => destruct E
    end.
  all: try (destruct (SET ltac:(congruence) ltac:(assumption) ltac:(assumption)) as (S1 & S2 & S3); try match goal with K : 0 < cnt (isC ?b) _ |- _ => destruct b end; lia).
  all: idtac.
Qed.

(** In full: no run has a state with a race.  Missing: runs in which a
    connection is found established while its termination waits in the
    dispatcher's queue; and get_peer_cert() called by the user outside of
    callbacks. *)
Theorem C124_race_partial : forall burst nw tls aid us es s o, run burst nw es (st0 tls aid us) = Some (s, o) ->
  along burst nw (fun e s => match e with EReady d _ _ true => ~ In (ADExch d) (s_q s D) | _ => True end) es (st0 tls aid us) -> ~ race burst nw s.
Proof.
  intros burst nw tls aid us es s o X CM (t1 & t2 & c & f & w1 & w2 & NE & WR & (e1 & s1 & o1 & S1 & I1) & (e2 & s2 & o2 & S2 & I2)).
  destruct (run_cases _ _ _ _ _ _ X) as [N|(es' & -> & N)].
  - pose proof (start_inv burst nw tls aid us true false es s o X N (fun _ => CM) ltac:(discriminate)) as H.
    pose proof (classify _ _ _ _ _ _ _ _ _ _ _ H S1 I1) as C1. pose proof (classify _ _ _ _ _ _ _ _ _ _ _ H S2 I2) as C2.
    destruct w1; [exact (NE (no_conflict _ _ _ _ _ _ _ H C1 C2))|]. destruct w2; [|discriminate]. exact (NE (eq_sym (no_conflict _ _ _ _ _ _ _ H C2 C1))).
  - destruct (run_snoc_stop _ _ _ _ _ _ X) as (s3 & o3 & X1 & E & _). unfold step in S1. rewrite E in S1. cbn [w_stop s_stop] in S1. discriminate.
Qed.
Print Assumptions C124_race_partial.

(** The dispatcher, a worker and the user's thread are all about to work on one
    connection, which is being set up and asked to end. *)
Definition busy : list ev :=
  EAccept 5 1 true :: batch (W 1) (task (W 1) yes ++ [EAct (W 1) yes]) ++ batch D (task D yes)
  ++ [ETerm 0; EBatch D; ENext D; EBatch U; ENext U; EAct U yes; EBad 0; EBatch (W 1); ENext (W 1); EAct (W 1) yes].
Example C124_nonvacuous : along 128 2 calm_ev busy (st0 false 0%N []) /\
  exists s o, run 128 2 busy (st0 false 0%N []) = Some (s, o) /\
  may 128 2 s (D, 0, Worker, false) /\ may 128 2 s (U, 0, Worker, false) /\ may 128 2 s (W 1, 0, Worker, false) /\ may 128 2 s (W 1, 0, EvSocket, true).
Proof.
  split; [apply (alongb_ok calmb _ _ _ calmb_ok); vm_compute; reflexivity|].
  destruct (run 128 2 busy (st0 false 0%N [])) as [(s & o)|] eqn:E.
  2: { assert (Z : (if run 128 2 busy (st0 false 0%N []) then true else false) = true) by (vm_compute; reflexivity). rewrite E in Z. discriminate Z. }
  exists s, o. split; [reflexivity|].
  assert (K : option_map (fun x => (s_stop (fst x), s_cur (fst x) D, s_cur (fst x) U, s_cur (fst x) (W 1), c_worker (s_conn (fst x) 0))) (run 128 2 busy (st0 false 0%N [])) = Some (false, [ADispTerm 0], [APostGo 0 true], [ATearW 0; APostDel 0], Some 1)) by (vm_compute; reflexivity).
  rewrite E in K. cbn [option_map fst] in K. injection K as K1 K2 K3 K4 K5.
  assert (M : forall t a rest, s_cur s t = a :: rest -> (exists s' o', act_step t a yes (go t rest s) = Some (s', o')) -> forall x, In x (act_accs t a s) -> may 128 2 s x).
  { intros t a rest C (s' & o' & S) x I. exists (EAct t yes), s', o'. split; [unfold step; rewrite K1, C; exact S|cbn [accs]; rewrite C; exact I]. }
  split; [apply (M _ _ _ K2); [eexists _, _; reflexivity|cbn; auto]|].
  split; [apply (M _ _ _ K3); [cbn [act_step yes go w_cur s_conn]; rewrite K5; eexists _, _; reflexivity|cbn; auto]|].
  split; apply (M _ _ _ K4); try (eexists _, _; reflexivity); cbn; auto.
Qed.

(** A node that dials a node that waits (PeerPair.v): they get connected. *)
From Coq Require Import Arith NArith ZArith List Bool Lia.
From Verif Require Import PeerModel PeerPair.
Import ListNotations.

(** ** The claim *)

(** Node false registers the other, sets its address and asks to be connected
    to it; node true has registered node false, and may have set its address
    (sb).  All that has been done. *)
Definition g0 : env := mkEnv (Some 0%N) true None (fun _ => true).
Definition prepare (z : Z) (sb : bool) : list pev :=
  [PApi false (TAdd 1 (hash2 (addr_of true))); PDisp false g0; PApi false (TSetAddr 2 (hash2 (addr_of true)) (addr_of true)); PDisp false g0;
   PApi false (TConn 3 (hash2 (addr_of true)) z); PDisp false g0; PApi true (TAdd 1 (hash2 (addr_of false))); PDisp true g0]
  ++ if sb then [PApi true (TSetAddr 2 (hash2 (addr_of false)) (addr_of false)); PDisp true g0] else [].

(** What may happen then, in any order: the retry timer (network.h 1208-1214)
    dials; everything the pool, the network, the ping timers, and the user's
    loop do; the user asks and sends.  Not: a refused connection, a failing
    random source, a nonce not below the passive one (C59). *)
Definition allowed (e : pev) : Prop :=
  match e with
  | PApi _ t => match t with THas _ | TGetConn _ | TSend _ _ _ => True | _ => False end
  | PSetup _ _ g => exists x, g_rnd g = Some x /\ (x mod 2 ^ 16 + 1 < passive_nonce)%N
  | PRetry _ _ g => g_ok g = true /\ g_cert g = None
  | PRefuse _ => False
  | _ => True
  end.
Definition is_retry (e : pev) : bool := match e with PRetry _ _ _ => true | _ => false end.
(** Events by which something new begins: not what follows from it. *)
Definition starts (e : pev) : bool := match e with PApi _ _ | PRetry _ _ _ | PBeat _ _ => true | _ => false end.

(** What must not happen. *)
Definition bad (x : obs) : bool :=
  match x with OKill _ | OUb _ | OFatal | OAssert | OCb _ _ false | OUnknown _ _ => true | _ => false end.
(** How often the callback of node n said that it is connected. *)
Definition ups (n : bool) (o : list (bool * obs)) : nat :=
  length (filter (fun x => eqb (fst x) n && match snd x with OCb _ _ true => true | _ => false end) o).
Definition connected (n : bool) (y : sys) : Prop := p_state (s_peer (node n y) 0) = Connected /\ p_conn (s_peer (node n y) 0) = Some 1.

(** ** Nodes *)
Definition harm (t : dtask) : Prop := match t with THas _ | TGetConn _ | TSend _ _ _ => True | _ => False end.
Definition quiet (x : obs) : Prop := match x with OExec _ | OErr _ _ | OHas _ _ | OConn _ _ | OThrow _ _ | OQueue _ _ | OMove _ _ => True | _ => False end.

Record nd (i : pid) (P : peer) (k : option conn) (s : st) : Prop := {
  d_h : s_halt s = false;
  d_np : s_np s = 1;
  d_kn : s_known s = [(i, 0)];
  d_p : s_peer s 0 = P;
  d_d : forall p, p <> 0 -> p_live (s_peer s p) = false;
  d_nc : s_nc s = match k with Some _ => 2 | None => 1 end;
  d_k : forall x, k = Some x -> s_conn s 1 = x;
  d_0 : k_term (s_conn s 0) = true /\ k_torn (s_conn s 0) = true }.

Definition PA (n : N) (z : Z) (out : option nat) : peer := mkPeer true 2%N 2%N n (Some 0) z z true true None None out false None None None Disconnected.
Definition KA (set : bool) : conn := mkConn Active 2%N None false (Some 0) false set false.
Definition PB (ab : N) : peer := mkPeer true 1%N ab passive_nonce (Some 0) 0%Z 0%Z false false None None None false None None None Disconnected.
Definition KB (set : bool) : conn := mkConn Passive 100%N None true None false set false.
(** A connected peer, its connection. *)
Record up (P : peer) : Prop := {
  u_live : p_live P = true; u_st : p_state P = Connected; u_conn : p_conn P = Some 1; u_ch : p_chosen P = Some 1; u_ton : p_ton P = false;
  u_pt : exists b, p_ptok P = Some b; u_pm : exists b, p_pmok P = Some b }.
Record upk (k : conn) : Prop := { v_p : k_peer k = Some 0; v_t : k_term k = false; v_s : k_set k = true; v_x : k_torn k = false }.

Lemma up_hb P g t m : up P -> up (p_sethb g (Some t) (Some m) P).
Proof. intros [? ? ? ? ? ? ?]. constructor; cbn; eauto. Qed.

Ltac ndd H := let f := fresh in destruct H as [? ? ? ? ? ? ? (? & ?)].

Lemma nd_post i P k s t s' o : nd i P k s -> step hash2 (EPost t) s = Some (s', o) -> nd i P k s' /\ s_q s' = s_q s ++ [t] /\ s_uq s' = s_uq s /\ s_pend s' = s_pend s /\ o = [].
Proof.
  intros D E. pose proof D as D0. destruct D as [H1 H2 H3 H4 H5 H6 H7 (H8 & H9)]. unfold step in E. rewrite H1 in E. destruct (postable s t); [|discriminate]. injection E as <- <-.
  split; [constructor; cbn; auto|auto].
Qed.
Lemma nd_harm i P k s t q g s' o c : nd i P k s -> p_conn P = Some c -> s_q s = t :: q -> harm t -> step hash2 (EDisp g) s = Some (s', o) ->
  nd i P k s' /\ s_q s' = q /\ s_uq s' = s_uq s /\ s_pend s' = s_pend s /\ Forall quiet o.
Proof.
  intros D PC Q HT E. pose proof D as D0. destruct D as [H1 H2 H3 H4 H5 H6 H7 (H8 & H9)]. unfold step in E. rewrite H1, Q in E. destruct t; try destruct HT; cbn in E; try rewrite H3 in E.
  - injection E as <- <-. split; [constructor; cbn; auto|]. cbn. repeat split; auto. repeat constructor.
  - destruct (find_by i0 [(i, 0)]); injection E as <- <-; (split; [constructor; cbn; auto|]; cbn; repeat split; auto; repeat constructor).
  - destruct (find_by i0 [(i, 0)]) as [p|] eqn:F; [|injection E as <- <-; split; [constructor; cbn; auto|]; cbn; repeat split; auto; repeat constructor].
    assert (p = 0) as -> by (unfold find_by in F; cbn in F; destruct (i =? i0)%N; [injection F as <-; reflexivity|discriminate F]). cbn [s_peer] in E. rewrite H4, PC in E.
    injection E as <- <-. split; [constructor; cbn; auto|]. cbn. repeat split; auto. destruct (g_write g c); repeat constructor.
Qed.
Lemma nd_hbping i P kk s n q g s' o : nd i P (Some kk) s -> k_term kk = false -> s_q s = TPing (Some 1) 0%N n :: q -> step hash2 (EDisp g) s = Some (s', o) ->
  nd i P (Some kk) s' /\ s_q s' = q /\ s_uq s' = s_uq s /\ s_pend s' = s_pend s /\ o = [OExec (TPing (Some 1) 0%N n); OPong 1 None].
Proof.
  intros D KT Q E. destruct D as [H1 H2 H3 H4 H5 H6 H7 (H8 & H9)]. unfold step in E. rewrite H1, Q in E. cbn [task ping_task w_q s_conn] in E. rewrite (H7 _ eq_refl), KT in E. cbn in E. injection E as <- <-.
  split; [constructor; cbn; auto|auto].
Qed.
Lemma nd_hbpong i P kk s n q g s' o : nd i P (Some kk) s -> up P -> upk kk -> s_q s = TPong 1 0%N n :: q -> step hash2 (EDisp g) s = Some (s', o) ->
  exists P', nd i P' (Some kk) s' /\ up P' /\ s_q s' = q /\ s_uq s' = s_uq s /\ s_pend s' = s_pend s /\
    (p_ptok P = Some true /\ p_ptok P' = Some false /\ o = [OExec (TPong 1 0%N n); OPing 1 None] \/ p_ptok P' = Some false /\ p_ptok P = Some false /\ o = [OExec (TPong 1 0%N n)]).
Proof.
  intros D U [V1 V2 V3 V4] Q E. pose proof U as [U1 U2 U3 U4 U5 (pt & U6) (pm & U7)]. destruct D as [H1 H2 H3 H4 H5 H6 H7 (H8 & H9)]. unfold step in E. rewrite H1, Q in E. unfold task, pong_task in E. cbn in E. rewrite (H7 _ eq_refl) in E. rewrite V2 in E. rewrite V1 in E. rewrite H4, U1 in E. cbn [negb] in E.
  cbn in E. try rewrite H4 in E. rewrite U6 in E. destruct pt.
  - unfold send_ping in E. cbn in E. rewrite ?H4, ?U4 in E. injection E as <- <-. eexists. split; [constructor; cbn; auto|].
    + intros p N. unfold upd. destruct (p =? 0) eqn:Z; [apply Nat.eqb_eq in Z; contradiction|auto].
    + split; [|cbn; repeat split; auto]. constructor; cbn; rewrite ?H4; eauto.
  - injection E as <- <-. eexists. split; [constructor; cbn; auto|].
    + intros p N. unfold upd. destruct (p =? 0) eqn:Z; [apply Nat.eqb_eq in Z; contradiction|auto].
    + split; [|cbn; rewrite ?H4; repeat split; auto]. constructor; cbn; rewrite ?H4; eauto.
Qed.
Ltac dd := let p := fresh in let N := fresh in let Z := fresh in intros p N; unfold upd; destruct (p =? 0) eqn:Z; [apply Nat.eqb_eq in Z; contradiction|auto].
Ltac nds H4 H7 := constructor; cbn; auto; try (rewrite H4; reflexivity); try dd; try (intros ? [= <-]; cbn; rewrite ?(H7 _ eq_refl); reflexivity).
Lemma nd_beat i P k s p s' o : nd i P k s -> step hash2 (EPingT p) s = Some (s', o) -> p = 0 /\ p_ping P = true.
Proof.
  intros [H1 H2 H3 H4 H5 H6 H7 (H8 & H9)] E. unfold step in E. rewrite H1 in E. destruct (p_live (s_peer s p) && p_ping (s_peer s p)) eqn:L; [|discriminate]. apply andb_true_iff in L as (L1 & L2).
  destruct (Nat.eq_dec p 0) as [->|N]; [rewrite H4 in L2; auto|rewrite (H5 p N) in L1; discriminate].
Qed.
Lemma nd_beat_up i P k s p s' o : nd i P k s -> up P -> step hash2 (EPingT p) s = Some (s', o) ->
  exists P', nd i P' k s' /\ up P' /\ s_q s' = s_q s /\ s_uq s' = s_uq s /\ s_pend s' = s_pend s /\ (o = [OPing 1 None] \/ o = []).
Proof.
  intros D U E. destruct (nd_beat _ _ _ _ _ _ _ D E) as (-> & PP). pose proof U as [U1 U2 U3 U4 U5 (pt & U6) (pm & U7)]. destruct D as [H1 H2 H3 H4 H5 H6 H7 (H8 & H9)].
  unfold step in E. rewrite H1 in E. cbn in E. rewrite ?H4, U1, PP, U7 in E. cbn in E. destruct pm.
  - unfold send_ping in E. cbn in E. rewrite ?H4, ?U4 in E. injection E as <- <-. eexists. split; [constructor; cbn; auto; dd|]. split; [constructor; cbn; rewrite ?H4; eauto|auto].
  - injection E as <- <-. eexists. split; [constructor; cbn; auto; dd|]. split; [constructor; cbn; rewrite ?H4; eauto|auto 6].
Qed.
Lemma nd_user i P k s p c u s' o : nd i P k s -> s_uq s = UCb p c true :: u -> step hash2 EUser s = Some (s', o) ->
  nd i P k s' /\ s_q s' = s_q s /\ s_uq s' = u /\ s_pend s' = s_pend s /\ o = [OCb p c true].
Proof.
  intros [H1 H2 H3 H4 H5 H6 H7 (H8 & H9)] Q E. unfold step in E. rewrite H1, Q in E. injection E as <- <-. split; [constructor; cbn; auto|auto].
Qed.
Lemma nd_set i P k s c g s' o : nd i P k s -> step hash2 (ESetup c g) s = Some (s', o) -> c = 1 /\ exists kk, k = Some kk /\ k_set kk = false.
Proof.
  intros [H1 H2 H3 H4 H5 H6 H7 (H8 & H9)] E. unfold step in E. rewrite H1 in E. destruct ((c <? s_nc s) && negb (k_set (s_conn s c)) && negb (k_torn (s_conn s c))) eqn:L; [|discriminate].
  apply andb_true_iff in L as (L & L3). apply andb_true_iff in L as (L1 & L2). apply Nat.ltb_lt in L1. apply negb_true_iff in L2, L3. destruct c as [|[|c]]; [congruence| |destruct k; rewrite H6 in L1; lia].
  split; [reflexivity|]. destruct k as [kk|]; [|rewrite H6 in L1; lia]. exists kk. split; [reflexivity|]. rewrite <- (H7 _ eq_refl). exact L2.
Qed.
Lemma nd_tear i P k s c s' o : nd i P k s -> (forall kk, k = Some kk -> k_term kk = false) -> step hash2 (ETear c) s = Some (s', o) -> False.
Proof.
  intros [H1 H2 H3 H4 H5 H6 H7 (H8 & H9)] K E. unfold step in E. rewrite H1 in E. destruct ((c <? s_nc s) && k_term (s_conn s c) && negb (k_torn (s_conn s c))) eqn:L; [|discriminate].
  apply andb_true_iff in L as (L & L3). apply andb_true_iff in L as (L1 & L2). apply Nat.ltb_lt in L1. apply negb_true_iff in L3. destruct c as [|[|c]]; [congruence| |destruct k; rewrite H6 in L1; lia].
  destruct k as [kk|]; [|rewrite H6 in L1; lia]. rewrite (H7 _ eq_refl), (K _ eq_refl) in L2. discriminate.
Qed.
Lemma nd_setA z s c g x s' o : nd 2%N (PA 0%N z (Some 1)) (Some (KA false)) s -> g_rnd g = Some x -> step hash2 (ESetup c g) s = Some (s', o) ->
  nd 2%N (PA (x mod 2 ^ 16 + 1) z (Some 1)) (Some (KA true)) s' /\ s_q s' = s_q s /\ s_uq s' = s_uq s /\ s_pend s' = s_pend s /\ o = [OPing 1 (Some (x mod 2 ^ 16 + 1)%N)].
Proof.
  intros D G E. destruct (nd_set _ _ _ _ _ _ _ _ D E) as (-> & _). destruct D as [H1 H2 H3 H4 H5 H6 H7 (H8 & H9)]. unfold step in E. rewrite H1, H6, (H7 _ eq_refl) in E. cbn in E.
  unfold setup in E. cbn in E. rewrite (H7 _ eq_refl) in E. cbn in E. rewrite H3 in E. cbn in E. unfold get_nonce in E. cbn in E. rewrite H4 in E. cbn in E. rewrite G in E. cbn [say] in E. injection E as <- <-.
  split; [nds H4 H7|auto].
Qed.
Lemma nd_setB ab s c g s' o : nd 1%N (PB ab) (Some (KB false)) s -> s_pend s = [] -> step hash2 (ESetup c g) s = Some (s', o) ->
  nd 1%N (PB ab) (Some (KB true)) s' /\ s_q s' = s_q s /\ s_uq s' = s_uq s /\ o = [].
Proof.
  intros D PE E. destruct (nd_set _ _ _ _ _ _ _ _ D E) as (-> & _). destruct D as [H1 H2 H3 H4 H5 H6 H7 (H8 & H9)]. unfold step in E. rewrite H1, H6, (H7 _ eq_refl) in E. cbn in E.
  unfold setup in E. cbn in E. rewrite (H7 _ eq_refl) in E. cbn in E. unfold replace_pending_conn in E. cbn in E. rewrite PE in E. cbn in E. injection E as <- <-.
  split; [nds H4 H7|auto].
Qed.
Lemma nd_retry z s p g s' o : nd 2%N (PA 0%N z None) None s -> s_pend s = [] -> g_ok g = true -> g_cert g = None -> step hash2 (ERetry p g) s = Some (s', o) ->
  nd 2%N (PA 0%N z (Some 1)) (Some (KA false)) s' /\ s_q s' = s_q s /\ s_uq s' = s_uq s /\ s_pend s' = [] /\ o = [ODial 2%N 1 2%N].
Proof.
  intros [H1 H2 H3 H4 H5 H6 H7 (H8 & H9)] PE G1 G2 E. unfold step in E. rewrite H1 in E. destruct (Nat.eq_dec p 0) as [->|N]; [|rewrite (H5 p N) in E; discriminate].
  repeat (progress (cbn in E; rewrite ?H4 in E)). unfold start_active_conn in E. rewrite G1 in E. unfold check, upd in E. repeat (progress (cbn in E; rewrite ?H1, ?H4, ?H6, ?G2, ?PE in E)). injection E as <- <-.
  split; [nds H4 H7|auto].
Qed.
Lemma nd_accept ab s a s' o : nd 1%N (PB ab) None s -> step hash2 (EAccept a None) s = Some (s', o) -> a = 100%N ->
  nd 1%N (PB ab) (Some (KB false)) s' /\ s_q s' = s_q s /\ s_uq s' = s_uq s /\ s_pend s' = s_pend s /\ o = [] /\ s_nc s = 1.
Proof.
  intros [H1 H2 H3 H4 H5 H6 H7 (H8 & H9)] E ->. unfold step in E. rewrite H1 in E. injection E as <- <-. split; [constructor; cbn; auto; rewrite H6; cbn; auto; intros ? [= <-]; reflexivity|auto].
Qed.
Definition hello (n : N) : dtask := TPing (Some 1) 1%N n.
Definition reply : dtask := TPong 1 2%N passive_nonce.

(** One change at a time. *)
Definition same (s s' : st) : Prop := s_q s' = s_q s /\ s_uq s' = s_uq s.
Lemma nd_onp i P k s f : nd i P k s -> nd i (f P) k (onp 0 f s) /\ same s (onp 0 f s).
Proof. intros [H1 H2 H3 H4 H5 H6 H7 H8]. split; [constructor; cbn; auto; [rewrite H4; reflexivity|dd]|split; reflexivity]. Qed.
Lemma nd_onc1 i P k s f : nd i P (Some k) s -> nd i P (Some (f k)) (onc 1 f s) /\ same s (onc 1 f s).
Proof. intros [H1 H2 H3 H4 H5 H6 H7 H8]. split; [constructor; cbn; auto; intros x [= <-]; rewrite (H7 _ eq_refl); reflexivity|split; reflexivity]. Qed.
Lemma nd_onc0 i P k s v : nd i P k s -> nd i P k (onc 0 (k_setpeer v) s) /\ same s (onc 0 (k_setpeer v) s).
Proof. intros [H1 H2 H3 H4 H5 H6 H7 (H8 & H9)]. split; [constructor; cbn; auto|split; reflexivity]. Qed.
Lemma nd_pend i P k s l : nd i P k s -> nd i P k (w_pend l s) /\ same s (w_pend l s).
Proof. intros [H1 H2 H3 H4 H5 H6 H7 (H8 & H9)]. split; [constructor; cbn; auto|split; reflexivity]. Qed.
Lemma nd_upost i P k s t : nd i P k s -> nd i P k (upost t s) /\ s_q (upost t s) = s_q s /\ s_uq (upost t s) = s_uq s ++ [t].
Proof. intros [H1 H2 H3 H4 H5 H6 H7 (H8 & H9)]. split; [constructor; cbn; auto|split; reflexivity]. Qed.
Lemma nd_wq i P k s l : nd i P k s -> nd i P k (w_q l s) /\ s_q (w_q l s) = l /\ s_uq (w_q l s) = s_uq s.
Proof. intros [H1 H2 H3 H4 H5 H6 H7 (H8 & H9)]. split; [constructor; cbn; auto|split; reflexivity]. Qed.
Lemma seq_ok s o f s' o' : s_halt s = false -> f s = (s', o') -> seq (s, o) f = (s', o ++ o').
Proof. intros H F. unfold seq. rewrite H, F. reflexivity. Qed.
Lemma same_tr a b c : same a b -> same b c -> same a c.
Proof. intros (? & ?) (? & ?). split; congruence. Qed.

Lemma nd_ping i P k s : nd i P k s -> p_chosen P = Some 1 -> exists s', send_ping 0 s = (s', [OPing 1 None]) /\ nd i (p_sethb (p_ping P) (Some false) (Some false) P) k s' /\ same s s'.
Proof. intros D C. unfold send_ping. rewrite (d_p _ _ _ _ D), C. eexists. split; [reflexivity|]. exact (nd_onp _ _ _ _ (fun x => p_sethb (p_ping x) (Some false) (Some false) x) D). Qed.

Lemma nd_fin i P k s : nd i P (Some k) s -> p_live P = true -> p_state P = Disconnected -> p_conn P = Some 0 -> p_chosen P = Some 1 -> p_out P = None \/ p_out P = Some 1 ->
  k_term k = false -> k_set k = true -> k_torn k = false ->
  exists s' P' k', finish_handshake 0 s = (s', [OPing 1 None; OMove 0 1]) /\ nd i P' (Some k') s' /\ up P' /\ upk k' /\ s_q s' = s_q s /\ s_uq s' = s_uq s ++ [UCb 0 1 true] /\ p_ptok P' = Some false.
Proof.
  intros D PL PS PC PH PO KT KS KX. unfold finish_handshake. rewrite (d_p _ _ _ _ D), PS. unfold check at 1.
  destruct (nd_onp _ _ _ _ (fun x => p_sethb false (p_ptok x) (p_pmok x) x) D) as (D1 & S1). set (s1 := onp 0 _ s) in *. cbn beta in D1.
  assert (exists k1, nd i (p_sethb false (p_ptok P) (p_pmok P) P) (Some k1) (clear_peer_of (p_out (s_peer s1 0)) s1) /\ same s1 (clear_peer_of (p_out (s_peer s1 0)) s1) /\ k_term k1 = false /\ k_set k1 = true /\ k_torn k1 = false) as (k1 & D2 & S2 & KT1 & KS1 & KX1).
  { rewrite (d_p _ _ _ _ D1). cbn [p_out p_sethb]. destruct PO as [->| ->]; cbn [clear_peer_of].
    - exists k. unfold same. auto 7.
    - destruct (nd_onc1 _ _ _ _ (k_setpeer None) D1) as (X & Y). eexists. split; [exact X|]. auto. }
  set (s2 := clear_peer_of _ s1) in *.
  destruct (nd_onp _ _ _ _ (fun x => p_setstate Connected (p_setlinks (p_chosen x) None None x)) D2) as (D3 & S3). set (s3 := onp 0 _ s2) in *.
  destruct (nd_onp _ _ _ _ (fun x => p_sethb true (p_ptok x) (p_pmok x) x) D3) as (D4 & S4). change (onp 0 _ s3) with (reset_ping_timer 0 s3) in D4, S4. set (s4 := reset_ping_timer 0 s3) in *.
  destruct (nd_ping _ _ _ _ D4) as (s5 & E5 & D5 & S5); [exact PH|].
  destruct (nd_onp _ _ _ _ (fun x => p_settry (p_ntry x) (p_ntry x) (p_settimer (p_timer x) false x)) D5) as (D6 & S6). set (s6 := onp 0 _ s5) in *.
  destruct (nd_onc0 _ _ _ _ None D6) as (D7 & S7). set (s7 := onc 0 _ s6) in *.
  destruct (nd_onp _ _ _ _ (p_setconn (Some 1)) D7) as (D8 & S8). set (s8 := onp 0 _ s7) in *.
  destruct (nd_onc1 _ _ _ _ (k_setpeer (Some 0)) D8) as (D9 & S9). set (s9 := onc 1 _ s8) in *.
  destruct (nd_upost _ _ _ _ (UCb 0 1 true) D9) as (DA & QA & UA). set (sa := upost _ s9) in *.
  destruct (nd_pend _ _ _ _ (drop_by (k_addr (s_conn sa 1)) (s_pend sa)) DA) as (DB & SB). set (sb := w_pend _ sa) in *.
  pose proof (same_tr _ _ _ S1 (same_tr _ _ _ S2 (same_tr _ _ _ S3 (same_tr _ _ _ S4 (same_tr _ _ _ S5 (same_tr _ _ _ S6 (same_tr _ _ _ S7 (same_tr _ _ _ S8 S9)))))))) as (QQ & UU). destruct SB as (QB & UB).
  exists sb. eexists. eexists. split.
  - apply (seq_ok s [] _ sb [OPing 1 None; OMove 0 1] (d_h _ _ _ _ D)). fold s1. fold s2. fold s3. fold s4. rewrite E5.
    apply (seq_ok s5 [OPing 1 None] _ sb [OMove 0 1] (d_h _ _ _ _ D5)). fold s6. rewrite (d_p _ _ _ _ D6). cbn [p_chosen p_settry p_settimer p_sethb p_setstate p_setlinks p_conn]. rewrite PH, PC.
    destruct (d_0 _ _ _ _ D6) as (K0 & _). rewrite K0. unfold check. rewrite (seq_ok s6 [] _ s7 [OMove 0 1] (d_h _ _ _ _ D6) eq_refl). cbn [app].
    rewrite (seq_ok s7 [OMove 0 1] _ sb [] (d_h _ _ _ _ D7) eq_refl). reflexivity.
  - split; [exact DB|]. split; [constructor; cbn; eauto|]. split; [constructor; cbn; auto|]. split; [congruence|]. split; [congruence|]. reflexivity.
Qed.

Lemma nd_hello ab s n q g s' o : nd 1%N (PB ab) (Some (KB true)) s -> (0 < n < passive_nonce)%N -> s_q s = hello n :: q -> step hash2 (EDisp g) s = Some (s', o) ->
  exists P' k', nd 1%N P' (Some k') s' /\ up P' /\ upk k' /\ s_q s' = q /\ s_uq s' = s_uq s ++ [UCb 0 1 true] /\ p_ptok P' = Some false /\
    o = [OExec (hello n); OPong 1 (Some passive_nonce); OPing 1 None; OMove 0 1].
Proof.
  intros D (NL & NH) Q E. unfold step in E. rewrite (d_h _ _ _ _ D), Q in E. unfold hello in E. cbn [task] in E.
  destruct (nd_wq _ _ _ _ q D) as (D1 & Q1 & U1). set (s1 := w_q q s) in *. unfold ping_task in E. rewrite (d_k _ _ _ _ D1 _ eq_refl) in E. cbn [k_term KB k_mode N.eqb] in E.
  rewrite (d_kn _ _ _ _ D1) in E. change (find_by (ident hash2 (KB true) 1%N) [(1%N, 0)]) with (Some 0) in E. cbn iota beta in E.
  assert (NZ : (n =? 0)%N = false) by (apply N.eqb_neq; lia). rewrite NZ, (d_p _ _ _ _ D1) in E. unfold get_nonce in E. rewrite (d_p _ _ _ _ D1) in E. cbn [p_state PB p_nonce] in E. change (passive_nonce =? 0)%N with false in E. cbn iota beta in E.
  destruct (nd_onp _ _ _ _ (fun x => p_setlinks (p_chosen x) (Some 1) (p_out x) x) D1) as (D2 & S2). set (s2 := onp 0 _ s1) in *.
  destruct (nd_onp _ _ _ _ (fun x => p_setlinks (Some 1) (p_in x) (p_out x) x) D2) as (D3 & S3). set (s3 := onp 0 _ s2) in *.
  destruct (nd_fin _ _ _ _ D3 eq_refl eq_refl eq_refl eq_refl (or_introl eq_refl) eq_refl eq_refl eq_refl) as (s4 & P4 & k4 & F & D4 & UP & UK & Q4 & U4 & PT).
  assert (LT : (n <? passive_nonce)%N = true) by (apply N.ltb_lt; exact NH).
  unfold say at 1 in E. rewrite (seq_ok s1 _ _ s4 [OPing 1 None; OMove 0 1] (d_h _ _ _ _ D1)) in E.
  - injection E as <- <-. exists P4, k4. destruct S2 as (S2q & S2u), S3 as (S3q & S3u). split; [exact D4|]. split; [exact UP|]. split; [exact UK|]. split; [congruence|]. split; [congruence|]. split; [exact PT|reflexivity].
  - rewrite (d_p _ _ _ _ D1). cbn [p_in PB]. unfold say at 1. apply (seq_ok s1 [] _ s4 [OPing 1 None; OMove 0 1] (d_h _ _ _ _ D1)). fold s2. rewrite LT. cbn [orb]. fold s3. exact F.
Qed.
Lemma nd_reply z s n q g s' o : nd 2%N (PA n z (Some 1)) (Some (KA true)) s -> (0 < n < passive_nonce)%N -> s_q s = reply :: q -> step hash2 (EDisp g) s = Some (s', o) ->
  exists P' k', nd 2%N P' (Some k') s' /\ up P' /\ upk k' /\ s_q s' = q /\ s_uq s' = s_uq s ++ [UCb 0 1 true] /\ p_ptok P' = Some false /\
    o = [OExec reply; OPing 1 None; OMove 0 1].
Proof.
  intros D (NL & NH) Q E. unfold step in E. rewrite (d_h _ _ _ _ D), Q in E. unfold reply in E. cbn [task] in E.
  destruct (nd_wq _ _ _ _ q D) as (D1 & Q1 & U1). set (s1 := w_q q s) in *. unfold pong_task in E. rewrite (d_k _ _ _ _ D1 _ eq_refl) in E. cbn [k_term KA k_mode N.eqb k_addr] in E.
  rewrite (d_kn _ _ _ _ D1) in E. change (find_by (ident hash2 (KA true) 2%N) [(2%N, 0)]) with (Some 0) in E. cbn iota beta in E.
  assert (NZ : (n =? 0)%N = false) by (apply N.eqb_neq; lia).
  destruct (nd_onp _ _ _ _ (fun x => p_setlinks (p_chosen x) (p_in x) (Some 1) x) D1) as (D2 & S2). set (s2 := onp 0 _ s1) in *.
  destruct (nd_onp _ _ _ _ (fun x => p_setlinks (Some 1) (p_in x) (p_out x) x) D2) as (D3 & S3). set (s3 := onp 0 _ s2) in *.
  destruct (nd_onp _ _ _ _ (fun x => p_sethb true (p_ptok x) (p_pmok x) x) D3) as (D4 & S4). change (onp 0 _ s3) with (reset_ping_timer 0 s3) in D4, S4. set (s4 := reset_ping_timer 0 s3) in *.
  destruct (nd_fin _ _ _ _ D4 eq_refl eq_refl eq_refl eq_refl (or_intror eq_refl) eq_refl eq_refl eq_refl) as (s5 & P5 & k5 & F & D5 & UP & UK & Q5 & U5 & PT).
  assert (LT : (n <? passive_nonce)%N = true) by (apply N.ltb_lt; exact NH).
  rewrite (d_p _ _ _ _ D1) in E. unfold check at 1 in E. cbn [p_addr PA negb N.eqb andb Pos.eqb] in E. rewrite (seq_ok s1 _ _ s5 [OPing 1 None; OMove 0 1] (d_h _ _ _ _ D1)) in E.
  - injection E as <- <-. exists P5, k5. destruct S2 as (S2q & S2u), S3 as (S3q & S3u), S4 as (S4q & S4u). split; [exact D5|]. split; [exact UP|]. split; [exact UK|]. split; [congruence|]. split; [congruence|]. split; [exact PT|reflexivity].
  - rewrite (d_p _ _ _ _ D1). cbn [p_state p_addr PA N.eqb Pos.eqb negb p_out Nat.eqb]. unfold say at 1. apply (seq_ok s1 [] _ s5 [OPing 1 None; OMove 0 1] (d_h _ _ _ _ D1)). fold s2.
    unfold get_nonce. rewrite (d_p _ _ _ _ D2). cbn [p_nonce p_setlinks PA]. rewrite NZ, LT. fold s3. fold s4. exact F.
Qed.

(** ** The two nodes *)
Definition hbp (t : dtask) : Prop := harm t \/ t = TPing (Some 1) 0%N 0%N.
Definition calm (t : dtask) : Prop := hbp t \/ t = TPong 1 0%N 0%N.
Definition hm (m : msg) : Prop := m = MPing None \/ m = MPong None.
Definition okb (kb : option conn) (b : st) : Prop := (kb = None \/ kb = Some (KB false)) /\ s_pend b = [] \/ kb = Some (KB true).
Definition oka (n : N) (sa : bool) : Prop := sa = false /\ n = 0%N \/ sa = true /\ (0 < n < passive_nonce)%N.
Definition said (s : st) (u : nat) : Prop := s_uq s = [UCb 0 1 true] /\ u = 0 \/ s_uq s = [] /\ u = 1.
Definition end_of (kb : option conn) : option nat := match kb with None => None | Some _ => Some 1 end.

Inductive inv (z : Z) (ab : N) : sys -> nat -> nat -> Prop :=
| I0 a b : nd 2%N (PA 0%N z None) None a -> nd 1%N (PB ab) None b -> s_pend a = [] -> s_pend b = [] -> Forall harm (s_q a) -> Forall harm (s_q b) ->
    s_uq a = [] -> s_uq b = [] -> inv z ab (mkSys a b [] []) 0 0
| I1 a b n sa kb : nd 2%N (PA n z (Some 1)) (Some (KA sa)) a -> nd 1%N (PB ab) kb b -> okb kb b -> oka n sa -> Forall harm (s_q a) -> Forall harm (s_q b) ->
    s_uq a = [] -> s_uq b = [] -> inv z ab (mkSys a b [mkLink false 1 (end_of kb) (if sa then [MPing (Some n)] else []) []] []) 0 0
| I2 a b n q1 q2 : nd 2%N (PA n z (Some 1)) (Some (KA true)) a -> nd 1%N (PB ab) (Some (KB true)) b -> (0 < n < passive_nonce)%N -> Forall harm (s_q a) ->
    s_q b = q1 ++ hello n :: q2 -> Forall harm q1 -> Forall harm q2 -> s_uq a = [] -> s_uq b = [] -> inv z ab (mkSys a b [mkLink false 1 (Some 1) [] []] []) 0 0
| I3 a b n P k h u : nd 2%N (PA n z (Some 1)) (Some (KA true)) a -> nd 1%N P (Some k) b -> up P -> upk k -> (0 < n < passive_nonce)%N -> Forall harm (s_q a) -> Forall harm (s_q b) ->
    Forall (eq (MPing None)) h -> s_uq a = [] -> said b u -> inv z ab (mkSys a b [mkLink false 1 (Some 1) [] (MPong (Some passive_nonce) :: h)] []) 0 u
| I4 a b n P k q1 q2 h u : nd 2%N (PA n z (Some 1)) (Some (KA true)) a -> nd 1%N P (Some k) b -> up P -> upk k -> (0 < n < passive_nonce)%N -> s_q a = q1 ++ reply :: q2 -> Forall harm q1 -> Forall hbp q2 ->
    Forall harm (s_q b) -> Forall (eq (MPing None)) h -> s_uq a = [] -> said b u -> inv z ab (mkSys a b [mkLink false 1 (Some 1) [] h] []) 0 u
| I5 a b Pa ka Pb kb f h u v : nd 2%N Pa (Some ka) a -> nd 1%N Pb (Some kb) b -> up Pa -> upk ka -> up Pb -> upk kb -> Forall calm (s_q a) -> Forall calm (s_q b) -> Forall hm f -> Forall hm h ->
    said a u -> said b v -> inv z ab (mkSys a b [mkLink false 1 (Some 1) f h] []) u v.

(** How much is still to come, if nothing is begun. *)
Definition wm (m : msg) : nat := match m with MPing (Some _) => 14 | MPong (Some _) => 7 | MPing None => 4 | MPong None => 2 end.
Definition wtask (t : dtask) : nat := match t with TPing _ a _ => if (a =? 0)%N then 3 else 13 | TPong _ a _ => if (a =? 0)%N then 1 else 6 | _ => 1 end.
Fixpoint total (l : list nat) : nat := match l with [] => 0 | x :: l => x + total l end.
Definition wp (P : peer) : nat := match p_ptok P with Some true => 5 | _ => 0 end.
Definition wk (n : bool) (k : option conn) : nat := match k with None => 0 | Some k => if k_set k then 0 else if n then 1 else 15 end.
Definition wn (n : bool) (s : st) : nat := total (map wtask (s_q s)) + length (s_uq s) + wp (s_peer s 0) + wk n (if s_nc s =? 2 then Some (s_conn s 1) else None).
Definition wl (l : link) : nat := match l_d l with None => 2 | Some _ => 0 end + total (map wm (l_fwd l)) + total (map wm (l_bwd l)).
Definition wt (y : sys) : nat := wn false (y_a y) + wn true (y_b y) + total (map wl (y_l y)).
Lemma total_app l m : total (l ++ m) = total l + total m.
Proof. induction l; cbn; lia. Qed.
Lemma wn_nd i P k s n : nd i P k s -> wn n s = total (map wtask (s_q s)) + length (s_uq s) + wp P + wk n k.
Proof. intros D. unfold wn. rewrite (d_p _ _ _ _ D), (d_nc _ _ _ _ D). destruct k as [k|]; cbn [Nat.eqb]; [rewrite (d_k _ _ _ _ D _ eq_refl)|]; reflexivity. Qed.
Lemma w_harm t : harm t -> wtask t = 1.
Proof. destruct t; cbn; tauto. Qed.

Lemma local_inv n e y y' o : local n e y = Some (y', o) -> exists s o1, step hash2 e (node n y) = Some (s, o1) /\ y' = fold_left (fun y x => route n x y) o1 (set_node n s y) /\ o = map (pair n) o1.
Proof. unfold local. destruct (step hash2 e (node n y)) as [(s & o1)|]; [|discriminate]. intros [= <- <-]. eauto. Qed.
Lemma route_quiet n o y : Forall quiet o -> fold_left (fun y x => route n x y) o y = y.
Proof. induction 1 as [|x l X _ IH] in y |- *; [reflexivity|]. cbn. destruct x; try destruct X; cbn; apply IH. Qed.
Lemma ups_quiet n m o : Forall quiet o -> ups n (map (pair m) o) = 0 /\ existsb (fun x => bad (snd x)) (map (pair m) o) = false.
Proof.
  unfold ups. induction 1 as [|x l X _ (IH & IH')]; [auto|]. cbn. destruct x; try destruct X; cbn; rewrite ?andb_false_r; auto.
Qed.

Definition good (z : Z) (ab : N) (y : sys) (u v : nat) (e : pev) (y' : sys) (o : list (bool * obs)) : Prop :=
  inv z ab y' (u + ups false o) (v + ups true o) /\ existsb (fun x => bad (snd x)) o = false /\ (starts e = false -> wt y' < wt y).

Lemma good_mk z ab y u v e y' o u' v' : inv z ab y' u' v' -> u' = u + ups false o -> v' = v + ups true o -> existsb (fun x => bad (snd x)) o = false -> (starts e = false -> wt y' < wt y) -> good z ab y u v e y' o.
Proof. intros I -> -> B W. split; auto. Qed.

Lemma no_term a b i j P Q ka kb f h n c : nd i P (Some ka) a -> nd j Q kb b -> k_term ka = false -> (forall x, kb = Some x -> k_term x = false) -> pstep (PTerm n c) (mkSys a b [mkLink false 1 (end_of kb) f h] []) = None.
Proof.
  intros D D' KT KT'. unfold pstep, gone. destruct n; cbn.
  - destruct kb as [kb|]; cbn; [|reflexivity]. destruct (1 =? c); cbn; [rewrite (d_k _ _ _ _ D _ eq_refl), KT|]; destruct c as [|[|]]; cbn; rewrite ?(d_k _ _ _ _ D _ eq_refl), ?KT; reflexivity.
  - destruct c as [|[|]]; cbn; [reflexivity| |reflexivity]. destruct kb as [kb|]; cbn; [rewrite (d_k _ _ _ _ D' _ eq_refl), (KT' _ eq_refl)|]; reflexivity.
Qed.

Lemma disp_nil i P k s g s' o : nd i P k s -> s_q s = [] -> step hash2 (EDisp g) s = Some (s', o) -> False.
Proof. intros D Q E. unfold step in E. rewrite (d_h _ _ _ _ D), Q in E. discriminate. Qed.
Lemma user_nil i P k s s' o : nd i P k s -> s_uq s = [] -> step hash2 EUser s = Some (s', o) -> False.
Proof. intros D Q E. unfold step in E. rewrite (d_h _ _ _ _ D), Q in E. discriminate. Qed.
Lemma ben_post i P k s t s' o : nd i P k s -> step hash2 (EPost t) s = Some (s', o) -> harm t -> 
  nd i P k s' /\ s_q s' = s_q s ++ [t] /\ s_uq s' = s_uq s /\ s_pend s' = s_pend s /\ o = [] /\ (Forall harm (s_q s) -> Forall harm (s_q s')) /\ (Forall calm (s_q s) -> Forall calm (s_q s')).
Proof.
  intros D E H. destruct (nd_post _ _ _ _ _ _ _ D E) as (D' & Q & U & PE & O). split; [exact D'|]. rewrite Q. split; [reflexivity|]. split; [exact U|]. split; [exact PE|]. split; [exact O|].
  split; intros F; apply Forall_app; (split; [exact F|constructor; [|constructor]]); [exact H|left; left; exact H].
Qed.
Lemma ben_disp i P k s g s' o c : nd i P k s -> p_conn P = Some c -> Forall harm (s_q s) -> step hash2 (EDisp g) s = Some (s', o) ->
  nd i P k s' /\ Forall harm (s_q s') /\ s_uq s' = s_uq s /\ s_pend s' = s_pend s /\ Forall quiet o /\ total (map wtask (s_q s)) = S (total (map wtask (s_q s'))).
Proof.
  intros D C F E. destruct (s_q s) as [|t q] eqn:Q; [destruct (disp_nil _ _ _ _ _ _ _ D Q E)|]. inversion_clear F as [|? ? Ht Hq].
  destruct (nd_harm _ _ _ _ _ _ _ _ _ _ D C Q Ht E) as (D' & Q' & U & PE & O). rewrite Q'. cbn. rewrite (w_harm _ Ht). auto 8.
Qed.
Lemma api_harm n t y r : allowed (PApi n t) -> pstep (PApi n t) y = Some r -> harm t /\ local n (EPost t) y = Some r.
Proof. cbn. destruct t; cbn; try tauto; auto. Qed.

Ltac loc E s1 o1 := apply local_inv in E as (s1 & o1 & E & -> & ->); cbn [node y_a y_b negb w_l] in E.
Ltac wts := unfold wt, w_l, set_node; cbn [y_a y_b y_l set_node map total]; repeat match goal with D : nd ?i ?P ?k ?s |- context [wn ?n ?s] => rewrite (wn_nd i P k s n D) end.
Ltac rt := cbn [fold_left]; unfold route, w_l, set_node; cbn [fold_left route set_node w_l y_a y_b y_l y_kill map put l_by l_c l_d l_fwd l_bwd eqb negb Nat.eqb andb oeq app end_of N.eqb Pos.eqb addr_of].
Ltac qui X n m := destruct (ups_quiet false m _ X) as (?UF & ?BF); destruct (ups_quiet true m _ X) as (?UT & _).

Section Steps.
Variables (z : Z) (ab : N).

Lemma step0 a b e y' o : nd 2%N (PA 0%N z None) None a -> nd 1%N (PB ab) None b -> s_pend a = [] -> s_pend b = [] -> Forall harm (s_q a) -> Forall harm (s_q b) -> s_uq a = [] -> s_uq b = [] ->
  allowed e -> pstep e (mkSys a b [] []) = Some (y', o) -> good z ab (mkSys a b [] []) 0 0 e y' o.
Proof.
  intros DA DB PA0 PB0 QA QB UA UB AL E. destruct e as [n t|n g|n|n c g|n c|n p g|n p|l|l|l f|n c].
  - apply (api_harm _ _ _ _ AL) in E as (HT & E). loc E s1 o1. destruct n.
    + destruct (ben_post _ _ _ _ _ _ _ DB E HT) as (D & _ & U & PE & -> & F & _). eapply good_mk; [apply I0; eauto; congruence|reflexivity|reflexivity|reflexivity|discriminate].
    + destruct (ben_post _ _ _ _ _ _ _ DA E HT) as (D & _ & U & PE & -> & F & _). eapply good_mk; [apply I0; eauto; congruence|reflexivity|reflexivity|reflexivity|discriminate].
  - cbn [pstep] in E. loc E s1 o1. destruct n.
    + destruct (ben_disp _ _ _ _ _ _ _ _ DB eq_refl QB E) as (D & F & U & PE & O & W). rewrite route_quiet by exact O. qui O true true. eapply good_mk; [apply I0; eauto; congruence|lia|lia|exact BF|]. intros _. wts. rewrite U. lia.
    + destruct (ben_disp _ _ _ _ _ _ _ _ DA eq_refl QA E) as (D & F & U & PE & O & W). rewrite route_quiet by exact O. qui O true false. eapply good_mk; [apply I0; eauto; congruence|lia|lia|exact BF|]. intros _. wts. rewrite U. lia.
  - cbn [pstep] in E. loc E s1 o1. destruct n; [destruct (user_nil _ _ _ _ _ _ DB UB E)|destruct (user_nil _ _ _ _ _ _ DA UA E)].
  - cbn [pstep] in E. loc E s1 o1. destruct n; [destruct (nd_set _ _ _ _ _ _ _ _ DB E) as (_ & kk & X & _)|destruct (nd_set _ _ _ _ _ _ _ _ DA E) as (_ & kk & X & _)]; discriminate X.
  - cbn [pstep] in E. loc E s1 o1. destruct n; [destruct (nd_tear _ _ _ _ _ _ _ DB ltac:(discriminate) E)|destruct (nd_tear _ _ _ _ _ _ _ DA ltac:(discriminate) E)].
  - cbn [pstep] in E. loc E s1 o1. destruct AL as (G1 & G2). destruct n.
    + cbn [node y_b] in E. unfold step in E. rewrite (d_h _ _ _ _ DB) in E. destruct (Nat.eq_dec p 0) as [->|N]; [rewrite (d_p _ _ _ _ DB) in E; discriminate E|rewrite (d_d _ _ _ _ DB p N) in E; discriminate E].
    + destruct (nd_retry _ _ _ _ _ _ DA PA0 G1 G2 E) as (D & Q & U & PE & ->). cbn. eapply good_mk; [|reflexivity|reflexivity|reflexivity|discriminate].
      apply (I1 z ab s1 b 0%N false None D DB); unfold okb, oka; auto; congruence.
  - cbn [pstep] in E. loc E s1 o1. destruct n; [destruct (nd_beat _ _ _ _ _ _ _ DB E) as (_ & X)|destruct (nd_beat _ _ _ _ _ _ _ DA E) as (_ & X)]; discriminate X.
  - cbn in E. destruct l; discriminate E.
  - destruct AL.
  - cbn in E. destruct l; discriminate E.
  - cbn in E. discriminate E.
Qed.

Lemma no_beat i P k s p s' o : nd i P k s -> p_ping P = false -> step hash2 (EPingT p) s = Some (s', o) -> False.
Proof. intros D X E. destruct (nd_beat _ _ _ _ _ _ _ D E) as (_ & Y). congruence. Qed.
Lemma setup_done i P k s c g s' o : nd i P (Some k) s -> k_set k = true -> step hash2 (ESetup c g) s = Some (s', o) -> False.
Proof. intros D X E. destruct (nd_set _ _ _ _ _ _ _ _ D E) as (_ & kk & [= <-] & Y). congruence. Qed.
Lemma no_setup i P s c g s' o : nd i P None s -> step hash2 (ESetup c g) s = Some (s', o) -> False.
Proof. intros D E. destruct (nd_set _ _ _ _ _ _ _ _ D E) as (_ & kk & X & _). discriminate. Qed.
Lemma tear_not i P k s c s' o : nd i P (Some k) s -> k_term k = false -> step hash2 (ETear c) s = Some (s', o) -> False.
Proof. intros D X E. apply (nd_tear _ _ _ _ _ _ _ D) in E; [exact E|]. intros kk [= <-]. exact X. Qed.

Lemma step1 a b n sa kb e y' o : nd 2%N (PA n z (Some 1)) (Some (KA sa)) a -> nd 1%N (PB ab) kb b -> okb kb b -> oka n sa -> Forall harm (s_q a) -> Forall harm (s_q b) -> s_uq a = [] -> s_uq b = [] ->
  let y := mkSys a b [mkLink false 1 (end_of kb) (if sa then [MPing (Some n)] else []) []] [] in
  allowed e -> is_retry e = false -> pstep e y = Some (y', o) -> good z ab y 0 0 e y' o.
Proof.
  intros DA DB KB0 KA0 QA QB UA UB y AL RT E. destruct e as [m t|m g|m|m c g|m c|m p g|m p|l|l|l f|m c].
  - apply (api_harm _ _ _ _ AL) in E as (HT & E). loc E s1 o1. destruct m.
    + destruct (ben_post _ _ _ _ _ _ _ DB E HT) as (D & _ & U & PE & -> & F & _). eapply good_mk; [apply (I1 z ab a s1 n sa kb); auto; unfold okb; rewrite ?PE; auto; congruence|reflexivity|reflexivity|reflexivity|discriminate].
    + destruct (ben_post _ _ _ _ _ _ _ DA E HT) as (D & _ & U & PE & -> & F & _). eapply good_mk; [apply (I1 z ab s1 b n sa kb); auto; congruence|reflexivity|reflexivity|reflexivity|discriminate].
  - cbn [pstep] in E. loc E s1 o1. destruct m.
    + destruct (ben_disp _ _ _ _ _ _ _ _ DB eq_refl QB E) as (D & F & U & PE & O & W). rewrite route_quiet by exact O. qui O true true. eapply good_mk; [apply (I1 z ab a s1 n sa kb); auto; unfold okb; rewrite ?PE; auto; congruence|lia|lia|exact BF|]. intros _. unfold y. wts. rewrite U. lia.
    + destruct (ben_disp _ _ _ _ _ _ _ _ DA eq_refl QA E) as (D & F & U & PE & O & W). rewrite route_quiet by exact O. qui O true false. eapply good_mk; [apply (I1 z ab s1 b n sa kb); auto; congruence|lia|lia|exact BF|]. intros _. unfold y. wts. rewrite U. lia.
  - cbn [pstep] in E. loc E s1 o1. destruct m; [destruct (user_nil _ _ _ _ _ _ DB UB E)|destruct (user_nil _ _ _ _ _ _ DA UA E)].
  - cbn [pstep] in E. loc E s1 o1. destruct m.
    + destruct KB0 as [([->| ->] & PE)| ->]; [destruct (no_setup _ _ _ _ _ _ _ DB E)| |destruct (setup_done _ _ _ _ _ _ _ _ DB eq_refl E)].
      destruct (nd_setB _ _ _ _ _ _ DB PE E) as (D & Q & U & ->). cbn [fold_left]. eapply good_mk; [apply (I1 z ab a s1 n sa (Some (KB true))); auto; unfold okb; auto; congruence|reflexivity|reflexivity|reflexivity|].
      intros _. unfold y. wts. rewrite U, Q. unfold wl. cbn. lia.
    + destruct KA0 as [(-> & ->)|(-> & _)]; [|destruct (setup_done _ _ _ _ _ _ _ _ DA eq_refl E)]. destruct AL as (x & G & X).
      destruct (nd_setA _ _ _ _ _ _ _ DA G E) as (D & Q & U & PE & ->). unfold y; rt. eapply good_mk; [|reflexivity|reflexivity|reflexivity|].
      * apply (I1 z ab s1 b (x mod 2 ^ 16 + 1)%N true kb); auto; unfold oka; try congruence. right. split; [reflexivity|]. split; [generalize (x mod 2 ^ 16)%N; intro; lia|exact X].
      * intros _. unfold y. wts. rewrite U, Q. unfold wl. cbn. lia.
  - cbn [pstep] in E. loc E s1 o1. destruct m; [|destruct (tear_not _ _ _ _ _ _ _ DA eq_refl E)]. apply (nd_tear _ _ _ _ _ _ _ DB) in E; [destruct E|]. intros kk ->. destruct KB0 as [([X| X] & _)|X]; [discriminate X| |]; injection X as ->; reflexivity.
  - discriminate RT.
  - cbn [pstep] in E. loc E s1 o1. destruct m; [destruct (no_beat _ _ _ _ _ _ _ DB eq_refl E)|destruct (no_beat _ _ _ _ _ _ _ DA eq_refl E)].
  - unfold y in E. cbn [pstep y_l] in E. destruct l as [|l]; [cbn [nth_error] in E|destruct l; discriminate E]. destruct kb as [kb|]; [discriminate E|]. cbn [end_of negb node y_a] in E. destruct (k_term (s_conn a 1)); [discriminate|].
    destruct (local true _ _) as [(y1 & o1)|] eqn:L; [|discriminate]. injection E as <- <-. loc L s1 o2. destruct (nd_accept _ _ _ _ _ DB L eq_refl) as (D & Q & U & PE & -> & NC). cbn [fold_left]. rewrite NC. unfold w_l, set_node, set_nth; cbn [firstn skipn app y_a y_b y_l y_kill].
    destruct KB0 as [(_ & PE0)|X]; [|discriminate X].
    eapply good_mk; [apply (I1 z ab a s1 n sa (Some (KB false))); auto; unfold okb; rewrite ?PE; auto; congruence|reflexivity|reflexivity|reflexivity|].
    intros _. unfold y. wts. rewrite Q, U. unfold wl. cbn. lia.
  - destruct AL.
  - unfold y in E. cbn [pstep y_l] in E. destruct l as [|l]; [cbn [nth_error] in E|destruct l; discriminate E]. destruct kb as [kb|]; [|discriminate E]. cbn [end_of] in E. destruct f; [|discriminate E].
    destruct sa; [|discriminate E]. cbn [negb incoming set_nth firstn skipn app] in E. loc E s1 o1. destruct KA0 as [(X & _)|(_ & N0)]; [discriminate X|].
    destruct KB0 as [([X| X] & _)|X]; [discriminate X| |].
    + injection X as ->. unfold step in E. rewrite (d_h _ _ _ _ DB) in E. cbn [postable] in E. rewrite (d_nc _ _ _ _ DB), (d_k _ _ _ _ DB _ eq_refl) in E. discriminate E.
    + injection X as ->. destruct (nd_post _ _ _ _ _ _ _ DB E) as (D & Q & U & PE & ->). cbn [fold_left]. eapply good_mk; [apply (I2 z ab a s1 n (s_q b) []); auto; congruence|reflexivity|reflexivity|reflexivity|].
      intros _. unfold y. wts. rewrite U, Q, map_app, total_app. unfold wl. cbn. lia.
  - unfold y in E. rewrite (no_term _ _ _ _ _ _ _ _ _ _ _ _ DA DB) in E; [discriminate E|reflexivity|]. intros x ->. destruct KB0 as [([X| X] & _)|X]; [discriminate X| |]; injection X as ->; reflexivity.
Qed.

Lemma step2 a b n q1 q2 e y' o : nd 2%N (PA n z (Some 1)) (Some (KA true)) a -> nd 1%N (PB ab) (Some (KB true)) b -> (0 < n < passive_nonce)%N -> Forall harm (s_q a) ->
  s_q b = q1 ++ hello n :: q2 -> Forall harm q1 -> Forall harm q2 -> s_uq a = [] -> s_uq b = [] ->
  let y := mkSys a b [mkLink false 1 (Some 1) [] []] [] in
  allowed e -> is_retry e = false -> pstep e y = Some (y', o) -> good z ab y 0 0 e y' o.
Proof.
  intros DA DB NN QA QB H1 H2 UA UB y AL RT E. destruct e as [m t|m g|m|m c g|m c|m p g|m p|l|l|l f|m c].
  - apply (api_harm _ _ _ _ AL) in E as (HT & E). loc E s1 o1. destruct m.
    + destruct (ben_post _ _ _ _ _ _ _ DB E HT) as (D & Q & U & PE & -> & _ & _). eapply good_mk; [apply (I2 z ab a s1 n q1 (q2 ++ [t])); auto; [rewrite Q, QB, <- app_assoc; reflexivity|apply Forall_app; auto|congruence]|reflexivity|reflexivity|reflexivity|discriminate].
    + destruct (ben_post _ _ _ _ _ _ _ DA E HT) as (D & _ & U & PE & -> & F & _). eapply good_mk; [apply (I2 z ab s1 b n q1 q2); auto; congruence|reflexivity|reflexivity|reflexivity|discriminate].
  - cbn [pstep] in E. loc E s1 o1. destruct m.
    + destruct q1 as [|t q1]; cbn [app] in QB.
      * destruct (nd_hello _ _ _ _ _ _ _ DB NN QB E) as (P' & k' & D & UP & UK & Q & U & PT & ->). unfold y; rt. eapply good_mk; [|reflexivity|reflexivity|reflexivity|].
        -- apply (I3 z ab a s1 n P' k' [MPing None] 0); auto; [congruence|left; rewrite U, UB; auto].
        -- intros _. unfold y. wts. rewrite U, Q, QB, UB. unfold wl, wp, wk. rewrite PT, (v_s _ UK). cbn. lia.
      * inversion_clear H1 as [|? ? Ht H1']. destruct (nd_harm _ _ _ _ _ _ _ _ _ _ DB eq_refl QB Ht E) as (D & Q & U & PE & O). rewrite route_quiet by exact O. qui O true true.
        eapply good_mk; [apply (I2 z ab a s1 n q1 q2); auto; congruence|lia|lia|exact BF|]. intros _. unfold y. wts. rewrite U, Q, QB. cbn [map total]. rewrite (w_harm _ Ht). lia.
    + destruct (ben_disp _ _ _ _ _ _ _ _ DA eq_refl QA E) as (D & F & U & PE & O & W). rewrite route_quiet by exact O. qui O true false. eapply good_mk; [apply (I2 z ab s1 b n q1 q2); auto; congruence|lia|lia|exact BF|]. intros _. unfold y. wts. rewrite U. lia.
  - cbn [pstep] in E. loc E s1 o1. destruct m; [destruct (user_nil _ _ _ _ _ _ DB UB E)|destruct (user_nil _ _ _ _ _ _ DA UA E)].
  - cbn [pstep] in E. loc E s1 o1. destruct m; [destruct (setup_done _ _ _ _ _ _ _ _ DB eq_refl E)|destruct (setup_done _ _ _ _ _ _ _ _ DA eq_refl E)].
  - cbn [pstep] in E. loc E s1 o1. destruct m; [destruct (tear_not _ _ _ _ _ _ _ DB eq_refl E)|destruct (tear_not _ _ _ _ _ _ _ DA eq_refl E)].
  - discriminate RT.
  - cbn [pstep] in E. loc E s1 o1. destruct m; [destruct (no_beat _ _ _ _ _ _ _ DB eq_refl E)|destruct (no_beat _ _ _ _ _ _ _ DA eq_refl E)].
  - unfold y in E. cbn [pstep y_l] in E. destruct l as [|[|l]]; discriminate E.
  - destruct AL.
  - unfold y in E. cbn [pstep y_l] in E. destruct l as [|[|l]]; destruct f; discriminate E.
  - unfold y in E. rewrite (no_term _ _ _ _ _ _ _ _ _ _ _ _ DA DB) in E; [discriminate E|reflexivity|]. intros x [= <-]. reflexivity.
Qed.

Lemma said_user i P k s u s' o : nd i P k s -> said s u -> step hash2 EUser s = Some (s', o) ->
  nd i P k s' /\ s_q s' = s_q s /\ s_uq s = [UCb 0 1 true] /\ s_uq s' = [] /\ s_pend s' = s_pend s /\ o = [OCb 0 1 true] /\ u = 0.
Proof.
  intros D [(U & ->)|(U & ->)] E; [|destruct (user_nil _ _ _ _ _ _ D U E)]. destruct (nd_user _ _ _ _ _ _ _ _ _ D U E) as (D' & Q & U' & PE & O). rewrite U'. auto 9.
Qed.
Lemma said_same s s' u : said s u -> s_uq s' = s_uq s -> said s' u.
Proof. unfold said. intros H ->. exact H. Qed.

Lemma step3 a b n P k h u e y' o : nd 2%N (PA n z (Some 1)) (Some (KA true)) a -> nd 1%N P (Some k) b -> up P -> upk k -> (0 < n < passive_nonce)%N -> Forall harm (s_q a) -> Forall harm (s_q b) ->
  Forall (eq (MPing None)) h -> s_uq a = [] -> said b u ->
  let y := mkSys a b [mkLink false 1 (Some 1) [] (MPong (Some passive_nonce) :: h)] [] in
  allowed e -> is_retry e = false -> pstep e y = Some (y', o) -> good z ab y 0 u e y' o.
Proof.
  intros DA DB UP UK NN QA QB HH UA UB y AL RT E. destruct e as [m t|m g|m|m c g|m c|m p g|m p|l|l|l f|m c].
  - apply (api_harm _ _ _ _ AL) in E as (HT & E). loc E s1 o1. destruct m.
    + destruct (ben_post _ _ _ _ _ _ _ DB E HT) as (D & Q & U & PE & -> & F & _). eapply good_mk; [apply (I3 z ab a s1 n P k h u); auto; apply (said_same _ _ _ UB U)|reflexivity|apply plus_n_O|reflexivity|discriminate].
    + destruct (ben_post _ _ _ _ _ _ _ DA E HT) as (D & _ & U & PE & -> & F & _). eapply good_mk; [apply (I3 z ab s1 b n P k h u); auto; congruence|reflexivity|apply plus_n_O|reflexivity|discriminate].
  - cbn [pstep] in E. loc E s1 o1. destruct m.
    + destruct (ben_disp _ _ _ _ _ _ _ _ DB (u_conn _ UP) QB E) as (D & F & U & PE & O & W). rewrite route_quiet by exact O. qui O true true. eapply good_mk; [apply (I3 z ab a s1 n P k h u); auto; apply (said_same _ _ _ UB U)|lia|lia|exact BF|]. intros _. unfold y. wts. rewrite U. lia.
    + destruct (ben_disp _ _ _ _ _ _ _ _ DA eq_refl QA E) as (D & F & U & PE & O & W). rewrite route_quiet by exact O. qui O true false. eapply good_mk; [apply (I3 z ab s1 b n P k h u); auto; congruence|lia|lia|exact BF|]. intros _. unfold y. wts. rewrite U. lia.
  - cbn [pstep] in E. loc E s1 o1. destruct m; [|destruct (user_nil _ _ _ _ _ _ DA UA E)].
    destruct (said_user _ _ _ _ _ _ _ DB UB E) as (D & Q & U & U' & PE & -> & ->). unfold y; rt. eapply good_mk; [apply (I3 z ab a s1 n P k h 1); auto; [rewrite Q; auto|right; auto]|reflexivity|reflexivity|reflexivity|].
    intros _. unfold y. wts. rewrite U, U', Q. cbn [length]. lia.
  - cbn [pstep] in E. loc E s1 o1. destruct m; [destruct (setup_done _ _ _ _ _ _ _ _ DB (v_s _ UK) E)|destruct (setup_done _ _ _ _ _ _ _ _ DA eq_refl E)].
  - cbn [pstep] in E. loc E s1 o1. destruct m; [destruct (tear_not _ _ _ _ _ _ _ DB (v_t _ UK) E)|destruct (tear_not _ _ _ _ _ _ _ DA eq_refl E)].
  - discriminate RT.
  - cbn [pstep] in E. loc E s1 o1. destruct m; [|destruct (no_beat _ _ _ _ _ _ _ DA eq_refl E)].
    destruct (nd_beat_up _ _ _ _ _ _ _ DB UP E) as (P' & D & UP' & Q & U & PE & [->| ->]); unfold y; rt.
    + eapply good_mk; [apply (I3 z ab a s1 n P' k (h ++ [MPing None]) u); auto; [rewrite Q; auto|apply Forall_app; auto|apply (said_same _ _ _ UB U)]|reflexivity|apply plus_n_O|reflexivity|discriminate].
    + eapply good_mk; [apply (I3 z ab a s1 n P' k h u); auto; [rewrite Q; auto|apply (said_same _ _ _ UB U)]|reflexivity|apply plus_n_O|reflexivity|discriminate].
  - unfold y in E. cbn [pstep y_l] in E. destruct l as [|[|l]]; discriminate E.
  - destruct AL.
  - unfold y in E. cbn [pstep y_l] in E. destruct l as [|[|l]]; destruct f; try discriminate E. cbn [nth_error set_nth firstn skipn app incoming negb] in E. loc E s1 o1.
    destruct (nd_post _ _ _ _ _ _ _ DA E) as (D & Q & U & PE & ->). rt. eapply good_mk; [apply (I4 z ab s1 b n P k (s_q a) [] h u); auto; congruence|reflexivity|apply plus_n_O|reflexivity|].
    intros _. unfold y. wts. rewrite U, Q, map_app, total_app. unfold wl. cbn. lia.
  - unfold y in E. rewrite (no_term _ _ _ _ _ _ _ _ _ _ _ _ DA DB) in E; [discriminate E|reflexivity|]. intros x [= <-]. exact (v_t _ UK).
Qed.

Lemma step4 a b n P k q1 q2 h u e y' o : nd 2%N (PA n z (Some 1)) (Some (KA true)) a -> nd 1%N P (Some k) b -> up P -> upk k -> (0 < n < passive_nonce)%N -> s_q a = q1 ++ reply :: q2 -> Forall harm q1 -> Forall hbp q2 ->
  Forall harm (s_q b) -> Forall (eq (MPing None)) h -> s_uq a = [] -> said b u ->
  let y := mkSys a b [mkLink false 1 (Some 1) [] h] [] in
  allowed e -> is_retry e = false -> pstep e y = Some (y', o) -> good z ab y 0 u e y' o.
Proof.
  intros DA DB UP UK NN QA H1 H2 QB HH UA UB y AL RT E. destruct e as [m t|m g|m|m c g|m c|m p g|m p|l|l|l f|m c].
  - apply (api_harm _ _ _ _ AL) in E as (HT & E). loc E s1 o1. destruct m.
    + destruct (ben_post _ _ _ _ _ _ _ DB E HT) as (D & Q & U & PE & -> & F & _). eapply good_mk; [apply (I4 z ab a s1 n P k q1 q2 h u); auto; apply (said_same _ _ _ UB U)|reflexivity|apply plus_n_O|reflexivity|discriminate].
    + destruct (ben_post _ _ _ _ _ _ _ DA E HT) as (D & Q & U & PE & -> & F & _).
      eapply good_mk; [apply (I4 z ab s1 b n P k q1 (q2 ++ [t]) h u); auto; [rewrite Q, QA, <- app_assoc; reflexivity|apply Forall_app; split; auto; constructor; [left; exact HT|constructor]|congruence]|reflexivity|apply plus_n_O|reflexivity|discriminate].
  - cbn [pstep] in E. loc E s1 o1. destruct m.
    + destruct (ben_disp _ _ _ _ _ _ _ _ DB (u_conn _ UP) QB E) as (D & F & U & PE & O & W). rewrite route_quiet by exact O. qui O true true. eapply good_mk; [apply (I4 z ab a s1 n P k q1 q2 h u); auto; apply (said_same _ _ _ UB U)|lia|lia|exact BF|]. intros _. unfold y. wts. rewrite U. lia.
    + destruct q1 as [|t q1]; cbn [app] in QA.
      * destruct (nd_reply _ _ _ _ _ _ _ DA NN QA E) as (P' & k' & D & UP' & UK' & Q & U & PT & ->). unfold y; rt. eapply good_mk; [|reflexivity|apply plus_n_O|reflexivity|].
        -- apply (I5 z ab s1 b P' k' P k [MPing None] h 0 u); auto; try rewrite Q; try (eapply Forall_impl; [|eassumption]; unfold calm, hbp, hm; auto); [repeat constructor|left; rewrite U, UA; auto].
        -- intros _. unfold y. wts. rewrite U, Q, QA, UA. unfold wl, wp, wk. rewrite PT, (v_s _ UK'). cbn. lia.
      * inversion_clear H1 as [|? ? Ht H1']. destruct (nd_harm _ _ _ _ _ _ _ _ _ _ DA eq_refl QA Ht E) as (D & Q & U & PE & O). rewrite route_quiet by exact O. qui O true false.
        eapply good_mk; [apply (I4 z ab s1 b n P k q1 q2 h u); auto; congruence|lia|lia|exact BF|]. intros _. unfold y. wts. rewrite U, Q, QA. cbn [map total]. rewrite (w_harm _ Ht). lia.
  - cbn [pstep] in E. loc E s1 o1. destruct m; [|destruct (user_nil _ _ _ _ _ _ DA UA E)].
    destruct (said_user _ _ _ _ _ _ _ DB UB E) as (D & Q & U & U' & PE & -> & ->). unfold y; rt. eapply good_mk; [apply (I4 z ab a s1 n P k q1 q2 h 1); auto; [rewrite Q; auto|right; auto]|reflexivity|reflexivity|reflexivity|].
    intros _. unfold y. wts. rewrite U, U', Q. cbn [length]. lia.
  - cbn [pstep] in E. loc E s1 o1. destruct m; [destruct (setup_done _ _ _ _ _ _ _ _ DB (v_s _ UK) E)|destruct (setup_done _ _ _ _ _ _ _ _ DA eq_refl E)].
  - cbn [pstep] in E. loc E s1 o1. destruct m; [destruct (tear_not _ _ _ _ _ _ _ DB (v_t _ UK) E)|destruct (tear_not _ _ _ _ _ _ _ DA eq_refl E)].
  - discriminate RT.
  - cbn [pstep] in E. loc E s1 o1. destruct m; [|destruct (no_beat _ _ _ _ _ _ _ DA eq_refl E)].
    destruct (nd_beat_up _ _ _ _ _ _ _ DB UP E) as (P' & D & UP' & Q & U & PE & [->| ->]); unfold y; rt.
    + eapply good_mk; [apply (I4 z ab a s1 n P' k q1 q2 (h ++ [MPing None]) u); auto; [rewrite Q; auto|apply Forall_app; auto|apply (said_same _ _ _ UB U)]|reflexivity|apply plus_n_O|reflexivity|discriminate].
    + eapply good_mk; [apply (I4 z ab a s1 n P' k q1 q2 h u); auto; [rewrite Q; auto|apply (said_same _ _ _ UB U)]|reflexivity|apply plus_n_O|reflexivity|discriminate].
  - unfold y in E. cbn [pstep y_l] in E. destruct l as [|[|l]]; discriminate E.
  - destruct AL.
  - unfold y in E. cbn [pstep y_l] in E. destruct l as [|[|l]]; destruct f; try discriminate E. cbn [nth_error set_nth firstn skipn app incoming negb] in E. destruct h as [|x h]; [discriminate E|]. inversion_clear HH as [|? ? Hx HH']. subst x.
    cbn [incoming] in E. loc E s1 o1. destruct (nd_post _ _ _ _ _ _ _ DA E) as (D & Q & U & PE & ->). rt.
    eapply good_mk; [apply (I4 z ab s1 b n P k q1 (q2 ++ [TPing (Some 1) 0%N 0%N]) h u); auto; [rewrite Q, QA, <- app_assoc; reflexivity|apply Forall_app; split; auto; constructor; [right; reflexivity|constructor]|congruence]|reflexivity|apply plus_n_O|reflexivity|].
    intros _. unfold y. wts. rewrite U, Q, map_app, total_app. unfold wl. cbn. lia.
  - unfold y in E. rewrite (no_term _ _ _ _ _ _ _ _ _ _ _ _ DA DB) in E; [discriminate E|reflexivity|]. intros x [= <-]. exact (v_t _ UK).
Qed.

Lemma up_disp i P k s g s' o : nd i P (Some k) s -> up P -> upk k -> Forall calm (s_q s) -> step hash2 (EDisp g) s = Some (s', o) ->
  exists P' ms, nd i P' (Some k) s' /\ up P' /\ Forall calm (s_q s') /\ s_uq s' = s_uq s /\ Forall hm ms /\
    (Forall quiet o /\ ms = [] \/ exists t, o = [OExec t; OPong 1 None] /\ ms = [MPong None] \/ o = [OExec t; OPing 1 None] /\ ms = [MPing None]) /\
    total (map wtask (s_q s')) + wp P' + total (map wm ms) < total (map wtask (s_q s)) + wp P.
Proof.
  intros D UP UK F E. destruct (s_q s) as [|t q] eqn:Q; [destruct (disp_nil _ _ _ _ _ _ _ D Q E)|]. inversion_clear F as [|? ? Ht Hq]. destruct Ht as [[Ht| ->]| ->].
  - destruct (nd_harm _ _ _ _ _ _ _ _ _ _ D (u_conn _ UP) Q Ht E) as (D' & Q' & U & PE & O). exists P, []. rewrite Q'. cbn. rewrite (w_harm _ Ht). split; [exact D'|]. split; [exact UP|]. split; [exact Hq|]. split; [exact U|]. split; [constructor|]. split; [left; auto|lia].
  - destruct (nd_hbping _ _ _ _ _ _ _ _ _ D (v_t _ UK) Q E) as (D' & Q' & U & PE & ->). exists P, [MPong None]. rewrite Q'. cbn. split; [exact D'|]. split; [exact UP|]. split; [exact Hq|]. split; [exact U|]. split; [constructor; [right; reflexivity|constructor]|]. split; [|lia]. right. eexists. left. auto.
  - destruct (nd_hbpong _ _ _ _ _ _ _ _ _ D UP UK Q E) as (P' & D' & UP' & Q' & U & PE & [(T & T' & ->)|(T & T' & ->)]).
    + exists P', [MPing None]. rewrite Q'. unfold wp. rewrite T, T'. cbn. split; [exact D'|]. split; [exact UP'|]. split; [exact Hq|]. split; [exact U|]. split; [constructor; [left; reflexivity|constructor]|]. split; [|lia]. right. eexists. right. auto.
    + exists P', []. rewrite Q'. unfold wp. rewrite T, T'. cbn. split; [exact D'|]. split; [exact UP'|]. split; [exact Hq|]. split; [exact U|]. split; [constructor|]. split; [|lia]. left. split; [repeat constructor|reflexivity].
Qed.
Lemma hm_app l m : Forall hm l -> Forall hm m -> Forall hm (l ++ m).
Proof. intros. apply Forall_app. auto. Qed.
Lemma calm_in n c m : hm m -> c = 1 -> calm (incoming n c m).
Proof. intros [->| ->] ->; cbn; [left; right|right]; reflexivity. Qed.
Lemma w_in n c m : hm m -> wtask (incoming n c m) < wm m.
Proof. intros [->| ->]; cbn; lia. Qed.

Lemma step5 a b Pa ka Pb kb f h u v e y' o : nd 2%N Pa (Some ka) a -> nd 1%N Pb (Some kb) b -> up Pa -> upk ka -> up Pb -> upk kb -> Forall calm (s_q a) -> Forall calm (s_q b) -> Forall hm f -> Forall hm h ->
  said a u -> said b v ->
  let y := mkSys a b [mkLink false 1 (Some 1) f h] [] in
  allowed e -> is_retry e = false -> pstep e y = Some (y', o) -> good z ab y u v e y' o.
Proof.
  intros DA DB UPA UKA UPB UKB QA QB HF HH UA UB y AL RT E. destruct e as [m t|m g|m|m c g|m c|m p g|m p|l|l|l w|m c].
  - apply (api_harm _ _ _ _ AL) in E as (HT & E). loc E s1 o1. destruct m.
    + destruct (ben_post _ _ _ _ _ _ _ DB E HT) as (D & Q & U & PE & -> & _ & F). eapply good_mk; [apply (I5 z ab a s1 Pa ka Pb kb f h u v); auto; apply (said_same _ _ _ UB U)|apply plus_n_O|apply plus_n_O|reflexivity|discriminate].
    + destruct (ben_post _ _ _ _ _ _ _ DA E HT) as (D & Q & U & PE & -> & _ & F). eapply good_mk; [apply (I5 z ab s1 b Pa ka Pb kb f h u v); auto; apply (said_same _ _ _ UA U)|apply plus_n_O|apply plus_n_O|reflexivity|discriminate].
  - cbn [pstep] in E. loc E s1 o1. destruct m.
    + destruct (up_disp _ _ _ _ _ _ _ DB UPB UKB QB E) as (P' & ms & D & UP' & F & U & M & O & W). destruct O as [(O & ->)|(t & [(-> & ->)|(-> & ->)])].
      * rewrite route_quiet by exact O. qui O true true. eapply good_mk; [apply (I5 z ab a s1 Pa ka P' kb f h u v); auto; apply (said_same _ _ _ UB U)|lia|lia|exact BF|]. intros _. unfold y. wts. rewrite U. cbn [map total] in W. lia.
      * unfold y; rt. eapply good_mk; [apply (I5 z ab a s1 Pa ka P' kb f (h ++ [MPong None]) u v); auto using hm_app; apply (said_same _ _ _ UB U)|apply plus_n_O|apply plus_n_O|reflexivity|].
        intros _. unfold y. wts. rewrite U. unfold wl; cbn [l_d l_fwd l_bwd]. rewrite !map_app, !total_app. cbn [map total] in *. lia.
      * unfold y; rt. eapply good_mk; [apply (I5 z ab a s1 Pa ka P' kb f (h ++ [MPing None]) u v); auto using hm_app; apply (said_same _ _ _ UB U)|apply plus_n_O|apply plus_n_O|reflexivity|].
        intros _. unfold y. wts. rewrite U. unfold wl; cbn [l_d l_fwd l_bwd]. rewrite !map_app, !total_app. cbn [map total] in *. lia.
    + destruct (up_disp _ _ _ _ _ _ _ DA UPA UKA QA E) as (P' & ms & D & UP' & F & U & M & O & W). destruct O as [(O & ->)|(t & [(-> & ->)|(-> & ->)])].
      * rewrite route_quiet by exact O. qui O true false. eapply good_mk; [apply (I5 z ab s1 b P' ka Pb kb f h u v); auto; apply (said_same _ _ _ UA U)|lia|lia|exact BF|]. intros _. unfold y. wts. rewrite U. cbn [map total] in W. lia.
      * unfold y; rt. eapply good_mk; [apply (I5 z ab s1 b P' ka Pb kb (f ++ [MPong None]) h u v); auto using hm_app; apply (said_same _ _ _ UA U)|apply plus_n_O|apply plus_n_O|reflexivity|].
        intros _. unfold y. wts. rewrite U. unfold wl; cbn [l_d l_fwd l_bwd]. rewrite !map_app, !total_app. cbn [map total] in *. lia.
      * unfold y; rt. eapply good_mk; [apply (I5 z ab s1 b P' ka Pb kb (f ++ [MPing None]) h u v); auto using hm_app; apply (said_same _ _ _ UA U)|apply plus_n_O|apply plus_n_O|reflexivity|].
        intros _. unfold y. wts. rewrite U. unfold wl; cbn [l_d l_fwd l_bwd]. rewrite !map_app, !total_app. cbn [map total] in *. lia.
  - cbn [pstep] in E. loc E s1 o1. destruct m.
    + destruct (said_user _ _ _ _ _ _ _ DB UB E) as (D & Q & U & U' & PE & -> & ->). unfold y; rt. eapply good_mk; [apply (I5 z ab a s1 Pa ka Pb kb f h u 1); auto; [rewrite Q; auto|right; auto]|apply plus_n_O|reflexivity|reflexivity|].
      intros _. unfold y. wts. rewrite U, U', Q. cbn [length]. lia.
    + destruct (said_user _ _ _ _ _ _ _ DA UA E) as (D & Q & U & U' & PE & -> & ->). unfold y; rt. eapply good_mk; [apply (I5 z ab s1 b Pa ka Pb kb f h 1 v); auto; [rewrite Q; auto|right; auto]|reflexivity|apply plus_n_O|reflexivity|].
      intros _. unfold y. wts. rewrite U, U', Q. cbn [length]. lia.
  - cbn [pstep] in E. loc E s1 o1. destruct m; [destruct (setup_done _ _ _ _ _ _ _ _ DB (v_s _ UKB) E)|destruct (setup_done _ _ _ _ _ _ _ _ DA (v_s _ UKA) E)].
  - cbn [pstep] in E. loc E s1 o1. destruct m; [destruct (tear_not _ _ _ _ _ _ _ DB (v_t _ UKB) E)|destruct (tear_not _ _ _ _ _ _ _ DA (v_t _ UKA) E)].
  - discriminate RT.
  - cbn [pstep] in E. loc E s1 o1. destruct m.
    + destruct (nd_beat_up _ _ _ _ _ _ _ DB UPB E) as (P' & D & UP' & Q & U & PE & [->| ->]); unfold y; rt.
      * eapply good_mk; [apply (I5 z ab a s1 Pa ka P' kb f (h ++ [MPing None]) u v); auto; [rewrite Q; auto|apply hm_app; auto; repeat constructor|apply (said_same _ _ _ UB U)]|apply plus_n_O|apply plus_n_O|reflexivity|discriminate].
      * eapply good_mk; [apply (I5 z ab a s1 Pa ka P' kb f h u v); auto; [rewrite Q; auto|apply (said_same _ _ _ UB U)]|apply plus_n_O|apply plus_n_O|reflexivity|discriminate].
    + destruct (nd_beat_up _ _ _ _ _ _ _ DA UPA E) as (P' & D & UP' & Q & U & PE & [->| ->]); unfold y; rt.
      * eapply good_mk; [apply (I5 z ab s1 b P' ka Pb kb (f ++ [MPing None]) h u v); auto; [rewrite Q; auto|apply hm_app; auto; repeat constructor|apply (said_same _ _ _ UA U)]|apply plus_n_O|apply plus_n_O|reflexivity|discriminate].
      * eapply good_mk; [apply (I5 z ab s1 b P' ka Pb kb f h u v); auto; [rewrite Q; auto|apply (said_same _ _ _ UA U)]|apply plus_n_O|apply plus_n_O|reflexivity|discriminate].
  - unfold y in E. cbn [pstep y_l] in E. destruct l as [|[|l]]; discriminate E.
  - destruct AL.
  - unfold y in E. cbn [pstep y_l] in E. destruct l as [|[|l]]; [|discriminate E|discriminate E]. cbn [nth_error set_nth firstn skipn app negb] in E. destruct w.
    + destruct f as [|x f]; [discriminate E|]. inversion_clear HF as [|? ? Hx HF']. loc E s1 o1. destruct (nd_post _ _ _ _ _ _ _ DB E) as (D & Q & U & PE & ->). rt.
      eapply good_mk; [apply (I5 z ab a s1 Pa ka Pb kb f h u v); auto; [rewrite Q; apply Forall_app; split; auto; constructor; [apply calm_in; auto|constructor]|apply (said_same _ _ _ UB U)]|apply plus_n_O|apply plus_n_O|reflexivity|].
      intros _. unfold y. wts. rewrite U, Q, map_app, total_app. unfold wl. cbn [map total l_d l_fwd l_bwd]. pose proof (w_in true 1 x Hx). lia.
    + destruct h as [|x h]; [discriminate E|]. inversion_clear HH as [|? ? Hx HH']. loc E s1 o1. destruct (nd_post _ _ _ _ _ _ _ DA E) as (D & Q & U & PE & ->). rt.
      eapply good_mk; [apply (I5 z ab s1 b Pa ka Pb kb f h u v); auto; [rewrite Q; apply Forall_app; split; auto; constructor; [apply calm_in; auto|constructor]|apply (said_same _ _ _ UA U)]|apply plus_n_O|apply plus_n_O|reflexivity|].
      intros _. unfold y. wts. rewrite U, Q, map_app, total_app. unfold wl. cbn [map total l_d l_fwd l_bwd]. pose proof (w_in false 1 x Hx). lia.
  - unfold y in E. rewrite (no_term _ _ _ _ _ _ _ _ _ _ _ _ DA DB) in E; [discriminate E|exact (v_t _ UKA)|]. intros x [= <-]. exact (v_t _ UKB).
Qed.

Lemma step_inv y u v e y' o : inv z ab y u v -> allowed e -> (is_retry e = true -> y_l y = []) -> pstep e y = Some (y', o) -> good z ab y u v e y' o.
Proof.
  intros I AL RT E. inversion I; subst; [eapply step0; eauto|..]; (assert (RT' : is_retry e = false) by (destruct (is_retry e); [discriminate (RT eq_refl)|reflexivity])); [eapply step1|eapply step2|eapply step3|eapply step4|eapply step5]; eauto.
Qed.

(** ** What is left to do can be done *)
Definition g1 : env := mkEnv (Some 0%N) true None (fun _ => true).
Lemma go_disp n y i P k : nd i P k (node n y) -> s_q (node n y) <> [] -> exists r, pstep (PDisp n g1) y = Some r.
Proof.
  intros D Q. cbn [pstep]. unfold local, step. rewrite (d_h _ _ _ _ D). destruct (s_q (node n y)) as [|t q]; [contradiction|]. destruct (task hash2 g1 t (w_q q (node n y))) as (s' & o). eauto.
Qed.
Lemma go_user n y i P k : nd i P k (node n y) -> s_uq (node n y) <> [] -> exists r, pstep (PUser n) y = Some r.
Proof.
  intros D Q. cbn [pstep]. unfold local, step. rewrite (d_h _ _ _ _ D). destruct (s_uq (node n y)) as [|[p c b|p c a m i'|a c] q]; [contradiction|..]; unfold say; eauto.
Qed.
Lemma go_setup n y i P k : nd i P (Some k) (node n y) -> k_set k = false -> k_torn k = false -> exists r, pstep (PSetup n 1 g1) y = Some r.
Proof.
  intros D S X. cbn [pstep]. unfold local, step. rewrite (d_h _ _ _ _ D), (d_nc _ _ _ _ D), (d_k _ _ _ _ D _ eq_refl), S, X. cbn [Nat.ltb Nat.leb negb andb]. destruct (setup hash2 g1 1 _) as (s' & o). eauto.
Qed.
Lemma go_post n y i P k t : nd i P (Some k) (node n y) -> k_set k = true -> (exists m, t = incoming n 1 m) -> exists r, local n (EPost t) y = Some r.
Proof.
  intros D S (m & ->). unfold local, step. rewrite (d_h _ _ _ _ D). assert (postable (node n y) (incoming n 1 m) = true) as ->; [|unfold say; eauto].
  destruct m as [[x|]|[x|]]; cbn [incoming postable]; rewrite (d_nc _ _ _ _ D), (d_k _ _ _ _ D _ eq_refl), S; reflexivity.
Qed.
Definition fit (e : pev) : Prop := allowed e /\ starts e = false.
Definition can (y : sys) : Prop := exists e r, fit e /\ pstep e y = Some r.
Lemma fit_disp n : fit (PDisp n g1). Proof. split; [exact I|reflexivity]. Qed.
Lemma fit_user n : fit (PUser n). Proof. split; [exact I|reflexivity]. Qed.
Lemma fit_setup n : fit (PSetup n 1 g1). Proof. split; [|reflexivity]. exists 0%N. split; [reflexivity|reflexivity]. Qed.
Lemma fit_get i f : fit (PGet i f). Proof. split; [exact I|reflexivity]. Qed.
Lemma fit_accept i : fit (PAccept i). Proof. split; [exact I|reflexivity]. Qed.

Definition joined (y : sys) (u v : nat) : Prop :=
  connected false y /\ connected true y /\ y_l y = [mkLink false 1 (Some 1) [] []] /\ y_kill y = [] /\ u = 1 /\ v = 1.

Lemma rest_node i P k s : nd i P k s -> s_q s = [] -> s_uq s = [] -> (forall x, k = Some x -> k_set x = true /\ k_term x = false) ->
  (match s_q s, s_uq s with [], [] => true | _, _ => false end && forallb (fun c => (k_set (s_conn s c) || k_torn (s_conn s c)) && implb (k_term (s_conn s c)) (k_torn (s_conn s c))) (List.seq 0 (s_nc s))) = true.
Proof.
  intros D Q U K. rewrite Q, U, (d_nc _ _ _ _ D). destruct (d_0 _ _ _ _ D) as (K1 & K2). destruct k as [k|]; cbn; rewrite K1, K2, ?orb_true_r; cbn; [|reflexivity].
  rewrite (d_k _ _ _ _ D _ eq_refl). destruct (K _ eq_refl) as (-> & ->). reflexivity.
Qed.
Lemma ne_dec {B} (l : list B) : l = [] \/ l <> [].
Proof. destruct l; [left; reflexivity|right; discriminate]. Qed.

Lemma progress y u v : inv z ab y u v -> can y \/ settled y = true /\ (y_l y <> [] -> joined y u v).
Proof.
  intros I. inversion I as [a b DA DB PA0 PB0 QA QB UA UB|a b n sa kb DA DB KB0 KA0 QA QB UA UB|a b n q1 q2 DA DB NN QA QB H1 H2 UA UB|a b n P k h w DA DB UP UK NN QA QB HH UA UB|a b n P k q1 q2 h w DA DB UP UK NN QA H1 H2 QB HH UA UB|a b Pa ka Pb kb f h w w' DA DB UPA UKA UPB UKB QA QB HF HH UA UB]; subst.
  - destruct (ne_dec (s_q a)) as [Ea|Na]; [|left; destruct (go_disp false (mkSys a b [] []) _ _ _ DA Na) as (r & R); exists (PDisp false g1), r; auto using fit_disp].
    destruct (ne_dec (s_q b)) as [Eb|Nb]; [|left; destruct (go_disp true (mkSys a b [] []) _ _ _ DB Nb) as (r & R); exists (PDisp true g1), r; auto using fit_disp].
    right. split; [|intros X; destruct X; reflexivity]. unfold settled. cbn [forallb node y_a y_b y_l y_kill]. rewrite (rest_node _ _ _ _ DA Ea UA), (rest_node _ _ _ _ DB Eb UB) by discriminate. reflexivity.
  - left. destruct KB0 as [([->| ->] & _)| ->].
    + cbn [end_of]. exists (PAccept 0). cbn [pstep y_l nth_error negb node y_a]. rewrite (d_k _ _ _ _ DA _ eq_refl). cbn [k_term KA]. unfold local, step. cbn [node y_b]. rewrite (d_h _ _ _ _ DB). unfold say. eexists. split; [apply fit_accept|reflexivity].
    + match goal with |- can ?y => destruct (go_setup true y _ _ _ DB eq_refl eq_refl) as (r & R) end. exists (PSetup true 1 g1), r. auto using fit_setup.
    + destruct KA0 as [(-> & ->)|(-> & NN)].
      * match goal with |- can ?y => destruct (go_setup false y _ _ _ DA eq_refl eq_refl) as (r & R) end. exists (PSetup false 1 g1), r. auto using fit_setup.
      * exists (PGet 0 true). cbn [pstep y_l nth_error end_of negb]. match goal with |- context [local true (EPost ?t) ?y] => destruct (go_post true y _ _ _ t DB eq_refl) as (r & R); [eexists (_ : msg); reflexivity|] end. exists r. auto using fit_get.
  - left. match goal with |- can ?y => destruct (go_disp true y _ _ _ DB) as (r & R) end; [cbn; rewrite QB; destruct q1; discriminate|]. exists (PDisp true g1), r. auto using fit_disp.
  - left. exists (PGet 0 false). cbn [pstep y_l nth_error]. match goal with |- context [local false (EPost ?t) ?y] => destruct (go_post false y _ _ _ t DA eq_refl) as (r & R); [eexists (_ : msg); reflexivity|] end. exists r. auto using fit_get.
  - left. match goal with |- can ?y => destruct (go_disp false y _ _ _ DA) as (r & R) end; [cbn; rewrite QA; destruct q1; discriminate|]. exists (PDisp false g1), r. auto using fit_disp.
  - set (y := mkSys a b _ _). destruct (ne_dec (s_q a)) as [Ea|Na]; [|left; destruct (go_disp false y _ _ _ DA Na) as (r & R); exists (PDisp false g1), r; auto using fit_disp].
    destruct (ne_dec (s_q b)) as [Eb|Nb]; [|left; destruct (go_disp true y _ _ _ DB Nb) as (r & R); exists (PDisp true g1), r; auto using fit_disp].
    destruct (ne_dec (s_uq a)) as [Ua|Na]; [|left; destruct (go_user false y _ _ _ DA Na) as (r & R); exists (PUser false), r; auto using fit_user].
    destruct (ne_dec (s_uq b)) as [Ub|Nb]; [|left; destruct (go_user true y _ _ _ DB Nb) as (r & R); exists (PUser true), r; auto using fit_user].
    destruct f as [|x f].
    2:{ left. exists (PGet 0 true). unfold y. cbn [pstep y_l nth_error negb]. match goal with |- context [local true (EPost ?t) ?y] => destruct (go_post true y _ _ _ t DB (v_s _ UKB)) as (r & R); [eexists (_ : msg); reflexivity|] end. exists r. auto using fit_get. }
    destruct h as [|x h].
    2:{ left. exists (PGet 0 false). unfold y. cbn [pstep y_l nth_error]. match goal with |- context [local false (EPost ?t) ?y] => destruct (go_post false y _ _ _ t DA (v_s _ UKA)) as (r & R); [eexists (_ : msg); reflexivity|] end. exists r. auto using fit_get. }
    right. split.
    + unfold settled, y. cbn [forallb node y_a y_b y_l y_kill l_by l_c l_d l_fwd l_bwd negb].
      rewrite (rest_node _ _ _ _ DA Ea Ua), (rest_node _ _ _ _ DB Eb Ub) by (intros ? [= <-]; split; [apply v_s|apply v_t]; assumption). cbn [andb].
      rewrite (d_k _ _ _ _ DA _ eq_refl), (d_k _ _ _ _ DB _ eq_refl), (v_t _ UKA), (v_t _ UKB). reflexivity.
    + intros _. unfold joined, connected, y. cbn [node y_a y_b y_l y_kill]. rewrite (d_p _ _ _ _ DA), (d_p _ _ _ _ DB). destruct UPA, UPB.
      destruct UA as [(X & _)|(_ & ->)]; [congruence|]. destruct UB as [(X & _)|(_ & ->)]; [congruence|]. auto 9.
Qed.

Lemma settled_q n y : settled y = true -> s_q (node n y) = [] /\ s_uq (node n y) = [] /\ forall c, c < s_nc (node n y) -> k_set (s_conn (node n y) c) = true \/ k_torn (s_conn (node n y) c) = true.
Proof.
  unfold settled. intros S. apply andb_true_iff in S as (S & _). apply andb_true_iff in S as (S & _). rewrite forallb_forall in S. specialize (S n). cbn beta zeta in S.
  apply andb_true_iff in S as (S1 & S2); [|destruct n; cbn; auto]. destruct (s_q (node n y)); [|discriminate]. destruct (s_uq (node n y)); [|discriminate]. split; [reflexivity|]. split; [reflexivity|].
  intros c L. rewrite forallb_forall in S2. specialize (S2 c). apply andb_true_iff in S2 as (S2 & _); [|apply in_seq; lia]. apply orb_true_iff in S2. exact S2.
Qed.
Lemma settled_l a b d f h : settled (mkSys a b [mkLink false 1 d f h] []) = true -> k_term (s_conn a 1) = false -> k_torn (s_conn a 1) = false -> d <> None /\ f = [] /\ h = [].
Proof.
  unfold settled. intros S T X. apply andb_true_iff in S as (_ & S). cbn [y_l forallb l_d l_by l_c node y_a y_b negb l_fwd l_bwd] in S. destruct d as [d|]; [|rewrite X in S; discriminate S]. rewrite T in S. cbn [orb] in S.
  destruct f; [|rewrite ?andb_false_r in S; discriminate S]. destruct h; [|rewrite ?andb_false_r in S; discriminate S]. split; [discriminate|auto].
Qed.
Lemma settled_joined y u v : inv z ab y u v -> settled y = true -> y_l y <> [] -> joined y u v.
Proof.
  intros I S L. pose proof (settled_q false y S) as (SA & SUA & SKA). pose proof (settled_q true y S) as (SB & SUB & SKB).
  inversion I as [a b DA DB PA0 PB0 QA QB UA UB|a b n sa kb DA DB KB0 KA0 QA QB UA UB|a b n q1 q2 DA DB NN QA QB H1 H2 UA UB|a b n P k h w DA DB UP UK NN QA QB HH UA UB|a b n P k q1 q2 h w DA DB UP UK NN QA H1 H2 QB HH UA UB|a b Pa ka Pb kb f h w w' DA DB UPA UKA UPB UKB QA QB HF HH UA UB]; subst; cbn [node y_a y_b] in *.
  - destruct L; reflexivity.
  - exfalso. apply settled_l in S as (_ & S & _); [|rewrite (d_k _ _ _ _ DA _ eq_refl); reflexivity|rewrite (d_k _ _ _ _ DA _ eq_refl); reflexivity]. destruct sa; [discriminate S|].
    specialize (SKA 1). rewrite (d_nc _ _ _ _ DA), (d_k _ _ _ _ DA _ eq_refl) in SKA. destruct SKA as [X|X]; [lia|discriminate X|discriminate X].
  - exfalso. rewrite QB in SB. destruct q1; discriminate SB.
  - exfalso. apply settled_l in S as (_ & _ & S); [discriminate S|rewrite (d_k _ _ _ _ DA _ eq_refl); reflexivity|rewrite (d_k _ _ _ _ DA _ eq_refl); reflexivity].
  - exfalso. rewrite QA in SA. destruct q1; discriminate SA.
  - apply settled_l in S as (_ & -> & ->); [|rewrite (d_k _ _ _ _ DA _ eq_refl); apply (v_t _ UKA)|rewrite (d_k _ _ _ _ DA _ eq_refl); apply (v_x _ UKA)].
    unfold joined, connected. cbn [node y_a y_b y_l y_kill]. rewrite (d_p _ _ _ _ DA), (d_p _ _ _ _ DB). destruct UPA, UPB.
    destruct UA as [(X & _)|(_ & ->)]; [congruence|]. destruct UB as [(X & _)|(_ & ->)]; [congruence|]. auto 9.
Qed.

Lemma stay y u v e y' o : inv z ab y u v -> y_l y = [] -> allowed e -> is_retry e = false -> pstep e y = Some (y', o) -> y_l y' = [].
Proof.
  intros I YL AL RT E. inversion I as [a b DA DB PA0 PB0 QA QB UA UB| | | | | ]; subst; try discriminate YL. destruct e as [n t|n g|n|n c g|n c|n p g|n p|l|l|l f|n c].
  - apply (api_harm _ _ _ _ AL) in E as (HT & E). loc E s1 o1. destruct n; [destruct (ben_post _ _ _ _ _ _ _ DB E HT) as (_ & _ & _ & _ & -> & _)|destruct (ben_post _ _ _ _ _ _ _ DA E HT) as (_ & _ & _ & _ & -> & _)]; reflexivity.
  - cbn [pstep] in E. loc E s1 o1. destruct n; [destruct (ben_disp _ _ _ _ _ _ _ _ DB eq_refl QB E) as (_ & _ & _ & _ & O & _)|destruct (ben_disp _ _ _ _ _ _ _ _ DA eq_refl QA E) as (_ & _ & _ & _ & O & _)]; rewrite route_quiet by exact O; reflexivity.
  - cbn [pstep] in E. loc E s1 o1. destruct n; [destruct (user_nil _ _ _ _ _ _ DB UB E)|destruct (user_nil _ _ _ _ _ _ DA UA E)].
  - cbn [pstep] in E. loc E s1 o1. destruct n; [destruct (no_setup _ _ _ _ _ _ _ DB E)|destruct (no_setup _ _ _ _ _ _ _ DA E)].
  - cbn [pstep] in E. loc E s1 o1. destruct n; [destruct (nd_tear _ _ _ _ _ _ _ DB ltac:(discriminate) E)|destruct (nd_tear _ _ _ _ _ _ _ DA ltac:(discriminate) E)].
  - discriminate RT.
  - cbn [pstep] in E. loc E s1 o1. destruct n; [destruct (no_beat _ _ _ _ _ _ _ DB eq_refl E)|destruct (no_beat _ _ _ _ _ _ _ DA eq_refl E)].
  - cbn in E. destruct l; discriminate E.
  - destruct AL.
  - cbn in E. destruct l; discriminate E.
  - cbn in E. discriminate E.
Qed.

Definition room (y : sys) : nat := match y_l y with [] => 1 | _ => 0 end.
Lemma run_inv es : forall y u v y' o, inv z ab y u v -> Forall allowed es -> length (filter is_retry es) <= room y -> prun es y = Some (y', o) ->
  inv z ab y' (u + ups false o) (v + ups true o) /\ existsb (fun x => bad (snd x)) o = false /\ (Forall (fun e => starts e = false) es -> length es + wt y' <= wt y).
Proof.
  unfold room. induction es as [|e es IH]; intros y u v y' o I F R E; cbn [prun] in E.
  - injection E as <- <-. unfold ups; cbn. rewrite <- !plus_n_O. auto.
  - destruct (pstep e y) as [(y1 & o1)|] eqn:E1; [|discriminate]. destruct (prun es y1) as [(y2 & o2)|] eqn:E2; [|discriminate]. injection E as <- <-. inversion_clear F as [|? ? Fe Fs]. cbn [filter] in R.
    destruct (step_inv y u v e y1 o1 I Fe) as (I1 & B1 & W1); [|exact E1|].
    { intros X. rewrite X in R. cbn in R. destruct (y_l y); [reflexivity|lia]. }
    assert (R1 : length (filter is_retry es) <= match y_l y1 with [] => 1 | _ => 0 end).
    { destruct (is_retry e) eqn:X; cbn in R; destruct (y_l y) eqn:YL; destruct (y_l y1) eqn:YL1; try lia. exfalso. rewrite (stay y u v e y1 o1 I YL Fe X E1) in YL1. discriminate YL1. }
    destruct (IH y1 _ _ _ _ I1 Fs R1 E2) as (I2 & B2 & W2). split; [|split].
    + unfold ups in *. rewrite !filter_app, !app_length. rewrite !Nat.add_assoc. exact I2.
    + rewrite existsb_app, B1, B2. reflexivity.
    + intros S. inversion_clear S as [|? ? Se Ss]. specialize (W1 Se). specialize (W2 Ss). cbn [length]. lia.
Qed.
End Steps.

(** ** From the beginning *)
Lemma start z sb : z <> 0%Z -> exists y o, prun (prepare z sb) sys0 = Some (y, o) /\ inv z (if sb then 1%N else 0%N) y 0 0 /\ y_l y = [] /\ existsb (fun x => bad (snd x)) o = false /\ ups false o = 0 /\ ups true o = 0.
Proof.
  intros Z. destruct sb; (destruct z as [|p|p]; [destruct (Z eq_refl)|..]); (eexists; eexists; split; [cbv; reflexivity|]; split; [|split; [reflexivity|split; [reflexivity|split; reflexivity]]]).
  all: constructor; try reflexivity; try (constructor; fail).
  all: constructor; try reflexivity; try (intros ? [=]); try (split; reflexivity).
  all: intros [|q] N; [destruct N; reflexivity|reflexivity].
Qed.

Lemma len_route n o : forall y, length (y_l y) <= length (y_l (fold_left (fun y x => route n x y) o y)).
Proof.
  induction o as [|x o IH]; intros y; cbn [fold_left]; [lia|]. eapply Nat.le_trans; [|apply IH]. destruct x; cbn; rewrite ?map_length; try lia. destruct (_ =? _)%N; cbn; rewrite ?app_length; lia.
Qed.
Lemma len_local n e y y' o : local n e y = Some (y', o) -> length (y_l y) <= length (y_l y').
Proof. intros E. apply local_inv in E as (s & o1 & _ & -> & _). eapply Nat.le_trans; [|apply len_route]. destruct n; cbn; lia. Qed.
Lemma len_set {B} (l : list B) i v x : nth_error l i = Some x -> length (set_nth i v l) = length l.
Proof.
  intros H. assert (L : i < length l) by (apply nth_error_Some; congruence). unfold set_nth. rewrite app_length, firstn_length. cbn [length]. rewrite skipn_length. lia.
Qed.
Lemma len_step e y y' o : pstep e y = Some (y', o) -> length (y_l y) <= length (y_l y').
Proof.
  destruct e as [n t|n g|n|n c g|n c|n p g|n p|i|i|i f|n c]; cbn [pstep]; intros E; try (eapply len_local; eassumption).
  - destruct (user_call t); [|discriminate]. eapply len_local; eassumption.
  - destruct (nth_error (y_l y) i) as [[by_ c [d|] f b]|] eqn:N; try discriminate. destruct (k_term _); [discriminate|]. destruct (local _ _ _) as [(y1 & o1)|] eqn:L; [|discriminate]. injection E as <- <-.
    apply len_local in L. cbn. unfold set_nth. rewrite app_length, firstn_length. cbn [length]. rewrite skipn_length. assert (i < length (y_l y)) by (apply nth_error_Some; congruence). lia.
  - destruct (nth_error (y_l y) i) as [[by_ c [d|] f b]|] eqn:N; try discriminate. destruct (k_set _); [discriminate|]. eapply len_local; eassumption.
  - destruct (nth_error (y_l y) i) as [[by_ c [d|] f' b]|] eqn:N; try discriminate. destruct f; [destruct f' as [|m f']; [discriminate|]|destruct b as [|m b]; [discriminate|]]; apply len_local in E; cbn [w_l y_l] in E; rewrite (len_set _ _ _ _ N) in E; exact E.
  - destruct (existsb _ _ || _); [|discriminate]. eapply len_local; eassumption.
Qed.
Lemma len_run es : forall y y' o, prun es y = Some (y', o) -> length (y_l y) <= length (y_l y').
Proof.
  induction es as [|e es IH]; intros y y' o E; cbn [prun] in E; [injection E as <- <-; lia|]. destruct (pstep e y) as [(y1 & o1)|] eqn:E1; [|discriminate]. destruct (prun es y1) as [(y2 & o2)|] eqn:E2; [|discriminate]. injection E as <- <-.
  apply len_step in E1. apply IH in E2. lia.
Qed.
Lemma retry_dials z ab y u v e y' o : inv z ab y u v -> y_l y = [] -> allowed e -> is_retry e = true -> pstep e y = Some (y', o) -> y_l y' <> [].
Proof.
  intros I YL AL RT E. inversion I as [a b DA DB PA0 PB0 QA QB UA UB| | | | | ]; subst; try discriminate YL. destruct e as [| | | | |n p g| | | | |]; try discriminate RT. cbn [pstep] in E. loc E s1 o1. destruct AL as (G1 & G2). destruct n.
  - cbn [node y_b] in E. unfold step in E. rewrite (d_h _ _ _ _ DB) in E. destruct (Nat.eq_dec p 0) as [->|N]; [rewrite (d_p _ _ _ _ DB) in E; discriminate E|rewrite (d_d _ _ _ _ DB p N) in E; discriminate E].
  - destruct (nd_retry _ _ _ _ _ _ DA PA0 G1 G2 E) as (_ & _ & _ & _ & ->). discriminate.
Qed.
Lemma run_dials z ab es : forall y u v y' o, inv z ab y u v -> Forall allowed es -> length (filter is_retry es) <= room y -> prun es y = Some (y', o) -> y_l y' = [] <-> y_l y = [] /\ existsb is_retry es = false.
Proof.
  induction es as [|e es IH]; intros y u v y' o I F R E; cbn [prun] in E; [injection E as <- <-; cbn; tauto|].
  destruct (pstep e y) as [(y1 & o1)|] eqn:E1; [|discriminate]. destruct (prun es y1) as [(y2 & o2)|] eqn:E2; [|discriminate]. injection E as <- <-. inversion_clear F as [|? ? Fe Fs]. cbn [filter existsb] in *. unfold room in *.
  destruct (step_inv z ab y u v e y1 o1 I Fe) as (I1 & _ & _); [|exact E1|].
  { intros X. rewrite X in R. cbn in R. destruct (y_l y); [reflexivity|lia]. }
  destruct (y_l y) as [|l0 ls] eqn:YL.
  - destruct (is_retry e) eqn:X.
    + pose proof (retry_dials _ _ _ _ _ _ _ _ I YL Fe X E1) as NE. apply len_run in E2. split; [|intros (_ & H); discriminate H]. intros H. rewrite H in E2. cbn in E2. destruct (y_l y1); [destruct NE; reflexivity|cbn in E2; lia].
    + pose proof (stay _ _ _ _ _ _ _ _ I YL Fe X E1) as YL1. cbn [orb]. rewrite (IH y1 _ _ y2 o2 I1 Fs ltac:(rewrite YL1; exact R) E2), YL1. reflexivity.
  - apply len_run in E2. apply len_step in E1. rewrite YL in E1. cbn in E1. split; [|intros (H & _); discriminate H]. intros H. rewrite H in E2. cbn in E2. lia.
Qed.

(** ** The theorems *)

(** A state that comes after [prepare], events es, with what was seen. *)
Definition after (z : Z) (sb : bool) (es : list pev) (y : sys) (o : list (bool * obs)) : Prop :=
  z <> 0%Z /\ Forall allowed es /\ length (filter is_retry es) <= 1 /\ prun (prepare z sb ++ es) sys0 = Some (y, o).

Lemma prun_app es fs : forall y y2 o2, prun (es ++ fs) y = Some (y2, o2) -> exists y1 o1 o3, prun es y = Some (y1, o1) /\ prun fs y1 = Some (y2, o3) /\ o2 = o1 ++ o3.
Proof.
  induction es as [|e es IH]; intros y y2 o2 E; [exists y, [], o2; auto|]. cbn [prun app] in *. destruct (pstep e y) as [(y1 & o1)|]; [|discriminate]. destruct (prun (es ++ fs) y1) as [(y3 & o3)|] eqn:E2; [|discriminate]. injection E as <- <-.
  destruct (IH _ _ _ E2) as (y4 & o4 & o5 & E4 & E5 & ->). exists y4, (o1 ++ o4), o5. rewrite E4. split; [reflexivity|]. split; [exact E5|]. rewrite app_assoc. reflexivity.
Qed.
Lemma after_inv z sb es y o : after z sb es y o -> inv z (if sb then 1 else 0)%N y (ups false o) (ups true o) /\ existsb (fun x => bad (snd x)) o = false /\ (y_l y = [] <-> existsb is_retry es = false).
Proof.
  intros (Z & F & R & E). apply prun_app in E as (y1 & o1 & o3 & E1 & E2 & ->). destruct (start z sb Z) as (y0 & o0 & E0 & I & YL & B & U & V). rewrite E0 in E1. injection E1 as <- <-.
  assert (R0 : length (filter is_retry es) <= room y0) by (unfold room; rewrite YL; exact R).
  destruct (run_inv _ _ es y0 0 0 y o3 I F R0 E2) as (I' & B' & _). pose proof (run_dials _ _ es y0 0 0 y o3 I F R0 E2) as RD.
  split; [|split; [rewrite existsb_app, B, B'; reflexivity|rewrite YL in RD; tauto]]. unfold ups in *. rewrite !filter_app, !app_length, U, V. exact I'.
Qed.
Lemma inv_ups z ab y u v : inv z ab y u v -> u <= 1 /\ v <= 1.
Proof. intros I. inversion I; subst; unfold said in *; intuition lia. Qed.

(** C132: never anything bad; at most one callback at either node; and once the
    dial has been made and there is nothing more to do, both are connected by
    the connection dialled, both have said so once, and nothing else remains. *)
Theorem C132_connected : forall z sb es y o, after z sb es y o ->
  existsb (fun x => bad (snd x)) o = false /\ ups false o <= 1 /\ ups true o <= 1 /\
  (existsb is_retry es = true -> settled y = true ->
   connected false y /\ connected true y /\ y_l y = [mkLink false 1 (Some 1) [] []] /\ ups false o = 1 /\ ups true o = 1).
Proof.
  intros z sb es y o A. destruct (after_inv _ _ _ _ _ A) as (I & B & D). destruct (inv_ups _ _ _ _ _ I) as (U & V). split; [exact B|]. split; [exact U|]. split; [exact V|]. intros R S.
  destruct (settled_joined _ _ _ _ _ I S) as (C1 & C2 & L & _ & U1 & V1); [|auto]. intros H. apply D in H. congruence.
Qed.

(** C132: until then there is something to do that is not the beginning of
    something else; and as long as no dial was made, the timer that makes it runs. *)
Theorem C132_progress : forall z sb es y o, after z sb es y o ->
  (settled y = true \/ exists e r, allowed e /\ starts e = false /\ pstep e y = Some r) /\
  (existsb is_retry es = false -> forall g, exists r, pstep (PRetry false 0 g) y = Some r).
Proof.
  intros z sb es y o A. destruct (after_inv _ _ _ _ _ A) as (I & _ & D). split.
  - destruct (progress _ _ _ _ _ I) as [(e & r & (AL & ST) & E)|(S & _)]; [right; exists e, r; auto|left; exact S].
  - intros R g. apply D in R. inversion I as [a b DA DB PA0 PB0 QA QB UA UB| | | | | ]; subst; try discriminate R. cbn [pstep]. unfold local, step. cbn [node y_a]. rewrite (d_h _ _ _ _ DA), (d_p _ _ _ _ DA). cbn [p_live p_timer p_ton PA andb].
    destruct (start_active_conn g 0 _) as [r|]; [|eexists; reflexivity]. destruct (seq r _) as (s' & o'). eexists. reflexivity.
Qed.

(** C132: and what there is to do comes to an end. *)
Theorem C132_ends : forall z sb es y o, after z sb es y o -> exists N, forall es' y' o',
  Forall (fun e => allowed e /\ starts e = false) es' -> prun es' y = Some (y', o') -> length es' <= N.
Proof.
  intros z sb es y o A. destruct (after_inv _ _ _ _ _ A) as (I & _ & _). exists (wt y). intros es' y' o' F E.
  assert (R : filter is_retry es' = []) by (clear - F; induction F as [|e l (H & H') _ IH]; [reflexivity|]; cbn; destruct e; cbn in *; auto; discriminate H').
  destruct (run_inv _ _ es' y _ _ y' o' I) as (_ & _ & W); [eapply Forall_impl; [|exact F]; cbn; tauto|rewrite R; cbn; lia|exact E|].
  specialize (W ltac:(eapply Forall_impl; [|exact F]; cbn; tauto)). lia.
Qed.

(** C132: so it can always be brought to an end, and is then connected. *)
Corollary C132_comes : forall z sb es y o, after z sb es y o -> existsb is_retry es = true ->
  exists es' y' o', Forall (fun e => allowed e /\ starts e = false) es' /\ prun es' y = Some (y', o') /\ settled y' = true /\ connected false y' /\ connected true y'.
Proof.
  intros z sb es y o A R. destruct (after_inv _ _ _ _ _ A) as (I & _ & D). assert (L : y_l y <> []) by (intros H; apply D in H; congruence). clear A R D.
  generalize dependent (ups true o). generalize dependent (ups false o). clear o. remember (wt y) as w eqn:W. revert y W L. induction w as [w IH] using lt_wf_ind. intros y -> L u v I.
  destruct (progress _ _ _ _ _ I) as [(e & (y1 & o1) & (AL & ST) & E)|(S & _)].
  - destruct (step_inv _ _ y u v e y1 o1 I AL) as (I1 & _ & W1); [intros X; destruct e; discriminate|exact E|]. specialize (W1 ST).
    assert (L1 : y_l y1 <> []) by (apply len_step in E; intros H; rewrite H in E; destruct (y_l y); [destruct L; reflexivity|cbn in E; lia]).
    destruct (IH _ W1 y1 eq_refl L1 _ _ I1) as (es' & y' & o' & F & E' & S & C). exists (e :: es'), y', (o1 ++ o'). split; [constructor; [split; assumption|exact F]|]. cbn [prun]. rewrite E, E'. auto.
  - destruct (settled_joined _ _ _ _ _ I S L) as (C1 & C2 & _). exists [], y, []. auto 6.
Qed.

(** A whole run, with messages of the user's and a heartbeat. *)
Example C132_nonvacuous : exists y o,
  after 5%Z true [PApi false (TSend 7 2%N 42%N); PRetry false 0 g1; PSetup false 1 g1; PDisp false g1; PAccept 0; PSetup true 1 g1; PGet 0 true; PApi true (THas 1%N); PDisp true g1; PDisp true g1;
    PUser true; PGet 0 false; PBeat true 0; PDisp false g1; PGet 0 false; PUser false; PGet 0 true; PDisp true g1; PDisp false g1; PGet 0 true; PDisp true g1; PGet 0 false; PDisp false g1;
    PGet 0 false; PDisp false g1; PGet 0 true; PDisp true g1] y o /\ settled y = true /\ ups false o = 1 /\ ups true o = 1 /\ connected false y.
Proof.
  eexists; eexists. split; [split; [discriminate|]; split; [|split; [vm_compute; repeat constructor|vm_compute; reflexivity]]|split; [vm_compute; reflexivity|split; [vm_compute; reflexivity|split; [vm_compute; reflexivity|split; vm_compute; reflexivity]]]].
  repeat constructor; try exact I; try (exists 0%N; split; reflexivity).
Qed.
Print Assumptions C132_connected.
Print Assumptions C132_progress.
Print Assumptions C132_ends.
Print Assumptions C132_comes.

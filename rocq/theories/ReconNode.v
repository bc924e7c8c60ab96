(** The steps of a node that dials or waits (PeerModel.v), for ReconProps.v. *)
From Coq Require Import Arith NArith ZArith List Bool Lia.
From Verif Require Import PeerModel PeerPair DialProps ReconSpec.
Import ListNotations.

(** ** Nodes *)
Record base (i : pid) (s : st) : Prop := {
  z_h : s_halt s = false; z_np : s_np s = 1; z_kn : s_known s = [(i, 0)];
  z_d : forall p, p <> 0 -> p_live (s_peer s p) = false; z_l : p_live (s_peer s 0) = true;
  z_nc : 1 <= s_nc s; z_0 : k_term (s_conn s 0) = true; z_1 : k_torn (s_conn s 0) = true }.

(** The state after a step. *)
Record now (i : pid) (s' : st) (P : peer) (k : nat -> conn) (nc : nat) (q : list dtask) (u : list utask) (pe : list (addr * nat)) : Prop := {
  n_b : base i s'; n_p : s_peer s' 0 = P; n_k : forall c, s_conn s' c = k c; n_nc : s_nc s' = nc; n_q : s_q s' = q; n_u : s_uq s' = u; n_pe : s_pend s' = pe }.

(** Observations that do something to the network. *)
Definition acts (x : obs) : bool := match x with OPing _ _ | OPong _ _ | ODial _ _ _ | OKill _ => true | _ => false end.
Definition eff (o : list obs) : list obs := filter acts o.

Ltac dead := let p := fresh in let N := fresh in let Z := fresh in intros p N; cbn; unfold upd; repeat match goal with |- context [?a =? ?b] => destruct (Nat.eqb_spec a b); try lia end; cbn; auto.
Ltac bs := constructor; cbn; unfold upd; cbn; auto; try dead.
Ltac nw := constructor; [bs|cbn; unfold upd; cbn; auto; try congruence ..].

Section Node.
Variable i : pid.
Variable s s' : st.
Variable o : list obs.
Hypothesis B : base i s.
Let P := s_peer s 0.

Lemma n_post t : step hash2 (EPost t) s = Some (s', o) -> now i s' P (s_conn s) (s_nc s) (s_q s ++ [t]) (s_uq s) (s_pend s) /\ o = [] /\ postable s t = true.
Proof. destruct B. unfold step. rewrite z_h0. destruct (postable s t); [|discriminate]. intros [= <- <-]. split; [nw|auto]. Qed.
Lemma n_term c : step hash2 (ETerm c) s = Some (s', o) -> let k := s_conn s c in
  now i s' P (upd (s_conn s) c (k_flags true (k_set k) (k_torn k) k)) (s_nc s) (s_q s) (s_uq s) (s_pend s) /\ o = [] /\ 1 <= c < s_nc s /\ k_term k = false.
Proof.
  destruct B. unfold step. rewrite z_h0. destruct ((c <? s_nc s) && negb (k_term (s_conn s c))) eqn:L; [|discriminate]. apply andb_true_iff in L as (L1 & L2). apply Nat.ltb_lt in L1. apply negb_true_iff in L2. intros [= <- <-].
  destruct c as [|c]; [congruence|]. split; [|split; [reflexivity|split; [lia|exact L2]]]. nw.
Qed.
Lemma n_user : step hash2 EUser s = Some (s', o) ->
  (exists p c b u, s_uq s = UCb p c b :: u /\ now i s' P (s_conn s) (s_nc s) (s_q s) u (s_pend s) /\ o = [OCb p c b]) \/
  (exists p c a n x u, s_uq s = UPre p c a n x :: u /\ now i s' P (s_conn s) (s_nc s) (s_q s ++ [TPing x a n]) u (s_pend s) /\ o = [OCb p c false]) \/
  (exists a c u, s_uq s = UUnknown a c :: u).
Proof.
  destruct B. unfold step. rewrite z_h0. destruct (s_uq s) as [|[p c b|p c a n x|a c] u]; [discriminate| | |]; intros [= <- <-].
  - left. exists p, c, b, u. split; [reflexivity|]. split; [nw|reflexivity].
  - right; left. exists p, c, a, n, x, u. split; [reflexivity|]. split; [nw|reflexivity].
  - right; right. exists a, c, u. reflexivity.
Qed.

Lemma n_harm t q g c : s_q s = t :: q -> harm t -> p_conn P = Some c -> step hash2 (EDisp g) s = Some (s', o) ->
  now i s' P (s_conn s) (s_nc s) q (s_uq s) (s_pend s) /\ eff o = [] /\ Forall fine o.
Proof.
  intros Q HT PC E. unfold P in *. destruct B. unfold step in E. rewrite z_h0, Q in E. destruct t; try destruct HT; cbn in E; try rewrite z_kn0 in E.
  - injection E as <- <-. split; [nw|]. split; [reflexivity|repeat constructor].
  - destruct (find_by i0 [(i, 0)]); injection E as <- <-; (split; [nw|]; split; [reflexivity|repeat constructor]).
  - destruct (find_by i0 [(i, 0)]) as [p|] eqn:F; [|injection E as <- <-; split; [nw|]; split; [reflexivity|repeat constructor]].
    assert (p = 0) as -> by (unfold find_by in F; cbn in F; destruct (i =? i0)%N; [injection F as <-; reflexivity|discriminate F]). cbn [s_peer] in E. rewrite PC in E.
    injection E as <- <-. split; [nw|]. destruct (g_write g c); (split; [reflexivity|repeat constructor]).
Qed.

(** Heartbeats. *)
Lemma n_hbping c n q g : s_q s = TPing (Some c) 0%N n :: q -> step hash2 (EDisp g) s = Some (s', o) ->
  now i s' P (s_conn s) (s_nc s) q (s_uq s) (s_pend s) /\ eff o = (if k_term (s_conn s c) then [] else [OPong c None]) /\ Forall fine o.
Proof.
  intros Q E. destruct B. unfold step in E. rewrite z_h0, Q in E. cbn [task ping_task w_q s_conn] in E. destruct (k_term (s_conn s c)); cbn in E; injection E as <- <-; (split; [nw|]; split; [reflexivity|repeat constructor]).
Qed.
(** The peer may have changed in what concerns heartbeats. *)
Definition beat (P P' : peer) : Prop := P' = P \/ exists g t m, P' = p_sethb g (Some t) (Some m) P.
Lemma n_hbpong c n q g : s_q s = TPong c 0%N n :: q -> (k_peer (s_conn s c) = None \/ k_peer (s_conn s c) = Some 0) -> p_ptok P <> None -> p_chosen P <> None -> step hash2 (EDisp g) s = Some (s', o) ->
  exists P' e, beat P P' /\ now i s' P' (s_conn s) (s_nc s) q (s_uq s) (s_pend s) /\ eff o = e /\ (e = [] \/ exists ch, e = [OPing ch None]) /\ Forall fine o.
Proof.
  intros Q KP PT CH E. unfold P in *. pose proof B as B0. destruct B. unfold step in E. rewrite z_h0, Q in E. cbn [task pong_task w_q s_conn N.eqb s_peer] in E. unfold pong_task in E. cbn [w_q s_conn N.eqb s_peer] in E.
  destruct (k_term (s_conn s c)); [cbn in E; injection E as <- <-; exists (s_peer s 0), []; split; [left; reflexivity|]; split; [nw|]; split; [reflexivity|split; [auto|repeat constructor]]|].
  cbn in E. destruct KP as [KP|KP]; rewrite KP in E; [cbn in E; injection E as <- <-; exists (s_peer s 0), []; split; [left; reflexivity|]; split; [nw|]; split; [reflexivity|split; [auto|repeat constructor]]|].
  rewrite z_l0 in E. cbn in E. destruct (p_ptok (s_peer s 0)) as [[|]|] eqn:PK; [| |congruence].
  - unfold send_ping in E. cbn in E. destruct (p_chosen (s_peer s 0)) as [ch|]; [|congruence]. injection E as <- <-. exists (p_sethb true (Some false) (Some false) (s_peer s 0)), [OPing ch None]. split; [right; do 3 eexists; reflexivity|].
    split; [nw|]. split; [reflexivity|]. split; [eauto|repeat constructor].
  - cbn in E. injection E as <- <-. exists (p_sethb (p_ping (s_peer s 0)) (Some false) (Some true) (s_peer s 0)), []. split; [right; do 3 eexists; reflexivity|]. split; [nw; rewrite <- PK; reflexivity|]. split; [reflexivity|]. split; [auto|repeat constructor].
Qed.
Lemma n_beat p : step hash2 (EPingT p) s = Some (s', o) -> (p_ping P = true -> p_pmok P <> None /\ p_chosen P <> None) ->
  exists P' e, beat P P' /\ now i s' P' (s_conn s) (s_nc s) (s_q s) (s_uq s) (s_pend s) /\ eff o = e /\ (e = [] \/ exists ch, e = [OPing ch None]) /\ Forall fine o /\ p_ping P = true.
Proof.
  intros E PM. unfold P in *. pose proof B as B0. destruct B. unfold step in E. rewrite z_h0 in E. destruct (p_live (s_peer s p) && p_ping (s_peer s p)) eqn:L; [|discriminate]. apply andb_true_iff in L as (L1 & L2).
  destruct (Nat.eq_dec p 0) as [->|N]; [|rewrite (z_d0 p N) in L1; discriminate]. destruct (PM L2) as (PK & CH). cbn in E. rewrite ?L1, ?L2 in E. cbn in E. destruct (p_pmok (s_peer s 0)) as [[|]|] eqn:PX; [| |congruence].
  - unfold send_ping in E. cbn in E. destruct (p_chosen (s_peer s 0)) as [ch|]; [|congruence]. injection E as <- <-. exists (p_sethb true (Some false) (Some false) (s_peer s 0)), [OPing ch None]. split; [right; do 3 eexists; reflexivity|].
    split; [nw|]. split; [reflexivity|]. split; [eauto|split; [repeat constructor|exact L2]].
  - cbn in E. injection E as <- <-. exists (p_sethb false (Some true) (Some false) (s_peer s 0)), []. split; [right; do 3 eexists; reflexivity|]. split; [nw; rewrite <- PX; reflexivity|]. split; [reflexivity|]. split; [auto|split; [repeat constructor|exact L2]].
Qed.
End Node.

(** A finished handshake. *)
Definition done (c : nat) (P : peer) : peer :=
  mkPeer (p_live P) (p_id P) (p_addr P) (p_nonce P) (Some c) (p_ntry P) (p_ntry P) (p_timer P) false (Some c) None None true (Some false) (Some false) (p_pre P) Connected.
Definition clr (x : option nat) (k : nat -> conn) : nat -> conn := match x with Some c => upd k c (k_setpeer None (k c)) | None => k end.
Definition own (c : nat) (k : nat -> conn) : nat -> conn := upd k c (k_setpeer (Some 0) (k c)).
Definition shake (c : nat) (P : peer) (k : nat -> conn) : nat -> conn := own c (clr (p_conn P) (clr (p_out P) k)).

(** Everything but the peer of a connection is as before. *)
Definition alike (k k' : conn) : Prop := k_mode k' = k_mode k /\ k_addr k' = k_addr k /\ k_cert k' = k_cert k /\ k_manual k' = k_manual k /\ k_term k' = k_term k /\ k_set k' = k_set k /\ k_torn k' = k_torn k.
Lemma alike_refl k : alike k k.
Proof. repeat split. Qed.
Lemma clr_alike x k c : alike (k c) (clr x k c).
Proof. destruct x as [d|]; [|apply alike_refl]. cbn. unfold upd. destruct (Nat.eqb_spec c d) as [->|_]; repeat split. Qed.
Lemma own_alike x k c : alike (k c) (own x k c).
Proof. unfold own, upd. destruct (Nat.eqb_spec c x) as [->|_]; repeat split. Qed.
Lemma alike_trans a b c : alike a b -> alike b c -> alike a c.
Proof. unfold alike. intuition congruence. Qed.
Lemma shake_alike c P k x : alike (k x) (shake c P k x).
Proof. unfold shake. eapply alike_trans; [|apply own_alike]. eapply alike_trans; [|apply clr_alike]. apply clr_alike. Qed.

Lemma fin i s c x : base i s -> p_chosen (s_peer s 0) = Some c -> p_conn (s_peer s 0) = Some x -> exists s' o, finish_handshake 0 s = (s', o) /\
  now i s' (done c (s_peer s 0)) (shake c (s_peer s 0) (s_conn s)) (s_nc s) (s_q s) (s_uq s ++ [UCb 0 c true]) (drop_by (k_addr (s_conn s c)) (s_pend s)) /\ eff o = [OPing c None] /\ Forall fine o.
Proof.
  intros B CH PC. destruct B as [H1 H2 H3 H4 H5 H6 H7 H8]. unfold finish_handshake, check. cbn [seq]. rewrite H1.
  set (s1 := onp 0 (fun x => p_sethb false (p_ptok x) (p_pmok x) x) s).
  assert (E1 : p_out (s_peer s1 0) = p_out (s_peer s 0)) by reflexivity. rewrite E1.
  set (s2 := clear_peer_of (p_out (s_peer s 0)) s1).
  assert (P2 : s_peer s2 0 = p_sethb false (p_ptok (s_peer s 0)) (p_pmok (s_peer s 0)) (s_peer s 0)) by (unfold s2; destruct (p_out (s_peer s 0)); reflexivity).
  assert (D2 : forall p, p <> 0 -> s_peer s2 p = s_peer s p) by (intros [|p] N; [lia|]; unfold s2; destruct (p_out (s_peer s 0)); reflexivity).
  assert (K2 : s_conn s2 = clr (p_out (s_peer s 0)) (s_conn s)) by (unfold s2; destruct (p_out (s_peer s 0)); reflexivity).
  assert (R2 : s_halt s2 = false /\ s_np s2 = 1 /\ s_known s2 = [(i, 0)] /\ s_nc s2 = s_nc s /\ s_q s2 = s_q s /\ s_uq s2 = s_uq s /\ s_pend s2 = s_pend s) by (unfold s2; destruct (p_out (s_peer s 0)); cbn; auto 9).
  clearbody s2. destruct R2 as (R1 & R2 & R3 & R4 & R5 & R6 & R7).
  unfold send_ping, reset_ping_timer, onp, w_peer, upd, onc, w_conn, upost, w_uq, w_pend, say, seq. repeat (progress (cbn; rewrite ?R1, ?P2, ?CH, ?PC)).
  eexists. eexists. split; [reflexivity|]. split.
  - assert (AL := fun y => shake_alike c (s_peer s 0) (s_conn s) y).
    assert (KK : forall y, (if y =? c then k_setpeer (Some 0) (if c =? x then k_setpeer None (s_conn s2 x) else s_conn s2 c) else if y =? x then k_setpeer None (s_conn s2 x) else s_conn s2 y) = shake c (s_peer s 0) (s_conn s) y).
    { intros y. rewrite K2. unfold shake, own. rewrite PC. cbn [clr]. unfold upd. reflexivity. }
    constructor.
    + constructor; cbn; unfold upd; cbn; auto; try (intros p N; destruct (Nat.eqb_spec p 0); [lia|]; rewrite (D2 p n); auto).
      * rewrite R4. exact H6.
      * destruct (AL 0) as (_ & _ & _ & _ & A & _). rewrite <- (KK 0) in A. cbn in A. congruence.
      * destruct (AL 0) as (_ & _ & _ & _ & _ & _ & A). rewrite <- (KK 0) in A. cbn in A. congruence.
    + cbn. rewrite ?P2. cbn. unfold done. rewrite ?CH. reflexivity.
    + intros y. cbn. unfold upd. apply KK.
    + exact R4.
    + exact R5.
    + cbn. rewrite R6. reflexivity.
    + cbn. rewrite R7. destruct (AL c) as (_ & A & _). rewrite <- (KK c), !Nat.eqb_refl in A. unfold upd. rewrite ?Nat.eqb_refl. unfold drop_by. rewrite <- A. reflexivity.
  - split.
    + unfold eff. destruct (p_state (s_peer s 0)), (k_term (s_conn s2 x)); reflexivity.
    + destruct (p_state (s_peer s 0)), (k_term (s_conn s2 x)); repeat constructor.
Qed.

(** A connection is torn down. *)
Definition fell (P : peer) : peer :=
  match p_state P with Disconnected => P | _ => p_sethb false (p_ptok P) (p_pmok P) (p_setlinks (p_chosen P) (p_in P) None (p_setstate Disconnected P)) end.
Definition ended (P : peer) : peer :=
  let Q := fell P in
  match p_pre P with
  | Some _ => p_setlinks (p_chosen Q) None (p_out Q) (p_setpre None Q)
  | None => let R := p_settry (p_ntry Q) (p_cur Q) (p_setlinks (p_chosen Q) None (p_out Q) Q) in
            if (p_cur P =? 0)%Z then p_setnonce passive_nonce R else p_settimer true true (p_setnonce 0%N R)
  end.
Definition news (c : nat) (P : peer) : utask := match p_pre P with Some (a, n) => UPre 0 c a n (p_in P) | None => UCb 0 c false end.

Section Node2.
Variable i : pid.
Variable s s' : st.
Variable o : list obs.
Hypothesis B : base i s.
Let P := s_peer s 0.
Let k := s_conn s.

Lemma n_tear c x : step hash2 (ETear c) s = Some (s', o) -> (k_mode (k c) = Passive \/ k_manual (k c) = false) -> p_conn P = Some x -> (k_peer (k c) = None \/ k_peer (k c) = Some 0) ->
  (0 <? p_cur P)%Z = false -> (p_cur P <> 0%Z -> p_timer P = true) ->
  1 <= c < s_nc s /\ k_term (k c) = true /\ k_torn (k c) = false /\ eff o = [] /\ Forall fine o /\
  let k' := upd k c (k_flags true (k_set (k c)) true (k c)) in
  (k_peer (k c) = None /\ now i s' P k' (s_nc s) (s_q s) (s_uq s) (drop_by (k_addr (k c)) (s_pend s)) \/
   k_peer (k c) = Some 0 /\ now i s' (ended P) k' (s_nc s) (s_q s) (s_uq s ++ [news c P]) (drop_by (k_addr (k c)) (s_pend s))).
Proof.
  intros E MM PC KP CU TM. unfold P, k in *. destruct B as [H1 H2 H3 H4 H5 H6 H7 H8]. unfold step in E. rewrite H1 in E.
  destruct ((c <? s_nc s) && k_term (s_conn s c) && negb (k_torn (s_conn s c))) eqn:L; [|discriminate]. apply andb_true_iff in L as (L & L3). apply andb_true_iff in L as (L1 & L2). apply Nat.ltb_lt in L1. apply negb_true_iff in L3.
  assert (1 <= c) by (destruct c; [congruence|lia]). split; [lia|]. split; [exact L2|]. split; [exact L3|].
  unfold teardown in E. replace (s_conn (onc c (k_flags true (k_set (s_conn s c)) true) s) c) with (k_flags true (k_set (s_conn s c)) true (s_conn s c)) in E by (cbn; unfold upd; rewrite Nat.eqb_refl; reflexivity).
  cbn [k_peer k_mode k_manual k_flags k_addr] in E. destruct KP as [KP|KP]; rewrite KP in E.
  - injection E as <- <-. split; [reflexivity|]. split; [constructor|]. left. split; [exact KP|]. constructor; [constructor; cbn; auto; unfold upd; (destruct c; [lia|]; cbn; auto)|cbn; auto ..].
  - assert (MA : (match k_mode (s_conn s c) with Active => true | Passive => false end && k_manual (s_conn s c)) = false) by (destruct MM as [-> | ->]; [reflexivity|apply andb_false_r]). rewrite MA in E.
    set (s1 := w_pend (drop_by (k_addr (s_conn s c)) (s_pend (onc c (k_flags true (k_set (s_conn s c)) true) s))) (onc c (k_flags true (k_set (s_conn s c)) true) s)) in *.
    assert (B1 : base i s1 /\ s_peer s1 = s_peer s /\ s_conn s1 = upd (s_conn s) c (k_flags true (k_set (s_conn s c)) true (s_conn s c)) /\ s_nc s1 = s_nc s /\ s_q s1 = s_q s /\ s_uq s1 = s_uq s /\ s_pend s1 = drop_by (k_addr (s_conn s c)) (s_pend s))
      by (split; [constructor; cbn; auto; unfold upd; (destruct c; [lia|]; cbn; auto)|cbn; auto 9]).
    clearbody s1. destruct B1 as ([G1 G2 G3 G4 G5 G6 G7 G8] & J1 & J2 & J3 & J4 & J5 & J6).
    rewrite G5 in E. cbn [negb] in E.
    assert (X : exists s2 o2, (match p_state (s_peer s1 0) with
      | Disconnected => say [] s1
      | _ => check (oeq (p_conn (s_peer s1 0)) (Some c)) s1 ;; fun s =>
             match p_conn (s_peer s 0) with
             | None => ub Null s                                                                             (* 852: *(p->conn) *)
             | Some _ => say [] (onp 0 (fun x => p_sethb false (p_ptok x) (p_pmok x) (p_setlinks (p_chosen x) (p_in x) None (p_setstate Disconnected x))) s)
             end
      end) = (s2, o2) /\ now i s2 (fell (s_peer s 0)) (s_conn s1) (s_nc s) (s_q s) (s_uq s) (s_pend s1) /\ eff o2 = [] /\ Forall fine o2).
    { unfold fell. rewrite J1. destruct (p_state (s_peer s 0)).
      - exists s1, []. split; [reflexivity|]. split; [|split; [reflexivity|constructor]]. constructor; auto. constructor; auto. congruence.
      - unfold check, seq. rewrite G1, J1, PC. eexists. eexists. split; [reflexivity|]. split; [|split; [destruct (oeq (Some x) (Some c)); reflexivity|destruct (oeq (Some x) (Some c)); repeat constructor]]. nw; rewrite ?J1; auto.
      - unfold check, seq. rewrite G1, J1, PC. eexists. eexists. split; [reflexivity|]. split; [|split; [destruct (oeq (Some x) (Some c)); reflexivity|destruct (oeq (Some x) (Some c)); repeat constructor]]. nw; rewrite ?J1; auto. }
    destruct X as (s2 & o2 & X & [D1 D2 D3 D4 D5 D6 D7] & X2 & X3). rewrite X in E. unfold seq in E. destruct D1 as [F1 F2 F3 F4 F5 F6 F7 F8]. rewrite F1, D2 in E.
    assert (Z : p_pre (fell (s_peer s 0)) = p_pre (s_peer s 0) /\ p_in (fell (s_peer s 0)) = p_in (s_peer s 0) /\ p_cur (fell (s_peer s 0)) = p_cur (s_peer s 0) /\ p_timer (fell (s_peer s 0)) = p_timer (s_peer s 0)) by (unfold fell; destruct (p_state (s_peer s 0)); cbn; auto).
    destruct Z as (Z1 & Z2 & Z3 & Z4). unfold ended, news. rewrite Z1 in E. destruct (p_pre (s_peer s 0)) as [[a n]|].
    + unfold say in E. injection E as <- <-. rewrite app_nil_r. split; [exact X2|]. split; [exact X3|]. right. split; [exact KP|]. nw; rewrite ?D2; try congruence. intros y. rewrite D3, J2. reflexivity.
    + rewrite Z3, Z4, CU in E. rewrite Z3. destruct (Z.eqb_spec (p_cur (s_peer s 0)) 0).
      * unfold say in E. injection E as <- <-. rewrite app_nil_r. split; [exact X2|]. split; [exact X3|]. right. split; [exact KP|]. nw; rewrite ?D2; try congruence. intros y. rewrite D3, J2. reflexivity.
      * rewrite (TM n) in E. unfold say in E. injection E as <- <-. rewrite app_nil_r. split; [exact X2|]. split; [exact X3|]. right. split; [exact KP|]. nw; rewrite ?D2; try congruence. intros y. rewrite D3, J2. reflexivity.
Qed.

Lemma n_set c g : step hash2 (ESetup c g) s = Some (s', o) ->
  1 <= c < s_nc s /\ k_set (k c) = false /\ k_torn (k c) = false /\ (s', o) = setup hash2 g c (onc c (k_flags (k_term (k c)) true (k_torn (k c))) s).
Proof.
  unfold k. intros E. destruct B as [H1 H2 H3 H4 H5 H6 H7 H8]. unfold step in E. rewrite H1 in E. destruct ((c <? s_nc s) && negb (k_set (s_conn s c)) && negb (k_torn (s_conn s c))) eqn:L; [|discriminate].
  apply andb_true_iff in L as (L & L3). apply andb_true_iff in L as (L1 & L2). apply Nat.ltb_lt in L1. apply negb_true_iff in L3, L2. injection E as E. destruct c; [congruence|]. split; [lia|]. auto.
Qed.
Definition made (P : peer) (x : N) : N := if (p_nonce P =? 0)%N then (x mod 2 ^ 16 + 1)%N else p_nonce P.
Lemma same_nonce (Q : peer) : p_setnonce (p_nonce Q) Q = Q.
Proof. destruct Q; reflexivity. Qed.
Lemma n_nonce g x sx : g_rnd g = Some x -> exists s1, get_nonce g 0 sx = Some (s1, made (s_peer sx 0) x) /\ s_conn s1 = s_conn sx /\ s_nc s1 = s_nc sx /\ s_peer s1 0 = p_setnonce (made (s_peer sx 0) x) (s_peer sx 0) /\
  (forall p, p <> 0 -> s_peer s1 p = s_peer sx p) /\ s_np s1 = s_np sx /\ s_known s1 = s_known sx /\ s_pend s1 = s_pend sx /\ s_q s1 = s_q sx /\ s_uq s1 = s_uq sx /\ s_halt s1 = s_halt sx.
Proof.
  intros G. unfold get_nonce, made. rewrite G. destruct (p_nonce (s_peer sx 0) =? 0)%N eqn:Z.
  - eexists. split; [reflexivity|]. repeat split. intros [|p] N; [lia|reflexivity].
  - exists sx. split; [reflexivity|]. repeat split. symmetry. apply same_nonce.
Qed.
Lemma n_setA c g x : step hash2 (ESetup c g) s = Some (s', o) -> k_mode (k c) = Active -> k_cert (k c) = None -> k_addr (k c) = i -> g_rnd g = Some x ->
  1 <= c < s_nc s /\ k_set (k c) = false /\ k_torn (k c) = false /\ eff o = [OPing c (Some (made P x))] /\ Forall fine o /\
  now i s' (p_setnonce (made P x) P) (upd k c (k_flags (k_term (k c)) true (k_torn (k c)) (k c))) (s_nc s) (s_q s) (s_uq s) (s_pend s).
Proof.
  intros E M CE AD G. apply n_set in E as (L & L2 & L3 & E). split; [exact L|]. split; [exact L2|]. split; [exact L3|]. unfold k, P in *. destruct B as [H1 H2 H3 H4 H5 H6 H7 H8].
  set (s1 := onc c (k_flags (k_term (s_conn s c)) true (k_torn (s_conn s c))) s) in *. assert (K1 : s_conn s1 c = k_flags (k_term (s_conn s c)) true (k_torn (s_conn s c)) (s_conn s c)) by (cbn; unfold upd; rewrite Nat.eqb_refl; reflexivity).
  assert (I : ident hash2 (s_conn s1 c) (k_addr (s_conn s1 c)) = i) by (rewrite K1; unfold ident; cbn; rewrite CE; exact AD). assert (M1 : k_mode (s_conn s1 c) = Active) by (rewrite K1; exact M).
  unfold setup in E. rewrite I, M1 in E. replace (find_by i (s_known s1)) with (Some 0) in E by (cbn; rewrite H3; unfold find_by; cbn; rewrite N.eqb_refl; reflexivity).
  destruct (n_nonce g x s1 G) as (s2 & N1 & N2 & N3 & N4 & N5 & N6 & N7 & N8 & N9 & N10 & N11). rewrite N1 in E. injection E as -> ->. split; [reflexivity|]. split; [repeat constructor|].
  constructor; [|intros; rewrite ?N2, ?N3, ?N4, ?N8, ?N9, ?N10; reflexivity ..]. assert (c <> 0) by lia. constructor; try (rewrite ?N6, ?N7, ?N11; assumption).
  - intros p N. rewrite N5 by exact N. cbn. auto.
  - rewrite N4. exact H5.
  - rewrite N3. exact H6.
  - rewrite N2. cbn. unfold upd. destruct c; [lia|]. exact H7.
  - rewrite N2. cbn. unfold upd. destruct c; [lia|]. exact H8.
Qed.
Lemma n_setB c g : step hash2 (ESetup c g) s = Some (s', o) -> k_mode (k c) = Passive ->
  1 <= c < s_nc s /\ k_set (k c) = false /\ k_torn (k c) = false /\ Forall fine o /\
  exists pe, now i s' P (upd k c (k_flags (k_term (k c)) true (k_torn (k c)) (k c))) (s_nc s) (s_q s) (s_uq s) pe /\
  let a := k_addr (k c) in
  (find_by a (s_pend s) = None /\ eff o = [] /\ pe = (a, c) :: s_pend s \/ find_by a (s_pend s) = Some c /\ eff o = [] /\ pe = s_pend s \/
   exists d, find_by a (s_pend s) = Some d /\ d <> c /\ eff o = [OKill d] /\ pe = (a, c) :: drop_by a (s_pend s)).
Proof.
  intros E M. apply n_set in E as (L & L2 & L3 & E). split; [exact L|]. split; [exact L2|]. split; [exact L3|]. unfold k, P in *. destruct B as [H1 H2 H3 H4 H5 H6 H7 H8].
  set (s1 := onc c (k_flags (k_term (s_conn s c)) true (k_torn (s_conn s c))) s) in *. assert (K1 : s_conn s1 c = k_flags (k_term (s_conn s c)) true (k_torn (s_conn s c)) (s_conn s c)) by (cbn; unfold upd; rewrite Nat.eqb_refl; reflexivity).
  unfold setup, replace_pending_conn in E. rewrite K1 in E. cbn [k_mode k_flags k_addr] in E. rewrite M in E. change (s_pend s1) with (s_pend s) in E.
  assert (c <> 0) by lia.
  destruct (find_by (k_addr (s_conn s c)) (s_pend s)) as [d|]; [destruct (d =? c) eqn:N|]; injection E as -> ->; (split; [repeat constructor|]); eexists; (split; [constructor; [bs; destruct c; try lia; cbn; auto|cbn; auto ..]|]); cbn; try (apply Nat.eqb_eq in N as ->); try apply Nat.eqb_neq in N.
  - right; left. auto.
  - right; right. exists d. auto.
  - left. auto.
Qed.
Lemma n_retry p g : step hash2 (ERetry p g) s = Some (s', o) -> g_ok g = true -> g_cert g = None ->
  p = 0 /\ p_ton P = true /\ Forall fine o /\ eff o = ODial (p_id P) (s_nc s) (p_addr P) :: out_kill (p_out P) /\
  now i s' (p_settimer true true (p_setlinks (p_chosen P) (p_in P) (Some (s_nc s)) P)) (upd k (s_nc s) (mkConn Active (p_addr P) None false (Some 0) false false false)) (S (s_nc s)) (s_q s) (s_uq s) (s_pend s).
Proof.
  intros E GO GC. unfold k, P in *. destruct B as [H1 H2 H3 H4 H5 H6 H7 H8]. unfold step in E. rewrite H1 in E. destruct (p_live (s_peer s p) && p_timer (s_peer s p) && p_ton (s_peer s p)) eqn:L; [|discriminate]. apply andb_true_iff in L as (L & L3). apply andb_true_iff in L as (L1 & L2).
  destruct (Nat.eq_dec p 0) as [->|N]; [|rewrite (H4 p N) in L1; discriminate]. split; [reflexivity|]. split; [exact L3|].
  unfold start_active_conn, check, say, seq, onp, w_peer, upd in E. rewrite GO, GC in E. cbn in E. rewrite H1 in E. cbn in E. injection E as <- <-.
  split; [destruct (p_addr (s_peer s 0) =? 0)%N, (p_out (s_peer s 0)), (find_by (p_addr (s_peer s 0)) (s_pend s)); repeat constructor|].
  split; [destruct (p_addr (s_peer s 0) =? 0)%N, (p_out (s_peer s 0)), (find_by (p_addr (s_peer s 0)) (s_pend s)); reflexivity|].
  constructor; [bs|cbn; auto ..]; destruct (s_nc s); try lia; cbn; auto.
Qed.
Lemma n_accept a ce : step hash2 (EAccept a ce) s = Some (s', o) -> o = [] /\ now i s' P (upd k (s_nc s) (mkConn Passive a ce true None false false false)) (S (s_nc s)) (s_q s) (s_uq s) (s_pend s).
Proof. unfold k, P. destruct B as [H1 H2 H3 H4 H5 H6 H7 H8]. unfold step. rewrite H1. intros [= <- <-]. split; [reflexivity|]. constructor; [bs|cbn; auto ..]; destruct (s_nc s); try lia; cbn; auto. Qed.

(** The answer to a handshake arrives. *)
Lemma n_pong c n q g x y : s_q s = TPong c i n :: q -> i <> 0%N -> k_mode (k c) = Active -> k_cert (k c) = None -> k_addr (k c) = i -> p_addr P = i -> p_conn P = Some y -> g_rnd g = Some x -> (made P x < n)%N -> step hash2 (EDisp g) s = Some (s', o) ->
  Forall fine o /\
  (k_term (k c) = true /\ eff o = [] /\ now i s' P k (s_nc s) q (s_uq s) (s_pend s) \/
   k_term (k c) = false /\ p_state P <> Disconnected /\ eff o = [] /\ now i s' P k (s_nc s) q (s_uq s) (s_pend s) \/
   k_term (k c) = false /\ p_state P = Disconnected /\ eff o = (match p_out P with Some d => if d =? c then [] else [OKill d] | None => [] end) ++ [OPing c None] /\
   now i s' (done c (p_setnonce (made P x) P)) (own c (clr (p_conn P) (clr (Some c) k))) (s_nc s) q (s_uq s ++ [UCb 0 c true]) (drop_by i (s_pend s))).
Proof.
  intros Q I0 M CE AD PA PC G LT E. unfold k, P in *. pose proof B as B0. destruct B as [H1 H2 H3 H4 H5 H6 H7 H8]. unfold step in E. rewrite H1, Q in E. cbn [task] in E. unfold pong_task in E. cbn [w_q s_conn s_peer s_known] in E.
  rewrite M, AD, H3 in E. unfold ident in E. rewrite CE in E. unfold hash2 at 1 in E.
  assert (B1 : base i (w_q q s)) by (constructor; auto).
  destruct (k_term (s_conn s c)).
  { injection E as <- <-. split; [repeat constructor|]. left. split; [reflexivity|]. split; [reflexivity|]. constructor; auto. }
  apply N.eqb_neq in I0. rewrite I0 in E. unfold find_by in E. cbn [find fst] in E. rewrite N.eqb_refl in E. rewrite PA in E. unfold check in E. cbn [negb andb seq] in E. change (s_halt (w_q q s)) with (s_halt s) in E. rewrite H1 in E. cbn [app] in E. change (s_peer (w_q q s) 0) with (s_peer s 0) in E. rewrite ?PA, ?N.eqb_refl, ?I0 in E. cbn [negb andb app] in E.
  destruct (p_state (s_peer s 0)) eqn:PS.
  2: { injection E as <- <-. split; [repeat constructor|]. right; left. split; [reflexivity|]. split; [discriminate|]. split; [reflexivity|]. constructor; auto. }
  2: { injection E as <- <-. split; [repeat constructor|]. right; left. split; [reflexivity|]. split; [discriminate|]. split; [reflexivity|]. constructor; auto. }
  assert (X : exists o2, (match p_out (s_peer s 0) with
          | Some d => if d =? c then say [] (w_q q s) else (let '(s', o') := say [OKill d] (w_q q s) in (s', (if oeq (k_peer (s_conn (w_q q s) d)) None then [] else [OAssert]) ++ o'))
          | None => say [] (w_q q s)
          end) = (w_q q s, o2) /\ eff o2 = (match p_out (s_peer s 0) with Some d => if d =? c then [] else [OKill d] | None => [] end) /\ Forall fine o2).
  { destruct (p_out (s_peer s 0)) as [d|]; [destruct (d =? c)|]; [eexists; split; [reflexivity|]; split; [reflexivity|constructor]| |eexists; split; [reflexivity|]; split; [reflexivity|constructor]].
    eexists. split; [reflexivity|]. destruct (oeq (k_peer (s_conn (w_q q s) d)) None); (split; [reflexivity|repeat constructor]). }
  destruct X as (o2 & X & X2 & X3). cbn [negb] in E. rewrite X in E. unfold seq in E. change (s_halt (w_q q s)) with (s_halt s) in E. rewrite H1 in E.
  set (s1 := onp 0 (fun x => p_setlinks (p_chosen x) (p_in x) (Some c) x) (w_q q s)) in *.
  destruct (n_nonce g x s1 G) as (s2 & N1 & N2 & N3 & N4 & N5 & N6 & N7 & N8 & N9 & N10 & N11). rewrite N1 in E. assert (MM : made (s_peer s1 0) x = made (s_peer s 0) x) by reflexivity. rewrite MM in *. pose proof LT as LT'. apply N.ltb_lt in LT'. rewrite LT' in E.
  set (s3 := reset_ping_timer 0 (onp 0 (fun x0 => p_setlinks (Some c) (p_in x0) (p_out x0) x0) s2)) in *.
  assert (P3 : s_peer s3 0 = p_sethb true (p_ptok (s_peer s 0)) (p_pmok (s_peer s 0)) (p_setlinks (Some c) (p_in (s_peer s 0)) (Some c) (p_setnonce (made (s_peer s 0) x) (s_peer s 0)))) by (cbn; rewrite N4; reflexivity).
  assert (B3 : base i s3).
  { constructor; cbn; try (rewrite ?N11, ?N6, ?N7, ?N3, ?N2; cbn; assumption).
    - intros p N. unfold upd. destruct (Nat.eqb_spec p 0); [lia|]. rewrite N5 by exact N. unfold s1. cbn. unfold upd. destruct (Nat.eqb_spec p 0); [lia|]. auto.
    - rewrite N4. exact H5. }
  destruct (fin i s3 c y B3) as (s4 & o4 & F1 & F2 & F3 & F4); [rewrite P3; reflexivity|rewrite P3; exact PC|]. rewrite F1 in E. injection E as <- <-.
  split; [repeat constructor; apply Forall_app; auto|]. right; right. split; [reflexivity|]. split; [reflexivity|].
  split; [unfold eff in *; cbn [filter acts]; rewrite filter_app, X2, F3; reflexivity|].
  assert (K3 : s_conn s3 = s_conn s) by (cbn; rewrite N2; reflexivity).
  destruct F2 as [f1 f2 f3 f4 f5 f6 f7]. constructor; auto.
  - rewrite f2, P3. reflexivity.
  - intros z. rewrite f3, P3, K3. unfold shake. reflexivity.
  - rewrite f4. cbn. rewrite N3. reflexivity.
  - rewrite f5. cbn. rewrite N9. reflexivity.
  - rewrite f6. cbn. rewrite N10. reflexivity.
  - rewrite f7. cbn. rewrite N8. rewrite N2. cbn. rewrite AD. reflexivity.
Qed.

(** A handshake arrives. *)
Lemma n_ping c n q g y : s_q s = TPing (Some c) i n :: q -> i <> 0%N -> n <> 0%N -> k_mode (k c) = Passive -> k_cert (k c) = None -> p_conn P = Some y -> p_nonce P = passive_nonce -> (n < passive_nonce)%N -> p_state P <> Reset ->
  (p_state P = Disconnected -> p_in P = None) -> step hash2 (EDisp g) s = Some (s', o) ->
  Forall fine o /\
  (k_term (k c) = true /\ eff o = [] /\ now i s' P k (s_nc s) q (s_uq s) (s_pend s) \/
   k_term (k c) = false /\ p_state P = Connected /\ eff o = [OKill y] /\ now i s' (p_setnonce passive_nonce (p_setlinks (p_chosen P) (Some c) (p_out P) (p_setpre (Some (i, n)) P))) k (s_nc s) q (s_uq s) (s_pend s) \/
   k_term (k c) = false /\ p_state P = Disconnected /\ eff o = [OPong c (Some passive_nonce); OPing c None] /\
   now i s' (done c P) (shake c P k) (s_nc s) q (s_uq s ++ [UCb 0 c true]) (drop_by (k_addr (k c)) (s_pend s))).
Proof.
  intros Q I0 N0 M CE PC NO LT NR IN E. unfold k, P in *. pose proof B as B0. destruct B as [H1 H2 H3 H4 H5 H6 H7 H8]. unfold step in E. rewrite H1, Q in E. cbn [task] in E. unfold ping_task in E. cbn [w_q s_conn s_peer s_known] in E.
  rewrite M, H3 in E. unfold ident in E. rewrite CE in E. unfold hash2 at 1 in E.
  assert (B1 : base i (w_q q s)) by (constructor; auto).
  destruct (k_term (s_conn s c)).
  { injection E as <- <-. split; [repeat constructor|]. left. split; [reflexivity|]. split; [reflexivity|]. constructor; auto. }
  apply N.eqb_neq in I0, N0. rewrite I0, N0 in E. unfold find_by in E. cbn [find fst] in E. rewrite N.eqb_refl in E.
  destruct (p_state (s_peer s 0)) eqn:PS; [| |congruence].
  2: { unfold onp, w_peer, upd in E. cbn in E. rewrite PC in E. injection E as <- <-. split; [repeat constructor|]. right; left. split; [reflexivity|]. split; [reflexivity|]. split; [reflexivity|]. nw. }
  unfold get_nonce in E. cbn [w_q s_peer] in E. rewrite NO in E. cbn [N.eqb passive_nonce] in E. fold passive_nonce in E. unfold say, seq in E. change (s_halt (w_q q s)) with (s_halt s) in E. rewrite H1 in E. cbn [w_q s_peer] in E. rewrite (IN eq_refl) in E. cbn [w_q s_halt] in E. rewrite H1 in E.
  apply N.ltb_lt in LT. rewrite LT in E. cbn [orb] in E.
  set (s3 := onp 0 (fun x => p_setlinks (Some c) (p_in x) (p_out x) x) (onp 0 (fun x => p_setlinks (p_chosen x) (Some c) (p_out x) x) (w_q q s))) in *.
  assert (P3 : s_peer s3 0 = p_setlinks (Some c) (Some c) (p_out (s_peer s 0)) (s_peer s 0)) by reflexivity.
  assert (B3 : base i s3) by (constructor; cbn; auto; dead).
  destruct (fin i s3 c y B3) as (s4 & o4 & F1 & F2 & F3 & F4); [rewrite P3; reflexivity|rewrite P3; exact PC|]. rewrite F1 in E. injection E as <- <-.
  split; [repeat constructor; auto|]. right; right. split; [reflexivity|]. split; [reflexivity|].
  split; [unfold eff in *; cbn [filter acts app]; rewrite F3; reflexivity|].
  destruct F2 as [f1 f2 f3 f4 f5 f6 f7]. constructor; auto.
Qed.
End Node2.

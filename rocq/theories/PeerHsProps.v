(** The handshake: which connection two peers keep (C58, C59). *)
From Coq Require Import Arith NArith ZArith List Bool Lia.
From Verif Require Import PeerModel PeerInv PeerStep PeerPair.
Import ListNotations.

(** ** Specification *)

(** After the step, the peer's record says connected, over connection c. *)
Definition keeps (s : st) (p c : nat) : Prop := p_state (s_peer s p) = Connected /\ p_conn (s_peer s p) = Some c.

(** The next task of the dispatcher is the handshake message of another node, on a live
    connection c, for the known, disconnected peer p: a ping at the accepting
    end, a pong at the dialling end. *)
Definition ping_next (hash : addr -> pid) (s : st) (p c : nat) (n : N) : Prop :=
  exists a q, s_q s = TPing (Some c) a n :: q /\ a <> 0%N /\ n <> 0%N /\ k_term (s_conn s c) = false /\ k_mode (s_conn s c) = Passive /\
    find_by (ident hash (s_conn s c) a) (s_known s) = Some p /\ p_state (s_peer s p) = Disconnected.
Definition pong_next (hash : addr -> pid) (s : st) (p c : nat) (n : N) : Prop :=
  exists q, s_q s = TPong c (p_addr (s_peer s p)) n :: q /\ p_addr (s_peer s p) <> 0%N /\ k_term (s_conn s c) = false /\ k_mode (s_conn s c) = Active /\
    find_by (ident hash (s_conn s c) (k_addr (s_conn s c))) (s_known s) = Some p /\ p_state (s_peer s p) = Disconnected.

(** The nonce p goes by from now on: the one it has, or a fresh one. *)
Definition nonce_of (g : env) (s : st) (p : nat) : option N :=
  if (p_nonce (s_peer s p) =? 0)%N then match g_rnd g with Some x => Some (x mod 2 ^ 16 + 1)%N | None => None end else Some (p_nonce (s_peer s p)).

(** ** Proofs *)

Lemma get_nonce_of g p s mine : nonce_of g s p = Some mine -> exists s1, get_nonce g p s = Some (s1, mine).
Proof.
  unfold nonce_of, get_nonce. destruct (p_nonce (s_peer s p) =? 0)%N; [destruct (g_rnd g); [|discriminate]|]; intros E; injection E as <-; eauto.
Qed.

Lemma fin_keeps p c u s s' : finished p c u s s' -> keeps s' p c.
Proof. intros F. unfold keeps. rewrite (f_peer _ _ _ _ _ F), Nat.eqb_refl. split; reflexivity. Qed.

Lemma fin_nokill c d u (b : bool) : ~ In (OKill d) (OPing c None :: (if b then [] else [OAssert]) ++ [OMove u c]).
Proof. destruct b; cbn; intuition discriminate. Qed.

Lemma check_nokill (b : bool) d : ~ In (OKill d) (if b then [] else [OAssert]).
Proof. destruct b; cbn; intuition discriminate. Qed.

Section H.
Variable hash : addr -> pid.

Lemma ping_decides es s o p c n g mine : run hash es st0 = Some (s, o) -> s_halt s = false -> ping_next hash s p c n -> nonce_of g s p = Some mine ->
  exists s' o', step hash (EDisp g) s = Some (s', o') /\ In (OPong c (Some mine)) o' /\
    ((n < mine)%N \/ p_addr (s_peer s p) = 0%N -> keeps s' p c /\ ~ In (OKill c) o') /\
    ((mine <= n)%N -> p_addr (s_peer s p) <> 0%N -> p_state (s_peer s' p) = Disconnected /\ In (OKill c) o').
Proof.
  intros ER HH (a & q & Q & A0 & N0 & KT & KM & F & ST) NO. pose proof (wf_run _ _ _ _ ER) as W. pose proof (wf_wq _ _ _ W Q) as W0.
  destruct (known_live _ _ _ W F) as (L & ID & OK & _). destruct (ok_conn _ _ OK) as (u & EU & _).
  change (nonce_of g (w_q q s) p = Some mine) in NO. destruct (get_nonce_of _ _ _ _ NO) as (s1 & GN).
  destruct (get_nonce_wf _ _ _ _ _ W0 L GN) as (W1 & NC & P1 & H1 & C1 & KN1 & NP1). cbn in NC, P1, H1, C1, KN1, NP1.
  unfold step. rewrite HH, Q. cbn [task]. destruct (ping_task hash g (Some c) a n (w_q q s)) as [s' o'] eqn:E.
  exists s', (OExec (TPing (Some c) a n) :: o'). split; [reflexivity|].
  unfold ping_task in E. change (s_conn (w_q q s)) with (s_conn s) in E. change (s_known (w_q q s)) with (s_known s) in E. change (s_peer (w_q q s)) with (s_peer s) in E.
  apply N.eqb_neq in A0, N0. rewrite KT, A0, KM, F, N0, ST, GN in E.
  rewrite (seq_go (say [OPong c (Some mine)] s1) _ s1 _ eq_refl) in E by (rewrite H1; exact HH).
  match type of E with (let '(_, _) := seq ?A ?F in _) = _ => assert (EA : exists o1, A = (s1, o1) /\ ~ In (OKill c) o1) end.
  { rewrite P1. cbn [p_in p_setnonce]. destruct (p_in (s_peer s p)) as [d|]; [|eexists; split; [reflexivity|intros []]].
    destruct (d =? c) eqn:DC; [eexists; split; [reflexivity|intros []]|]. apply Nat.eqb_neq in DC.
    unfold check. rewrite (seq_go _ _ s1 _ eq_refl) by (rewrite H1; exact HH). eexists. split; [reflexivity|].
    intros I. apply in_app_or in I. destruct I as [I|I]; [exfalso; exact (check_nokill _ _ I)|].
    destruct I as [X|[]]. injection X as X. congruence. }
  destruct EA as (o1 & EA & M1). rewrite (seq_go _ _ _ _ EA) in E by (rewrite H1; exact HH). clear EA.
  change (fun x => p_setlinks (p_chosen x) (Some c) (p_out x) x) with (x_in c) in E.
  replace (p_addr (s_peer (onp p (x_in c) s1) p)) with (p_addr (s_peer s p)) in E by (sel; rewrite upd_same, P1; reflexivity).
  destruct ((n <? mine)%N || (p_addr (s_peer s p) =? 0)%N) eqn:D.
  - set (s2 := onp p (fun x => p_setlinks (Some c) (p_in x) (p_out x) x) (onp p (x_in c) s1)) in *.
    assert (X2 : s_peer s2 p = x_ch c (x_in c (p_setnonce mine (s_peer s p)))) by (unfold s2; sel; rewrite !upd_same, P1; reflexivity).
    pose proof (finish_spec p c u s2) as FS. rewrite X2 in FS. cbn [p_chosen p_conn p_state x_ch x_in p_setlinks p_setnonce] in FS.
    specialize (FS eq_refl EU). change (s_halt s2) with (s_halt s1) in FS. rewrite H1 in FS. specialize (FS HH).
    unfold post in FS. destruct (finish_handshake p s2) as [s3 o3]. cbn [fst snd] in FS. destruct FS as (FS & FO).
    cbv beta iota zeta in E. injection E as <- <-. rewrite ST in FO. cbn [app] in FO.
    split; [right; left; reflexivity|]. split.
    + intros _. split; [exact (fin_keeps _ _ _ _ _ FS)|]. intros [X|[X|I]]; [discriminate X|discriminate X|]. apply in_app_or in I. destruct I as [I|I]; [exact (M1 I)|].
      rewrite FO in I. exact (fin_nokill _ _ _ _ I).
    + intros H1' H2. apply orb_true_iff in D. rewrite N.ltb_lt, N.eqb_eq in D. destruct D; [lia|congruence].
  - apply orb_false_iff in D. rewrite N.ltb_ge, N.eqb_neq in D. destruct D as (D1 & D2).
    unfold say in E; cbv beta iota zeta in E. injection E as <- <-. split; [right; left; reflexivity|]. split.
    + intros [X|X]; [lia|congruence].
    + intros _ _. split; [sel; rewrite upd_same, P1; exact ST|]. right. right. apply in_or_app. right. left. reflexivity.
Qed.

Lemma pong_decides es s o p c n g mine : run hash es st0 = Some (s, o) -> s_halt s = false -> pong_next hash s p c n -> nonce_of g s p = Some mine ->
  exists s' o', step hash (EDisp g) s = Some (s', o') /\
    ((mine < n)%N -> keeps s' p c /\ ~ In (OKill c) o') /\
    ((n <= mine)%N -> p_state (s_peer s' p) = Disconnected /\ In (OKill c) o').
Proof.
  intros ER HH (q & Q & A0 & KT & KM & F & ST) NO. pose proof (wf_run _ _ _ _ ER) as W. pose proof (wf_wq _ _ _ W Q) as W0.
  assert (CN : c < s_nc s). { pose proof (w_task s W (TPong c (p_addr (s_peer s p)) n)) as H. rewrite Q in H. exact (H (or_introl eq_refl)). }
  destruct (known_live _ _ _ W F) as (L & ID & OK & _). destruct (ok_conn _ _ OK) as (u & EU & _).
  assert (NO' : nonce_of g (onp p (x_out c) (w_q q s)) p = Some mine) by (rewrite <- NO; unfold nonce_of; sel; rewrite !upd_same; reflexivity).
  destruct (get_nonce_of _ _ _ _ NO') as (s1 & GN).
  unfold step. rewrite HH, Q. cbn [task]. destruct (pong_task hash g c (p_addr (s_peer s p)) n (w_q q s)) as [s' o'] eqn:E.
  exists s', (OExec (TPong c (p_addr (s_peer s p)) n) :: o'). split; [reflexivity|].
  unfold pong_task in E. change (s_conn (w_q q s)) with (s_conn s) in E. change (s_known (w_q q s)) with (s_known s) in E. change (s_peer (w_q q s)) with (s_peer s) in E.
  apply N.eqb_neq in A0. rewrite KT, A0, KM, F in E.
  unfold check in E at 1. rewrite (seq_go _ _ (w_q q s) _ eq_refl) in E by exact HH. change (s_peer (w_q q s)) with (s_peer s) in E. rewrite A0, ST, N.eqb_refl in E. cbn [negb andb] in E.
  set (o1 := if (p_addr (s_peer s p) =? k_addr (s_conn s c))%N then [] else [OAssert]) in *.
  assert (M1 : ~ In (OKill c) o1) by apply check_nokill.
  match type of E with (let '(_, _) := seq ?A ?F in _) = _ => assert (EA : exists o2, A = (w_q q s, o2) /\ ~ In (OKill c) o2) end.
  { destruct (p_out (s_peer s p)) as [d|]; [|eexists; split; [reflexivity|intros []]].
    destruct (d =? c) eqn:DC; [eexists; split; [reflexivity|intros []]|]. apply Nat.eqb_neq in DC.
    unfold check. rewrite (seq_go _ _ (w_q q s) _ eq_refl) by exact HH. eexists. split; [reflexivity|].
    intros I. apply in_app_or in I. destruct I as [I|I]; [exfalso; exact (check_nokill _ _ I)|].
    destruct I as [X|[]]. injection X as X. congruence. }
  destruct EA as (o2 & EA & M2). rewrite (seq_go _ _ _ _ EA) in E by exact HH. clear EA.
  change (fun x => p_setlinks (p_chosen x) (p_in x) (Some c) x) with (x_out c) in E. rewrite GN in E.
  assert (W1 : WF (onp p (x_out c) (w_q q s))).
  { apply wf_onp; [exact W0| |exact L]. intros _. split; [exact L|]. split; [reflexivity|]. destruct OK. constructor; cbn; auto. intros d E1. injection E1 as <-. exact CN. }
  assert (L1 : p_live (s_peer (onp p (x_out c) (w_q q s)) p) = true) by (sel; rewrite upd_same; exact L).
  destruct (get_nonce_wf _ _ _ _ _ W1 L1 GN) as (W2 & NC & P1 & H1 & C1 & KN1 & NP1). cbn in NC, P1, H1, C1, KN1, NP1. rewrite upd_same in P1.
  destruct (mine <? n)%N eqn:D.
  - apply N.ltb_lt in D. set (s2 := reset_ping_timer p (onp p (fun x => p_setlinks (Some c) (p_in x) (p_out x) x) s1)) in *.
    assert (X2 : s_peer s2 p = p_sethb true (p_ptok (s_peer s p)) (p_pmok (s_peer s p)) (x_ch c (p_setnonce mine (x_out c (s_peer s p))))) by (unfold s2, reset_ping_timer; sel; rewrite !upd_same, P1; reflexivity).
    pose proof (finish_spec p c u s2) as FS. rewrite X2 in FS. cbn [p_chosen p_conn p_state p_sethb x_ch x_out p_setlinks p_setnonce] in FS.
    specialize (FS eq_refl EU). change (s_halt s2) with (s_halt s1) in FS. rewrite H1 in FS. specialize (FS HH).
    unfold post in FS. destruct (finish_handshake p s2) as [s3 o3]. cbn [fst snd] in FS. destruct FS as (FS & FO).
    cbv beta iota zeta in E. injection E as <- <-. rewrite ST in FO. cbn [app] in FO. split.
    + intros _. split; [exact (fin_keeps _ _ _ _ _ FS)|]. intros [X|I]; [discriminate X|]. apply in_app_or in I. destruct I as [I|I]; [exact (M1 I)|]. apply in_app_or in I. destruct I as [I|I]; [exact (M2 I)|].
      rewrite FO in I. exact (fin_nokill _ _ _ _ I).
    + intros X. lia.
  - apply N.ltb_ge in D. unfold say in E; cbv beta iota zeta in E. injection E as <- <-. split; [intros X; lia|]. intros _.
    split; [rewrite P1; exact ST|]. right. apply in_or_app. right. apply in_or_app. right. left. reflexivity.
Qed.

End H.

(** ** C58 *)

(** A dials X and B dials Y.  Whatever each end decides on a connection while
    the peer is disconnected there, the other end decides the same if it is
    disconnected too: X is kept iff A's nonce is smaller, Y iff B's is, with
    equal nonces neither, and a connection that is not kept is terminated. *)
Theorem C58_decisions_agree_partial : forall hash esA sA oA esB sB oB pA pB xA xB nA nB gA gB,
  run hash esA st0 = Some (sA, oA) -> run hash esB st0 = Some (sB, oB) -> s_halt sA = false -> s_halt sB = false ->
  nonce_of gA sA pA = Some nA -> nonce_of gB sB pB = Some nB -> p_addr (s_peer sB pB) <> 0%N ->
  ping_next hash sB pB xB nA -> pong_next hash sA pA xA nB ->
  exists sA' oA' sB' oB', step hash (EDisp gA) sA = Some (sA', oA') /\ step hash (EDisp gB) sB = Some (sB', oB') /\
    In (OPong xB (Some nB)) oB' /\
    ((nA < nB)%N -> keeps sA' pA xA /\ keeps sB' pB xB) /\
    ((nB <= nA)%N -> p_state (s_peer sA' pA) = Disconnected /\ In (OKill xA) oA' /\ p_state (s_peer sB' pB) = Disconnected /\ In (OKill xB) oB').
Proof.
  intros hash esA sA oA esB sB oB pA pB xA xB nA nB gA gB EA EB HA HB NA NB AB PB PA.
  destruct (ping_decides _ _ _ _ _ _ _ _ _ EB HB PB NB) as (sB' & oB' & SB & I & B1 & B2).
  destruct (pong_decides _ _ _ _ _ _ _ _ _ EA HA PA NA) as (sA' & oA' & SA & A1 & A2).
  exists sA', oA', sB', oB'. split; [exact SA|]. split; [exact SB|]. split; [exact I|]. split.
  - intros X. split; [apply A1; exact X|apply B1; left; exact X].
  - intros X. destruct (A2 X) as (? & ?). destruct (B2 X AB) as (? & ?). auto.
Qed.

Definition ge (x : N) : env := mkEnv (Some x) true None (fun _ => true).
Definition start_a (n : Z) : list pev := [PApi false (TAdd 0 2%N); PApi false (TSetAddr 1 2%N 2%N); PApi false (TConn 2 2%N n); PDisp false (ge 0); PDisp false (ge 0); PDisp false (ge 0)].
Definition start_b (n : Z) : list pev := [PApi true (TAdd 0 1%N); PApi true (TSetAddr 1 1%N 1%N); PApi true (TConn 2 1%N n); PDisp true (ge 0); PDisp true (ge 0); PDisp true (ge 0)].

(** Both dial.  A's nonce is 8, B's 21; A's connection sets up first and is
    established at both ends.  Then B's own dial sets up: its ping makes A give up
    the established connection for the new one, while B, still connected,
    ignores A's reply, and then loses the old one. *)
Definition cross : list pev := start_a 1 ++ start_b 1 ++
  [PRetry false 0 (ge 0); PRetry true 0 (ge 0); PAccept 0; PAccept 1;
   PSetup false 1 (ge 7); PSetup true 2 (ge 0); PGet 0 true; PDisp true (ge 20); PGet 0 false; PDisp false (ge 0);
   PSetup true 1 (ge 0); PSetup false 2 (ge 0); PGet 1 true; PDisp false (ge 0);
   PTerm false 1; PTear false 1; PUser false; PUser false; PUser true; PDisp false (ge 0); PGet 1 false; PDisp true (ge 0); PTerm true 2; PTear true 2; PUser true; PUser false;
   PGet 1 false; PDisp true (ge 0); PGet 1 true; PDisp false (ge 0)].

Theorem C58_tie_break_refuted : exists es y o, prun es sys0 = Some (y, o) /\ settled y = true /\
  keeps (y_a y) 0 2 /\ p_state (s_peer (y_b y) 0) = Disconnected /\ p_ton (s_peer (y_b y) 0) = false /\
  k_term (s_conn (y_a y) 2) = false /\ k_term (s_conn (y_b y) 1) = false /\ k_peer (s_conn (y_b y) 1) = None.
Proof.
  exists cross. destruct (prun cross sys0) as [[y o]|] eqn:E; [|exfalso; vm_compute in E; discriminate E]. exists y, o. split; [reflexivity|].
  assert (K : option_map (fun x => let y := fst x in (settled y, (p_state (s_peer (y_a y) 0), p_conn (s_peer (y_a y) 0)), (p_state (s_peer (y_b y) 0), p_ton (s_peer (y_b y) 0)),
    (k_term (s_conn (y_a y) 2), k_term (s_conn (y_b y) 1), k_peer (s_conn (y_b y) 1)))) (prun cross sys0) = Some (true, (Connected, Some 2), (Disconnected, false), (false, false, None))) by (vm_compute; reflexivity).
  rewrite E in K. cbn [option_map fst snd] in K. injection K as K1 K2 K3 K4 K5 K6 K7 K8. unfold keeps. auto 10.
Qed.

(** ** C59 *)

(** Only one side dials: B's nonce for A is the passive one.  B accepts, and
    so does A, exactly for nonces below it. *)
Theorem C59_passive_accepts_partial : forall hash esA sA oA esB sB oB pA pB xA xB nA gA gB,
  run hash esA st0 = Some (sA, oA) -> run hash esB st0 = Some (sB, oB) -> s_halt sA = false -> s_halt sB = false ->
  nonce_of gA sA pA = Some nA -> p_nonce (s_peer sB pB) = passive_nonce ->
  ping_next hash sB pB xB nA -> pong_next hash sA pA xA passive_nonce ->
  exists sA' oA' sB' oB', step hash (EDisp gA) sA = Some (sA', oA') /\ step hash (EDisp gB) sB = Some (sB', oB') /\
    In (OPong xB (Some passive_nonce)) oB' /\
    ((nA < 65535)%N -> keeps sA' pA xA /\ keeps sB' pB xB) /\
    ((65535 <= nA)%N -> In (OKill xA) oA' /\ (p_addr (s_peer sB pB) <> 0%N -> In (OKill xB) oB')).
Proof.
  intros hash esA sA oA esB sB oB pA pB xA xB nA gA gB EA EB HA HB NA NB PB PA.
  assert (NB' : nonce_of gB sB pB = Some passive_nonce) by (unfold nonce_of; rewrite NB; reflexivity).
  destruct (ping_decides _ _ _ _ _ _ _ _ _ EB HB PB NB') as (sB' & oB' & SB & I & B1 & B2).
  destruct (pong_decides _ _ _ _ _ _ _ _ _ EA HA PA NA) as (sA' & oA' & SA & A1 & A2).
  exists sA', oA', sB', oB'. split; [exact SA|]. split; [exact SB|]. split; [exact I|]. split.
  - intros X. split; [apply A1; exact X|apply B1; left; exact X].
  - intros X. split; [apply A2; exact X|intros Y; apply B2; [exact X|exact Y]].
Qed.

Definition one_side (x : N) : list pev := start_a 1 ++ [PApi true (TAdd 0 1%N); PApi true (TSetAddr 1 1%N 1%N); PDisp true (ge 0); PDisp true (ge 0);
  PRetry false 0 (ge 0); PAccept 0; PSetup false 1 (ge x); PSetup true 1 (ge 0); PGet 0 true; PDisp true (ge 0); PGet 0 false; PDisp false (ge 0)].

Definition up (r : option (sys * list (bool * obs))) : option (bool * pstate * pstate) :=
  option_map (fun x => (settled (fst x), p_state (s_peer (y_a (fst x)) 0), p_state (s_peer (y_b (fst x)) 0))) r.

(** With the nonce 8 both ends are connected in the end. *)
Example C59_nonvacuous : up (prun (one_side 7 ++ [PUser true; PUser false; PGet 0 false; PDisp false (ge 0); PGet 0 true; PDisp true (ge 0); PGet 0 true; PDisp true (ge 0); PGet 0 false; PDisp false (ge 0)]) sys0)
  = Some (true, Connected, Connected).
Proof. vm_compute. reflexivity. Qed.

(** The hypotheses of the two theorems in that run. *)
Example C58_nonvacuous :
  option_map (fun x => (s_q (y_b (fst x)), p_state (s_peer (y_b (fst x)) 0), p_nonce (s_peer (y_b (fst x)) 0))) (prun (firstn 15 (one_side 7)) sys0) = Some ([TPing (Some 1) 1%N 8%N], Disconnected, passive_nonce) /\
  option_map (fun x => (s_q (y_a (fst x)), p_state (s_peer (y_a (fst x)) 0), p_nonce (s_peer (y_a (fst x)) 0))) (prun (firstn 17 (one_side 7)) sys0) = Some ([TPong 1 2%N passive_nonce], Disconnected, 8%N) /\
  option_map (fun x => (s_q (y_b (fst x)), p_state (s_peer (y_b (fst x)) 0))) (prun (firstn 19 cross) sys0) = Some ([TPing (Some 2) 1%N 8%N], Disconnected).
Proof. repeat split; vm_compute; reflexivity. Qed.

(** The nonce 65535 is drawn like any other, and refused. *)
Theorem C59_nonce_drawn_refuted : exists es y o, prun es sys0 = Some (y, o) /\ settled y = true /\
  p_state (s_peer (y_a y) 0) = Disconnected /\ p_state (s_peer (y_b y) 0) = Disconnected /\ In (true, OPong 1 (Some passive_nonce)) o /\ p_cur (s_peer (y_a y) 0) = 0%Z.
Proof.
  set (es := one_side 65534 ++ [PTerm true 1; PTear true 1; PTerm false 1; PTear false 1; PUser false]). exists es.
  destruct (prun es sys0) as [[y o]|] eqn:E; [|exfalso; vm_compute in E; discriminate E]. exists y, o. split; [reflexivity|].
  assert (K : option_map (fun x => let y := fst x in (settled y, p_state (s_peer (y_a y) 0), p_state (s_peer (y_b y) 0), p_cur (s_peer (y_a y) 0),
    existsb (fun z => match z with (true, OPong 1 (Some 65535%N)) => true | _ => false end) (snd x))) (prun es sys0) = Some (true, Disconnected, Disconnected, 0%Z, true)) by (vm_compute; reflexivity).
  rewrite E in K. cbn [option_map fst snd] in K. injection K as K1 K2 K3 K4 K5. repeat split; auto.
  apply existsb_exists in K5. destruct K5 as ([[|] z] & I & Z); [|discriminate Z]. destruct z; try discriminate Z. destruct c as [|[|?]]; try discriminate Z. destruct hs as [h|]; [|discriminate Z].
  assert (h = passive_nonce); [|subst; exact I]. revert Z. clear. destruct h as [|h]; [discriminate|]. do 16 (destruct h as [h|h|]; try discriminate).  reflexivity.
Qed.

(** Nor does it help to draw small nonces: once the attempts conn_peer was
    given have failed, because B was not there yet, the dialling side's nonce is the
    passive one, and the attempts its timer goes on to make are all refused
    by the B that is there now. *)
Definition late : list pev := start_a 1 ++ [PApi true (TAdd 0 1%N); PApi true (TSetAddr 1 1%N 1%N); PDisp true (ge 0); PDisp true (ge 0);
  PRetry false 0 (ge 7); PRefuse 0; PTear false 1; PUser false;
  PRetry false 0 (ge 7); PAccept 1; PSetup false 2 (ge 7); PSetup true 1 (ge 7); PGet 1 true; PDisp true (ge 7); PGet 1 false; PDisp false (ge 7);
  PTerm true 1; PTear true 1; PTerm false 2; PTear false 2; PUser false;
  PRetry false 0 (ge 7); PAccept 2; PSetup false 3 (ge 7); PSetup true 2 (ge 7); PGet 2 true; PDisp true (ge 7); PGet 2 false; PDisp false (ge 7);
  PTerm true 2; PTear true 2; PTerm false 3; PTear false 3; PUser false].
Theorem C59_late_peer_refuted : exists es y o, prun es sys0 = Some (y, o) /\ settled y = true /\
  p_state (s_peer (y_a y) 0) = Disconnected /\ p_state (s_peer (y_b y) 0) = Disconnected /\ p_nonce (s_peer (y_a y) 0) = passive_nonce /\ p_ton (s_peer (y_a y) 0) = true /\
  (forall e g n c, In e es -> e = PSetup n c g -> (exists x, g_rnd g = Some x /\ (x < 100)%N)) /\ In (true, OKill 1) o /\ In (true, OKill 2) o.
Proof.
  exists late. destruct (prun late sys0) as [[y o]|] eqn:E; [|exfalso; vm_compute in E; discriminate E]. exists y, o. split; [reflexivity|].
  assert (K : option_map (fun x => let y := fst x in (settled y, p_state (s_peer (y_a y) 0), p_state (s_peer (y_b y) 0), p_nonce (s_peer (y_a y) 0), p_ton (s_peer (y_a y) 0),
    existsb (fun z => match z with (true, OKill 1) => true | _ => false end) (snd x), existsb (fun z => match z with (true, OKill 2) => true | _ => false end) (snd x))) (prun late sys0) = Some (true, Disconnected, Disconnected, passive_nonce, true, true, true)) by (vm_compute; reflexivity).
  rewrite E in K. cbn [option_map fst snd] in K. injection K as K1 K2 K3 K4 K5 K6 K7. split; [exact K1|]. split; [exact K2|]. split; [exact K3|]. split; [exact K4|]. split; [exact K5|]. split; [|split].
  - intros e g n c I ->. clear -I. unfold late, start_a in I. cbn [app In] in I. repeat (destruct I as [I|I]; [try discriminate I; injection I as <- <- <-; exists 7%N; split; reflexivity|]). destruct I.
  - apply existsb_exists in K6. destruct K6 as ([[|] z] & I & Z); [|discriminate Z]. destruct z; try discriminate Z. destruct c as [|[|?]]; try discriminate Z. exact I.
  - apply existsb_exists in K7. destruct K7 as ([[|] z] & I & Z); [|discriminate Z]. destruct z; try discriminate Z. destruct c as [|[|[|?]]]; try discriminate Z. exact I.
Qed.

Print Assumptions C58_decisions_agree_partial.
Print Assumptions C58_tie_break_refuted.
Print Assumptions C59_passive_accepts_partial.
Print Assumptions C59_nonce_drawn_refuted.
Print Assumptions C59_late_peer_refuted.

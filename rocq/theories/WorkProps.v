(** C88-C95: a connection in the hands of its worker (WorkModel). *)
From Coq Require Import Arith List Bool Lia.
From Coq.Init Require Import Byte.
From Verif Require Import Base WorkModel WorkProofs.
Import ListNotations.

(** ** What was written to the connection, and what arrived, by the trace alone *)
Fixpoint pushed (es : list wev) : bytes :=
  match es with [] => [] | WPush d :: r => d ++ pushed r | _ :: r => pushed r end.
Fixpoint arrived (es : list wev) : bytes :=
  match es with [] => [] | WArrive d :: r => d ++ arrived r | _ :: r => arrived r end.

(** The answers the kernel or the engine gave to writes. *)
Definition answers (e : wev) : list wres :=
  match e with WQueue ws => ws | WIo _ _ _ _ ws _ => ws | _ => [] end.
(** Whether an answer is in the ordinary course of things. *)
Definition fine_h (h : hres) : bool := match h with HDone true => true | HWantRead => true | HWantWrite => true | _ => false end.
Definition fine_r (f : rres) : bool := match f with RBlock => true | _ => false end.
Definition fine_w (a : wres) : bool := match a with WN _ => true | WBlock => true | _ => false end.
(** Nothing failed, nobody hung up, nobody refused or closed the connection. *)
Definition fine (e : wev) : bool :=
  match e with
  | WPush _ | WArrive _ => true
  | WQueue ws => forallb fine_w ws
  | WIo _ _ f _ ws h => fine_r f && forallb fine_w ws && fine_h h
  | WApprove ok => ok
  | WTimer f _ _ => fine_r f
  | WFail _ | WKill | WDown => false
  end.
Definition is_block (a : wres) : bool := match a with WBlock => true | _ => false end.
Definition no_block (e : wev) : bool := negb (existsb is_block (answers e)).

Lemma not_in_block ws : existsb is_block ws = false -> ~ In WBlock ws.
Proof.
  intros H X. assert (E : existsb is_block ws = true) by (apply existsb_exists; exists WBlock; auto). congruence.
Qed.
Lemma fine_not ws a : forallb fine_w ws = true -> fine_w a = false -> ~ In a ws.
Proof. intros H F X. rewrite forallb_forall in H. specialize (H _ X). congruence. Qed.

(** ** One step *)
Lemma handshake_same h s :
  w_q (handshake h s) = w_q s /\ w_sent (handshake h s) = w_sent s /\ inq (handshake h s) = inq s /\
  w_pend (handshake h s) = w_pend s.
Proof. destruct h as [[|]| | |]; repeat split; reflexivity. Qed.

Lemma call_send_bytes c ws h s : pend_inv c (w_q s) s ->
  w_sent (call_send c ws h s) ++ outq (call_send c ws h s) = w_sent s ++ outq s /\
  inq (call_send c ws h s) = inq s.
Proof.
  intros P. unfold call_send.
  assert (Z : w_sent (send_loop c (w_q s) ws s) ++ outq (send_loop c (w_q s) ws s) = w_sent s ++ outq s /\
              inq (send_loop c (w_q s) ws s) = inq s).
  { destruct (send_loop_ok c (w_q s) ws s P). split; [exact so_bytes|].
    destruct so_in as (_ & _ & _ & A & B & D & E & _). unfold inq. rewrite A, B, D, E. reflexivity. }
  destruct (w_sf s); [|exact Z|exact Z].
  destruct (handshake_same h (set_rs true s)) as [A [B [D _]]]. unfold outq. rewrite A, B, D. auto.
Qed.
Lemma call_recv_bytes c f take h s t : 0 < w_chunk c -> (w_tls c = false -> w_plain s = []) ->
  call_recv c f take h s = Some t ->
  w_sent t ++ outq t = w_sent s ++ outq s /\ inq t = inq s.
Proof.
  intros C P H. unfold call_recv in H.
  assert (Z : recv_data c f take s = Some t -> w_sent t ++ outq t = w_sent s ++ outq s /\ inq t = inq s).
  { intros X. apply recv_loop_ok in X; [|exact C|exact P]. destruct X.
    destruct rk_out as (_ & _ & _ & A & _ & _ & B & _). unfold outq. rewrite A, B. auto. }
  destruct (w_rf s); [|exact (Z H)|exact (Z H)|inversion H; auto].
  inversion H. destruct (handshake_same h s) as [A [B [D _]]]. unfold outq. rewrite A, B, D. auto.
Qed.

Lemma eat_inq' n s : inq (eat n s) = inq s.
Proof.
  unfold inq, eat. cbn [w_got w_rbuf w_plain w_sock]. rewrite <- !app_assoc. f_equal.
  rewrite !app_assoc, <- concat_app, firstn_skipn. reflexivity.
Qed.

Lemma bytes_step c e s t : 0 < w_chunk c -> inv c s -> wstep c e s = Some t ->
  w_sent t ++ outq t = w_sent s ++ outq s ++ pushed [e] /\ inq t = inq s ++ arrived [e].
Proof.
  intros C I H. destruct e; cbn [wstep pushed arrived] in *; rewrite ?app_nil_r.
  - inversion H. unfold outq. cbn [set_q w_q w_sent]. rewrite map_app, concat_app. cbn [map snd concat].
    rewrite app_nil_r. split; reflexivity.
  - inversion H. split; [reflexivity|]. unfold inq. cbn [set_in w_got w_rbuf w_plain w_sock].
    rewrite concat_app. cbn [concat]. rewrite app_nil_r, <- !app_assoc. reflexivity.
  - apply guard_some in H. destruct H as [_ H]. destruct (w_rs s); inversion H; [|auto].
    apply (call_send_bytes c ws HErr (set_mask (negb (w_rr s)) true s)). apply I.
  - apply guard_some in H. destruct H as [_ H]. destruct r.
    + apply (call_recv_bytes c f take h); [exact C|apply I|exact H].
    + inversion H. apply call_send_bytes. apply I.
  - apply guard_some in H. destruct H as [_ H]. inversion H. cbn [set_mask w_sf].
    destruct (w_sf s); [|auto|auto].
    destruct (handshake_same h (set_rs true (set_mask false false s))) as [A [B [D _]]].
    unfold outq. rewrite A, B, D. auto.
  - apply guard_some in H. destruct H as [_ H]. destruct (w_tls c); [destruct ok|]; inversion H; auto.
  - apply guard_some in H. destruct H as [_ H].
    destruct (w_rr (eat take s) && _); [|inversion H; split; [reflexivity|apply eat_inq']].
    rewrite <- (eat_inq' take s).
    exact (call_recv_bytes c f more HErr (set_mask true (negb (w_rs (eat take s))) (eat take s)) t C (i_mode _ _ I) H).
  - inversion H. auto.
  - apply guard_some in H. destruct H as [_ H]. inversion H. auto.
Qed.

Lemma pushed_cons e es : pushed (e :: es) = pushed [e] ++ pushed es.
Proof. destruct e; cbn [pushed app]; rewrite ?app_nil_r; reflexivity. Qed.
Lemma arrived_cons e es : arrived (e :: es) = arrived [e] ++ arrived es.
Proof. destruct e; cbn [arrived app]; rewrite ?app_nil_r; reflexivity. Qed.

Lemma bytes_run c es : 0 < w_chunk c -> forall s t, inv c s -> wrun c es s = Some t ->
  w_sent t ++ outq t = w_sent s ++ outq s ++ pushed es /\ inq t = inq s ++ arrived es.
Proof.
  intros C. induction es as [|e es IH]; cbn [wrun]; intros s t I H.
  - inversion H; subst. cbn. rewrite !app_nil_r. auto.
  - destruct (wstep c e s) as [u|] eqn:E; [|discriminate].
    destruct (bytes_step c e s u C I E) as [A B].
    destruct (IH u t (inv_step c e s u C I E) H) as [A' B'].
    rewrite pushed_cons, arrived_cons, A', B', B.
    rewrite (app_assoc (w_sent u)), A, <- !app_assoc. auto.
Qed.

(** * C94: both streams keep their bytes and their order, with and without TLS,
    whatever the kernel, the engine and the parser answer *)
Theorem C94_streams c es s : 0 < w_chunk c -> wrun c es (winit c) = Some s ->
  w_sent s ++ concat (map snd (w_q s)) = pushed es /\
  w_got s ++ concat (w_rbuf s) ++ w_plain s ++ concat (w_sock s) = arrived es.
Proof.
  intros C H. destruct (bytes_run c es C _ _ (inv_init c) H) as [A B].
  unfold winit in A, B. destruct (w_tls c); auto.
Qed.
Print Assumptions C94_streams.

(** * C95: an approved connection always waits for what it needs: to be readable unless
    reading is suspended, to be writable unless everything written so far was sent off *)
Theorem C95_waits c es s : 0 < w_chunk c -> wrun c es (winit c) = Some s ->
  w_ok s = true -> w_up s = true -> w_term s = false ->
  w_rd s = negb (w_rr s) /\ (w_rs s = false -> w_wr s = true).
Proof. intros C H. exact (i_dir _ _ (inv_run c es C _ _ (inv_init c) H)). Qed.
Print Assumptions C95_waits.

(** Which callbacks can happen follows: neither direction is cut off. *)
Theorem C95_called c es s : 0 < w_chunk c -> wrun c es (winit c) = Some s ->
  w_ok s = true -> w_up s = true -> w_term s = false ->
  (w_rr s = false -> forall f take ws h, exists t, wstep c (WIo true false f take ws h) s = Some t) /\
  (w_rs s = false -> forall f take ws h, exists t, wstep c (WIo false true f take ws h) s = Some t).
Proof.
  intros C H O U T. pose proof (inv_run c es C _ _ (inv_init c) H) as I.
  destruct (i_dir _ _ I O U T) as [D1 D2]. split; intros R f take ws h; cbn [wstep]; rewrite U; cbn [andb orb implb].
  - rewrite D1, R. cbn [negb guard]. unfold call_recv.
    destruct (w_rf s); [eexists; reflexivity| | |eexists; reflexivity];
      apply recv_data_some; solve [exact C|apply I].
  - rewrite (D2 R). cbn [guard]. eexists. reflexivity.
Qed.
Print Assumptions C95_called.

(** * C89: what the engine has decrypted is never forgotten inside it *)
Theorem C89_decrypted c es s : 0 < w_chunk c -> wrun c es (winit c) = Some s ->
  w_plain s <> [] -> w_rr s = true \/ w_term s = true.
Proof. intros C H. exact (i_plain _ _ (inv_run c es C _ _ (inv_init c) H)). Qed.
Print Assumptions C89_decrypted.

(** Suspended reading looks into the engine when the parser has made room, without
    waiting for the socket: then it is empty, or the buffer is full again. *)
Theorem C89_resumed c es s f take more t : 0 < w_chunk c -> wrun c es (winit c) = Some s ->
  w_rf s = RfTls -> w_rr s = true -> length (skipn take (w_rbuf s)) < w_max c ->
  wstep c (WTimer f take more) s = Some t ->
  w_term t = true \/ (w_rr t = false /\ w_plain t = []) \/ (w_rr t = true /\ w_max c <= length (w_rbuf t)).
Proof.
  intros C H F R L E. pose proof (inv_run c es C _ _ (inv_init c) H) as I.
  cbn [wstep] in E. apply guard_some in E. destruct E as [_ E]. cbn [eat w_rr w_rbuf] in E.
  rewrite R in E. apply Nat.ltb_lt in L. rewrite L in E. cbn [andb] in E.
  unfold call_recv in E. cbn [set_mask eat w_rf] in E. rewrite F in E.
  apply recv_loop_ok in E; [|exact C|apply I]. destruct E.
  destruct rk_state as [X|[[X1 [X2 _]]|[X1 [_ [_ X2]]]]]; auto.
Qed.
Print Assumptions C89_resumed.

(** * C90: the handshake is driven: the worker waits for what the engine asked for *)
Theorem C90_waits_as_asked c es s : 0 < w_chunk c -> wrun c es (winit c) = Some s ->
  w_sf s = SfHs -> w_up s = true -> w_term s = false -> (w_rd s, w_wr s) = w_want s.
Proof. intros C H. exact (i_hs _ _ (inv_run c es C _ _ (inv_init c) H)). Qed.
Print Assumptions C90_waits_as_asked.

(** In terms of answers and callbacks: after "want read" the next readable socket calls
    the handshake again, and a writable one does not; likewise for "want write". *)
Theorem C90_called_again c es s r w f take ws h t : 0 < w_chunk c ->
  wrun c es (winit c) = Some s -> w_sf s = SfHs ->
  wstep c (WIo r w f take ws h) s = Some t ->
  (h = HWantRead -> forall f' k ws' h',
     (exists u, wstep c (WIo true false f' k ws' h') t = Some u /\ u = handshake h' t) /\
     wstep c (WIo false true f' k ws' h') t = None) /\
  (h = HWantWrite -> forall f' k ws' h',
     (exists u, wstep c (WIo false true f' k ws' h') t = Some u /\ u = handshake h' (set_rs true t)) /\
     wstep c (WIo true false f' k ws' h') t = None).
Proof.
  intros C H F E. pose proof (inv_run c es C _ _ (inv_init c) H) as I.
  assert (R : w_rf s = RfHs).
  { destruct (w_tls c) eqn:T.
    - destruct (i_fun1 _ _ I T) as [[_ [X _]]|[X _]]; congruence.
    - destruct (i_fun0 _ _ I T); congruence. }
  cbn [wstep] in E. apply guard_some in E. destruct E as [G E].
  apply andb_prop in G. destruct G as [G _]. apply andb_prop in G. destruct G as [G _].
  apply andb_prop in G. destruct G as [U _].
  assert (X : t = handshake h (if r then s else set_rs true s)).
  { destruct r; inversion E as [E1].
    - unfold call_recv in E1. rewrite R in E1. inversion E1. reflexivity.
    - unfold call_send. rewrite F. reflexivity. }
  clear E.
  assert (V : forall b, w_up (if b : bool then s else set_rs true s) = true /\
                        w_sf (if b then s else set_rs true s) = SfHs /\ w_rf (if b then s else set_rs true s) = RfHs).
  { intros []; cbn; auto. }
  destruct (V r) as [V1 [V2 V3]]. set (s1 := if r then s else set_rs true s) in *. clearbody s1.
  split; intros -> f' k ws' h'; subst t; cbn [handshake];
    cbn [wstep set_want set_mask w_up w_rd w_wr]; rewrite V1; cbn [andb orb implb guard];
    (split; [|reflexivity]); eexists.
  - unfold call_recv. cbn [set_want set_mask w_rf]. rewrite V3. split; reflexivity.
  - unfold call_send. cbn [set_want set_mask w_sf]. rewrite V2. split; reflexivity.
Qed.
Print Assumptions C90_called_again.

(** * C88: repeating a TLS write *)
(** Once SSL_write has asked to be repeated, not one more byte leaves: the connection
    stays as it is or is terminated. *)
Lemma call_send_stuck c ws h s : inv c s -> w_pend s <> None ->
  w_term (call_send c ws h s) = true \/
  (w_sent (call_send c ws h s) = w_sent s /\ w_pend (call_send c ws h s) = w_pend s).
Proof.
  intros I P. unfold call_send.
  assert (Z : w_term (send_loop c (w_q s) ws s) = true).
  { destruct (send_loop_ok c (w_q s) ws s (i_pend _ _ I)). apply so_stuck. exact P. }
  destruct (w_sf s); auto. right.
  destruct (handshake_same h (set_rs true s)) as [_ [A [_ B]]]. rewrite A, B. auto.
Qed.
Lemma call_recv_stuck c f take h s t : 0 < w_chunk c -> (w_tls c = false -> w_plain s = []) ->
  call_recv c f take h s = Some t -> w_sent t = w_sent s /\ w_pend t = w_pend s.
Proof.
  intros C P H. unfold call_recv in H.
  assert (Z : recv_data c f take s = Some t -> w_sent t = w_sent s /\ w_pend t = w_pend s).
  { intros X. apply recv_loop_ok in X; [|exact C|exact P]. destruct X.
    destruct rk_out as (_ & _ & _ & _ & _ & A & B & _). auto. }
  destruct (w_rf s); [|exact (Z H)|exact (Z H)|inversion H; auto].
  inversion H. destruct (handshake_same h s) as [_ [A [_ B]]]. auto.
Qed.
Lemma term_handshake h s : w_term s = true -> w_term (handshake h s) = true.
Proof. destruct h as [[|]| | |]; cbn; auto. Qed.
Lemma term_step c e s t : 0 < w_chunk c -> inv c s -> wstep c e s = Some t -> w_term s = true -> w_term t = true.
Proof.
  intros C I H T. pose proof (i_pend _ _ I) as P.
  assert (S : forall ws h s1, w_term s1 = true -> pend_inv c (w_q s1) s1 -> w_term (call_send c ws h s1) = true).
  { intros ws h s1 A B. unfold call_send. destruct (send_loop_ok c (w_q s1) ws s1 B).
    destruct (w_sf s1); auto. apply term_handshake. exact A. }
  assert (R : forall f k h s1, w_term s1 = true -> (w_tls c = false -> w_plain s1 = []) -> call_recv c f k h s1 = Some t -> w_term t = true).
  { intros f k h s1 A B D. unfold call_recv in D.
    assert (Z : recv_data c f k s1 = Some t -> w_term t = true).
    { intros X. apply recv_loop_ok in X; [|exact C|exact B]. destruct X. auto. }
    destruct (w_rf s1); auto; inversion D; subst; auto. apply term_handshake. exact A. }
  destruct e; cbn [wstep] in H.
  - inversion H. exact T.
  - inversion H. exact T.
  - apply guard_some in H. destruct H as [_ H]. destruct (w_rs s); inversion H; subst; auto.
  - apply guard_some in H. destruct H as [_ H]. destruct r; [exact (R _ _ _ s T (i_mode _ _ I) H)|].
    inversion H. apply S; assumption.
  - apply guard_some in H. destruct H as [_ H]. inversion H. cbn [set_mask w_sf]. destruct (w_sf s); auto.
    apply term_handshake. exact T.
  - apply guard_some in H. destruct H as [_ H]. destruct (w_tls c); [destruct ok|]; inversion H; auto.
  - apply guard_some in H. destruct H as [_ H].
    destruct (w_rr (eat take s) && _); [|inversion H; exact T].
    refine (R _ _ _ _ _ _ H); [exact T|exact (i_mode _ _ I)].
  - inversion H. reflexivity.
  - apply guard_some in H. destruct H as [_ H]. inversion H. reflexivity.
Qed.
Lemma stuck_step c e s t : 0 < w_chunk c -> inv c s -> w_pend s <> None -> wstep c e s = Some t ->
  w_term t = true \/ (w_sent t = w_sent s /\ w_pend t = w_pend s).
Proof.
  intros C I P H. destruct e; cbn [wstep] in H.
  - inversion H. auto.
  - inversion H. auto.
  - apply guard_some in H. destruct H as [_ H]. destruct (w_rs s); inversion H; [|auto].
    set (s1 := set_mask (negb (w_rr s)) true s).
    unfold call_send. change (w_sf s1) with (w_sf s).
    assert (Z : w_term (send_loop c (w_q s1) ws s1) = true).
    { destruct (send_loop_ok c (w_q s1) ws s1 (i_pend _ _ I)). apply so_stuck. exact P. }
    destruct (w_sf s); auto.
  - apply guard_some in H. destruct H as [_ H]. destruct r.
    + right. exact (call_recv_stuck _ _ _ _ _ _ C (i_mode _ _ I) H).
    + inversion H. apply call_send_stuck; assumption.
  - apply guard_some in H. destruct H as [_ H]. inversion H. cbn [set_mask w_sf]. destruct (w_sf s); auto. right.
    destruct (handshake_same h (set_rs true (set_mask false false s))) as [_ [A [_ B]]]. rewrite A, B. auto.
  - apply guard_some in H. destruct H as [_ H]. destruct (w_tls c); [destruct ok|]; inversion H; auto.
  - apply guard_some in H. destruct H as [_ H].
    destruct (w_rr (eat take s) && _); [|inversion H; auto].
    right. exact (call_recv_stuck c f more HErr (set_mask true (negb (w_rs (eat take s))) (eat take s)) t C (i_mode _ _ I) H).
  - inversion H. auto.
  - apply guard_some in H. destruct H as [_ H]. inversion H. auto.
Qed.
Lemma stuck_run c es : 0 < w_chunk c -> forall s t, inv c s -> w_pend s <> None -> wrun c es s = Some t ->
  w_term t = true \/ (w_sent t = w_sent s /\ w_pend t = w_pend s).
Proof.
  intros C. induction es as [|e es IH]; cbn [wrun]; intros s t I P H; [inversion H; auto|].
  destruct (wstep c e s) as [u|] eqn:E; [|discriminate].
  pose proof (inv_step c e s u C I E) as J.
  destruct (stuck_step c e s u C I P E) as [A|[A B]].
  - left. clear -A J H C. revert u A J H. induction es as [|e es IH]; cbn [wrun]; intros u A J H; [inversion H; subst; exact A|].
    destruct (wstep c e u) as [v|] eqn:E; [|discriminate].
    exact (IH v (term_step c e u v C J E A) (inv_step c e u v C J E) H).
  - rewrite <- A, <- B. apply (IH u t J); [congruence|exact H].
Qed.

Theorem C88_blocked_write_is_the_last c es s es' t : 0 < w_chunk c ->
  wrun c es (winit c) = Some s -> w_pend s <> None -> wrun c es' s = Some t ->
  w_term t = true \/ w_sent t = w_sent s.
Proof.
  intros C H P H'. destruct (stuck_run c es' C s t (inv_run c es C _ _ (inv_init c) H) P H') as [A|[A _]]; auto.
Qed.
Print Assumptions C88_blocked_write_is_the_last.

Theorem C88_repetition_refused c es s f take ws h t : 0 < w_chunk c ->
  wrun c es (winit c) = Some s -> w_pend s <> None -> w_sf s <> SfHs ->
  wstep c (WIo false true f take ws h) s = Some t -> w_term t = true.
Proof.
  intros C H P F E. pose proof (inv_run c es C _ _ (inv_init c) H) as I.
  cbn [wstep] in E. apply guard_some in E. destruct E as [_ E]. inversion E. unfold call_send.
  destruct (send_loop_ok c (w_q s) ws s (i_pend _ _ I)). destruct (w_sf s); [congruence| |]; apply so_stuck; exact P.
Qed.
Print Assumptions C88_repetition_refused.

(** ** What an ordinary step does to the flags *)
Lemma pend_none_step c e s t : 0 < w_chunk c -> inv c s -> no_block e = true \/ w_tls c = false ->
  w_pend s = None -> wstep c e s = Some t -> w_pend t = None.
Proof.
  intros C I B P H.
  assert (S : forall ws h s1, w_pend s1 = None -> existsb is_block ws = false \/ w_tls c = false -> w_pend (call_send c ws h s1) = None).
  { intros ws h s1 A D. unfold call_send.
    assert (Z : w_pend (send_loop c (w_q s1) ws s1) = None).
    { destruct (w_pend (send_loop c (w_q s1) ws s1)) eqn:E; [|reflexivity]. exfalso.
      assert (Q : pend_inv c (w_q s1) s1) by (unfold pend_inv; rewrite A; exact Logic.I).
      destruct (send_loop_ok c (w_q s1) ws s1 Q). rewrite E in so_block.
      destruct so_block as [X|[X Y]]; [discriminate|congruence|].
      destruct D as [D|D]; [exact (not_in_block _ D Y)|congruence]. }
    destruct (w_sf s1); auto. destruct (handshake_same h (set_rs true s1)) as [_ [_ [_ X]]]. rewrite X. exact A. }
  destruct e; cbn [wstep] in H; unfold no_block in B; cbn [answers] in B; rewrite ?negb_true_iff in B.
  - inversion H. exact P.
  - inversion H. exact P.
  - apply guard_some in H. destruct H as [_ H]. destruct (w_rs s); inversion H; subst; auto.
  - apply guard_some in H. destruct H as [_ H]. destruct r.
    + destruct (call_recv_stuck _ _ _ _ _ _ C (i_mode _ _ I) H). congruence.
    + inversion H. auto.
  - apply guard_some in H. destruct H as [_ H]. inversion H. cbn [set_mask w_sf]. destruct (w_sf s); auto.
    destruct (handshake_same h (set_rs true (set_mask false false s))) as [_ [_ [_ X]]]. rewrite X. exact P.
  - apply guard_some in H. destruct H as [_ H]. destruct (w_tls c); [destruct ok|]; inversion H; auto.
  - apply guard_some in H. destruct H as [_ H].
    destruct (w_rr (eat take s) && _); [|inversion H; auto].
    destruct (call_recv_stuck c f more HErr (set_mask true (negb (w_rs (eat take s))) (eat take s)) t C (i_mode _ _ I) H) as [_ X]. rewrite X. exact P.
  - inversion H. exact P.
  - apply guard_some in H. destruct H as [_ H]. inversion H. exact P.
Qed.

Lemma bad_step c e s t : 0 < w_chunk c -> inv c s -> w_pend s = None -> w_bad s = false ->
  wstep c e s = Some t -> w_bad t = false.
Proof.
  intros C I P B H.
  assert (HS : forall h s1, w_bad (handshake h s1) = w_bad s1) by (intros [[|]| | |] s1; reflexivity).
  assert (S : forall ws h s1, w_pend s1 = None -> w_bad s1 = false -> w_bad (call_send c ws h s1) = false).
  { intros ws h s1 A D. unfold call_send.
    assert (Z : w_bad (send_loop c (w_q s1) ws s1) = false).
    { destruct (w_bad (send_loop c (w_q s1) ws s1)) eqn:E; [|reflexivity]. exfalso.
      assert (Q : pend_inv c (w_q s1) s1) by (unfold pend_inv; rewrite A; exact Logic.I).
      destruct (send_loop_ok c (w_q s1) ws s1 Q). destruct (so_bad E) as [X|[X _]]; congruence. }
    destruct (w_sf s1); auto. rewrite HS. exact D. }
  assert (R : forall f k h s1, w_bad s1 = false -> (w_tls c = false -> w_plain s1 = []) -> call_recv c f k h s1 = Some t -> w_bad t = false).
  { intros f k h s1 A D X. unfold call_recv in X.
    assert (Z : recv_data c f k s1 = Some t -> w_bad t = false).
    { intros Y. apply recv_loop_ok in Y; [|exact C|exact D]. destruct Y.
      destruct rk_out as (_ & _ & _ & _ & _ & _ & _ & _ & _ & _ & _ & Y). congruence. }
    destruct (w_rf s1); auto; inversion X; subst; auto. rewrite HS. exact A. }
  destruct e; cbn [wstep] in H.
  - inversion H. exact B.
  - inversion H. exact B.
  - apply guard_some in H. destruct H as [_ H]. destruct (w_rs s); inversion H; subst; auto.
  - apply guard_some in H. destruct H as [_ H]. destruct r; [exact (R _ _ _ _ B (i_mode _ _ I) H)|]. inversion H. auto.
  - apply guard_some in H. destruct H as [_ H]. inversion H. cbn [set_mask w_sf]. destruct (w_sf s); auto. rewrite HS. exact B.
  - apply guard_some in H. destruct H as [_ H]. destruct (w_tls c); [destruct ok|]; inversion H; auto.
  - apply guard_some in H. destruct H as [_ H].
    destruct (w_rr (eat take s) && _); [|inversion H; exact B].
    refine (R _ _ _ _ _ _ H); [exact B|exact (i_mode _ _ I)].
  - inversion H. exact B.
  - apply guard_some in H. destruct H as [_ H]. inversion H. exact B.
Qed.

(** Missing in C88: a write that blocks.  Without one (and always without TLS) no
    repetition is refused. *)
Theorem C88_no_refusal_partial c es s : 0 < w_chunk c ->
  forallb no_block es = true \/ w_tls c = false ->
  wrun c es (winit c) = Some s -> w_bad s = false.
Proof.
  intros C N. assert (Z : forall s, inv c s -> w_pend s = None -> w_bad s = false -> forall t, wrun c es s = Some t -> w_bad t = false).
  { clear s. induction es as [|e es IH]; cbn [wrun]; intros s I P B t H; [inversion H; subst; exact B|].
    destruct (wstep c e s) as [u|] eqn:E; [|discriminate].
    assert (M : (no_block e = true \/ w_tls c = false) /\ (forallb no_block es = true \/ w_tls c = false)).
    { destruct N as [N|N]; [|auto]. cbn [forallb] in N. apply andb_prop in N. tauto. }
    destruct M as [M1 M2].
    exact (IH M2 u (inv_step c e s u C I E) (pend_none_step c e s u C I M1 P E) (bad_step c e s u C I P B E) t H). }
  apply (Z _ (inv_init c)); unfold winit; destruct (w_tls c); reflexivity.
Qed.
Print Assumptions C88_no_refusal_partial.

(** * C93: a connection is only given up when something failed *)
Lemma fine_step c e s t : 0 < w_chunk c -> inv c s -> fine e = true -> w_pend s = None ->
  w_term s = false -> wstep c e s = Some t -> w_term t = false.
Proof.
  intros C I F P T H.
  assert (HS : forall h s1, fine_h h = true -> w_term s1 = false -> w_term (handshake h s1) = false).
  { intros [[|]| | |] s1 X Y; try discriminate X; exact Y. }
  assert (S : forall ws h s1, forallb fine_w ws = true -> (w_sf s1 = SfHs -> fine_h h = true) ->
              w_pend s1 = None -> w_term s1 = false -> w_term (call_send c ws h s1) = false).
  { intros ws h s1 X X' A D. unfold call_send.
    assert (Z : w_term (send_loop c (w_q s1) ws s1) = false).
    { destruct (w_term (send_loop c (w_q s1) ws s1)) eqn:E; [|reflexivity]. exfalso.
      assert (Q : pend_inv c (w_q s1) s1) by (unfold pend_inv; rewrite A; exact Logic.I).
      destruct (send_loop_ok c (w_q s1) ws s1 Q). destruct (so_fault E) as [Y|[Y|[Y|Y]]]; try congruence.
      - exact (fine_not _ WErr X eq_refl Y).
      - exact (fine_not _ WWantRead X eq_refl Y). }
    destruct (w_sf s1); auto. }
  assert (R : forall k h s1, (w_rf s1 = RfHs -> fine_h h = true) -> w_term s1 = false ->
              (w_tls c = false -> w_plain s1 = []) -> call_recv c RBlock k h s1 = Some t -> w_term t = false).
  { intros k h s1 X A D Y. unfold call_recv in Y.
    assert (Z : recv_data c RBlock k s1 = Some t -> w_term t = false).
    { intros W. apply recv_loop_ok in W; [|exact C|exact D]. destruct W.
      destruct (w_term t) eqn:E; [|reflexivity]. exfalso. exact (rk_fault A eq_refl eq_refl). }
    destruct (w_rf s1); auto; inversion Y; subst; auto. }
  assert (G0 : w_reg s = true \/ w_ok s = true -> w_sf s <> SfHs /\ w_rf s <> RfHs).
  { intros X. destruct (w_tls c) eqn:TL.
    - destruct (i_fun1 _ _ I TL) as [[_ [_ [Y Z]]]|[Y [[Z _]|[Z _]]]]; [destruct X; congruence| |]; split; congruence.
    - destruct (i_fun0 _ _ I TL) as [Y Z]. split; congruence. }
  destruct e; cbn [wstep fine] in *; try discriminate F.
  - inversion H. exact T.
  - inversion H. exact T.
  - apply guard_some in H. destruct H as [G H]. apply andb_prop in G. destruct G as [_ G].
    destruct (w_rs s); inversion H; subst; auto. apply S; auto.
    intros X. destruct (G0 (or_introl G)) as [Y _]. destruct (Y X).
  - apply guard_some in H. destruct H as [_ H]. apply andb_prop in F. destruct F as [F F3].
    apply andb_prop in F. destruct F as [F1 F2]. destruct f; try discriminate F1. destruct r.
    + refine (R _ _ _ _ T (i_mode _ _ I) H). auto.
    + inversion H. auto.
  - apply guard_some in H. destruct H as [_ H]. subst ok. destruct (w_tls c); inversion H; exact T.
  - apply guard_some in H. destruct H as [G H]. apply andb_prop in G. destruct G as [_ G].
    destruct f; try discriminate F.
    destruct (w_rr (eat take s) && _); [|inversion H; exact T].
    refine (R _ _ _ _ _ _ H); [|exact T|exact (i_mode _ _ I)].
    intros X. destruct (G0 (or_intror G)) as [_ Y]. destruct (Y X).
Qed.

(** Missing in C93: the engine asking for the other direction, and (C88) a TLS write
    that blocks. *)
Theorem C93_kept_partial c es s : 0 < w_chunk c ->
  forallb fine es = true -> forallb no_block es = true \/ w_tls c = false ->
  wrun c es (winit c) = Some s -> w_term s = false.
Proof.
  intros C F N.
  assert (Z : forall s, inv c s -> w_pend s = None -> w_term s = false -> forall t, wrun c es s = Some t -> w_term t = false).
  { clear s. induction es as [|e es IH]; cbn [wrun]; intros s I P B t H; [inversion H; subst; exact B|].
    destruct (wstep c e s) as [u|] eqn:E; [|discriminate].
    cbn [forallb] in F. apply andb_prop in F. destruct F as [F1 F2].
    assert (M : (no_block e = true \/ w_tls c = false) /\ (forallb no_block es = true \/ w_tls c = false)).
    { destruct N as [N|N]; [|auto]. cbn [forallb] in N. apply andb_prop in N. tauto. }
    destruct M as [M1 M2].
    exact (IH F2 M2 u (inv_step c e s u C I E) (pend_none_step c e s u C I M1 P E) (fine_step c e s u C I F1 P B E) t H). }
  apply (Z _ (inv_init c)); unfold winit; destruct (w_tls c); reflexivity.
Qed.
Print Assumptions C93_kept_partial.

(** * Runs *)
Definition tls4 : wcfg := mkCfg 4 2 true.
Definition tcp4 : wcfg := mkCfg 4 2 false.
Definition at_ (c : wcfg) (es : list wev) : wst := match wrun c es (winit c) with Some s => s | None => winit c end.
Definition hands : list wev :=
  [WIo true true RBlock 0 [] HWantRead; WIo true false RBlock 0 [] HWantWrite; WIo false true RBlock 0 [] (HDone true)].
Definition abc : bytes := [x61; x62; x63].

(** C88 fails: nothing goes wrong but a full socket buffer, and the engine refuses the
    repetition, as it is given another buffer. *)
Definition full_once : list wev :=
  hands ++ [WApprove true; WPush abc; WQueue [WBlock]; WIo false true RBlock 0 [] (HDone true)].
Theorem C88_repetition_refuted :
  exists c es s, wrun c es (winit c) = Some s /\ 0 < w_chunk c /\ w_tls c = true /\
    forallb fine es = true /\ w_bad s = true /\ w_term s = true /\ w_sent s = [] /\ pushed es <> [].
Proof.
  exists tls4, full_once, (at_ tls4 full_once). split; [vm_compute; reflexivity|]. split; [cbn; lia|].
  split; [reflexivity|]. split; [reflexivity|]. split; [vm_compute; reflexivity|]. split; [vm_compute; reflexivity|].
  split; [vm_compute; reflexivity|discriminate].
Qed.
Print Assumptions C88_repetition_refuted.

(** The state between the two writes meets the hypotheses of the two theorems on blocked
    writes. *)
Example C88_blocked_nonvacuous :
  let es := hands ++ [WApprove true; WPush abc; WPush abc; WQueue [WN 3; WBlock]] in
  wrun tls4 es (winit tls4) = Some (at_ tls4 es) /\ w_pend (at_ tls4 es) = Some (3, 3) /\
  w_sf (at_ tls4 es) = SfTls /\ w_sent (at_ tls4 es) = abc /\ w_term (at_ tls4 es) = false /\
  wstep tls4 (WIo false true RBlock 0 [] (HDone true)) (at_ tls4 es) <> None.
Proof.
  cbv zeta. split; [vm_compute; reflexivity|]. split; [vm_compute; reflexivity|]. split; [vm_compute; reflexivity|].
  split; [vm_compute; reflexivity|]. split; [vm_compute; reflexivity|]. vm_compute. discriminate.
Qed.

(** An ordinary TLS connection: handshake, partial writes, a record larger than the
    buffer allows. *)
Definition ordinary : list wev :=
  hands ++ [WPush abc; WQueue [WN 2]; WApprove true; WIo false true RBlock 0 [] HWantRead;
            WArrive (abc ++ abc ++ abc ++ abc); WIo true false RBlock 9 [] HWantRead].
Example C88_no_refusal_nonvacuous :
  forallb fine ordinary = true /\ forallb no_block ordinary = true /\
  wrun tls4 ordinary (winit tls4) = Some (at_ tls4 ordinary) /\
  w_sent (at_ tls4 ordinary) = abc /\ w_plain (at_ tls4 ordinary) = [x63; x61; x62; x63] /\
  w_rr (at_ tls4 ordinary) = true /\ w_rf (at_ tls4 ordinary) = RfTls /\
  length (w_rbuf (at_ tls4 ordinary)) = 2 /\ w_ok (at_ tls4 ordinary) = true /\ w_term (at_ tls4 ordinary) = false.
Proof.
  split; [reflexivity|]. split; [reflexivity|]. split; [vm_compute; reflexivity|].
  split; [vm_compute; reflexivity|]. split; [vm_compute; reflexivity|]. split; [vm_compute; reflexivity|].
  split; [vm_compute; reflexivity|]. split; [vm_compute; reflexivity|]. split; vm_compute; reflexivity.
Qed.
Example C89_resumed_nonvacuous :
  exists t, wstep tls4 (WTimer RBlock 2 0) (at_ tls4 ordinary) = Some t /\ w_plain t = [] /\ w_rr t = false /\
    w_rbuf t = [[x63; x61; x62; x63]] /\ w_got t = [x61; x62; x63; x61; x62; x63; x61; x62].
Proof.
  eexists. split; [vm_compute; reflexivity|]. split; [reflexivity|]. split; [reflexivity|]. split; reflexivity.
Qed.
Example C90_nonvacuous :
  let es := firstn 2 hands in
  wrun tls4 es (winit tls4) = Some (at_ tls4 es) /\ w_sf (at_ tls4 es) = SfHs /\
  w_want (at_ tls4 es) = (false, true) /\ w_up (at_ tls4 es) = true /\ w_term (at_ tls4 es) = false /\
  exists t, wstep tls4 (WIo false true RBlock 0 [] HWantRead) (at_ tls4 es) = Some t.
Proof.
  cbv zeta. split; [vm_compute; reflexivity|]. split; [vm_compute; reflexivity|]. split; [vm_compute; reflexivity|].
  split; [vm_compute; reflexivity|]. split; [vm_compute; reflexivity|]. eexists. vm_compute. reflexivity.
Qed.
Example C94_nonvacuous :
  pushed ordinary = abc /\ arrived ordinary = abc ++ abc ++ abc ++ abc /\
  wrun tls4 ordinary (winit tls4) = Some (at_ tls4 ordinary).
Proof. split; [reflexivity|]. split; [reflexivity|]. vm_compute. reflexivity. Qed.
Example C95_nonvacuous :
  let es := [WApprove true; WPush abc; WIo false true RBlock 0 [WBlock] HErr] in
  wrun tcp4 es (winit tcp4) = Some (at_ tcp4 es) /\ w_ok (at_ tcp4 es) = true /\ w_up (at_ tcp4 es) = true /\
  w_term (at_ tcp4 es) = false /\ w_rr (at_ tcp4 es) = false /\ w_rs (at_ tcp4 es) = false /\
  w_q (at_ tcp4 es) = [(1, abc)].
Proof.
  cbv zeta. split; [vm_compute; reflexivity|]. split; [vm_compute; reflexivity|]. split; [vm_compute; reflexivity|].
  split; [vm_compute; reflexivity|]. split; [vm_compute; reflexivity|]. split; vm_compute; reflexivity.
Qed.

(** * C91: reading does not hold up writing *)
(** It does: as long as more data come in than one callback reads, a socket that is
    readable and writable is only read, for any number of callbacks. *)
Fixpoint flood (n : nat) : list wev :=
  match n with O => [] | S m => WArrive [x61] :: WIo true true RBlock 1 [] HErr :: flood m end.
Definition starved (got : bytes) : wst :=
  mkW SfPlain RfPlain true true false false [(0, abc)] 1 None [] got [] [] [] (false, false) true true false true false.
Lemma flood_run n : forall got, exists g, wrun tcp4 (flood n) (starved got) = Some (starved g).
Proof.
  induction n as [|n IH]; intros got; [exists got; reflexivity|].
  destruct (IH (got ++ [x61])) as [g H]. exists g. cbn [flood wrun].
  change (wstep tcp4 (WArrive [x61]) (starved got)) with
    (Some (mkW SfPlain RfPlain true true false false [(0, abc)] 1 None [] got [] [] [[x61]] (false, false) true true false true false)).
  cbn beta iota.
  change (wstep tcp4 (WIo true true RBlock 1 [] HErr) _) with (Some (starved (got ++ [x61]))).
  exact H.
Qed.
Fixpoint both_ready (es : list wev) : nat :=
  match es with [] => 0 | WIo true true _ _ _ _ :: r => S (both_ready r) | _ :: r => both_ready r end.
Theorem C91_reading_first_refuted : forall n,
  exists c es s, wrun c es (winit c) = Some s /\ 0 < w_chunk c /\ both_ready es = n /\ pushed es = abc /\
    w_sent s = [] /\ w_ok s = true /\ w_up s = true /\ w_term s = false.
Proof.
  intros n. destruct (flood_run n []) as [g H].
  exists tcp4, ([WPush abc; WApprove true] ++ flood n), (starved g).
  assert (B : both_ready (flood n) = n /\ pushed (flood n) = []).
  { clear. induction n as [|n [IH1 IH2]]; [auto|]. cbn [flood both_ready pushed]. auto. }
  destruct B as [B1 B2].
  split; [exact H|]. split; [cbn; lia|]. cbn [app both_ready pushed]. rewrite B2. split; [exact B1|].
  split; [reflexivity|]. auto.
Qed.
Print Assumptions C91_reading_first_refuted.

(** Missing in C91: sockets that are readable all the time.  When the socket is not
    reported readable, a writing callback sends. *)
Theorem C91_written_partial c es s f take n ws h a d q t : 0 < w_chunk c ->
  wrun c es (winit c) = Some s -> w_sf s <> SfHs -> w_pend s = None ->
  w_q s = (a, d) :: q -> d <> [] -> 0 < n ->
  wstep c (WIo false true f take (WN n :: ws) h) s = Some t ->
  exists more, w_sent t = w_sent s ++ firstn n d ++ more.
Proof.
  intros C H F P Q D N E. pose proof (inv_run c es C _ _ (inv_init c) H) as I.
  cbn [wstep] in E. apply guard_some in E. destruct E as [_ E].
  assert (X : t = send_loop c (w_q s) (WN n :: ws) s).
  { inversion E. unfold call_send. destruct (w_sf s); congruence. }
  rewrite X, Q. cbn [send_loop hd tl]. destruct d as [|x d]; [congruence|].
  assert (R : retry_ok c (w_next s) (length (x :: d)) (set_q q (S (w_next s)) s) = true).
  { unfold retry_ok. cbn [set_q w_pend]. rewrite P. destruct (w_tls c); reflexivity. }
  rewrite R. cbn [negb]. destruct (Nat.eqb n 0) eqn:Z; [apply Nat.eqb_eq in Z; lia|].
  destruct (Nat.leb (length (x :: d)) n) eqn:L.
  - apply Nat.leb_le in L. rewrite firstn_all2 by exact L.
    assert (G : forall q ws s1, exists more, w_sent (send_loop c q ws s1) = w_sent s1 ++ more).
    { clear. induction q as [|[b e] q IH]; intros ws s1; cbn [send_loop]; [exists []; cbn; rewrite app_nil_r; reflexivity|].
      destruct e as [|y e]; [exists []; cbn; rewrite app_nil_r; reflexivity|].
      destruct (negb _); [exists []; cbn; rewrite app_nil_r; reflexivity|].
      destruct (hd _ ws) as [m| | |]; try (exists []; cbn; rewrite app_nil_r; reflexivity).
      destruct (Nat.eqb m 0); [exists []; cbn; rewrite app_nil_r; reflexivity|].
      destruct (Nat.leb _ m).
      - destruct (IH (tl ws) (add_sent (y :: e) (set_pend None (set_q q (S (w_next s1)) s1)))) as [more M].
        rewrite M. cbn [add_sent w_sent set_pend set_q]. rewrite <- app_assoc. eexists. reflexivity.
      - eexists. cbn [set_rs set_q add_sent set_pend w_sent]. reflexivity. }
    destruct (G q ws (add_sent (x :: d) (set_pend None (set_q q (S (w_next s)) s)))) as [more M].
    exists more. rewrite M. cbn [add_sent w_sent set_pend set_q]. rewrite <- app_assoc. reflexivity.
  - exists []. cbn [set_rs set_q add_sent set_pend w_sent]. rewrite app_nil_r. reflexivity.
Qed.
Print Assumptions C91_written_partial.

(** Nor is a full buffer the end: then the socket is not asked for readability, so the
    next callback writes. *)
Theorem C91_full_buffer_partial c es s : 0 < w_chunk c -> wrun c es (winit c) = Some s ->
  w_ok s = true -> w_up s = true -> w_term s = false -> w_rr s = true ->
  (forall w f take ws h, wstep c (WIo true w f take ws h) s = None) /\ (w_rs s = false -> w_wr s = true).
Proof.
  intros C H O U T R. pose proof (inv_run c es C _ _ (inv_init c) H) as I.
  destruct (i_dir _ _ I O U T) as [D1 D2]. split; [|exact D2].
  intros w f take ws h. cbn [wstep]. rewrite D1, R, U. cbn [negb orb andb implb]. destruct w; reflexivity.
Qed.
Print Assumptions C91_full_buffer_partial.
Example C91_written_nonvacuous :
  let es := [WPush abc; WApprove true] in
  wrun tcp4 es (winit tcp4) = Some (at_ tcp4 es) /\ w_q (at_ tcp4 es) = [(0, abc)] /\ w_pend (at_ tcp4 es) = None /\
  exists t, wstep tcp4 (WIo false true RBlock 0 [WN 2] HErr) (at_ tcp4 es) = Some t /\ w_sent t = [x61; x62].
Proof.
  cbv zeta. split; [vm_compute; reflexivity|]. split; [vm_compute; reflexivity|]. split; [vm_compute; reflexivity|].
  eexists. split; [vm_compute; reflexivity|]. reflexivity.
Qed.

(** * C92: a connection with nothing to do does not keep its worker busy *)
(** It does: written to before it is approved, a TLS connection asks for readability and
    reads nothing; the callback leaves everything as it was and is called again. *)
Definition spinning : list wev := hands ++ [WPush abc; WQueue []; WArrive abc].
Theorem C92_busy_refuted :
  exists c es s, wrun c es (winit c) = Some s /\ 0 < w_chunk c /\ forallb fine es = true /\
    w_up s = true /\ w_term s = false /\ concat (w_sock s) <> [] /\
    forall f take ws h, wstep c (WIo true false f take ws h) s = Some s.
Proof.
  exists tls4, spinning, (at_ tls4 spinning). split; [vm_compute; reflexivity|]. split; [cbn; lia|].
  split; [reflexivity|]. split; [vm_compute; reflexivity|]. split; [vm_compute; reflexivity|].
  split; [vm_compute; discriminate|]. intros f take ws h. vm_compute. reflexivity.
Qed.
Print Assumptions C92_busy_refuted.

Lemma recv_loop_less c f take : 0 < w_chunk c -> forall fuel s t,
  (w_tls c = false -> w_plain s = []) -> recv_loop c fuel f take s = Some t ->
  length (w_plain t ++ concat (w_sock t)) <= length (w_plain s ++ concat (w_sock s)) /\
  (w_plain s ++ concat (w_sock s) <> [] ->
   w_rd t = false \/ length (w_plain t ++ concat (w_sock t)) < length (w_plain s ++ concat (w_sock s))).
Proof.
  intros C. induction fuel as [|fuel IH]; intros s t P H; [discriminate|]. cbn [recv_loop] in H.
  destruct (Nat.leb _ _); [inversion H; subst; split; [cbn; lia|]; intros _; left; reflexivity|].
  destruct (read c (w_chunk c) s) as [d s1] eqn:R. apply read_spec in R; [|exact P]. destruct R.
  rewrite <- ro_bytes. rewrite (app_length d).
  destruct d as [|x d].
  - specialize (ro_none C eq_refl). rewrite <- ro_bytes in ro_none. cbn [app] in ro_none.
    destruct f; inversion H; subst; cbn [term set_life eat set_rr w_plain w_sock]; rewrite ro_none; cbn; (split; [lia|]); intros X; exfalso; apply X; reflexivity.
  - destruct (Nat.eqb _ _).
    + apply IH in H; [|exact ro_mode]. destruct H as [H _]. cbn [set_in w_plain w_sock] in H. cbn [length]. split; [lia|]. intros _. right. lia.
    + inversion H; subst. cbn [eat set_rr set_in w_plain w_sock length]. split; [lia|]. intros _. right. lia.
Qed.

(** Missing in C92: the time between handshake and approval.  Afterwards a reading
    callback takes data in or stops asking for readability ... *)
Theorem C92_reading_partial c es s w f take ws h t : 0 < w_chunk c ->
  wrun c es (winit c) = Some s -> w_rf s = RfPlain \/ w_rf s = RfTls ->
  w_plain s ++ concat (w_sock s) <> [] ->
  wstep c (WIo true w f take ws h) s = Some t ->
  w_rd t = false \/ length (w_plain t ++ concat (w_sock t)) < length (w_plain s ++ concat (w_sock s)).
Proof.
  intros C H F D E. pose proof (inv_run c es C _ _ (inv_init c) H) as I.
  cbn [wstep] in E. apply guard_some in E. destruct E as [_ E]. unfold call_recv in E.
  assert (X : recv_data c f take s = Some t) by (destruct F as [F|F]; rewrite F in E; exact E).
  exact (proj2 (recv_loop_less c f take C _ s t (i_mode _ _ I) X) D).
Qed.
Print Assumptions C92_reading_partial.

(** ... and a writing callback whose data are all taken stops asking for writability
    (or the connection is given up: C88). *)
Lemma send_all c q : forall s, w_term (send_loop c q [] s) = true \/ w_wr (send_loop c q [] s) = false.
Proof.
  induction q as [|[a d] q IH]; intros s; cbn [send_loop]; [right; reflexivity|].
  destruct d as [|x d]; [right; reflexivity|]. destruct (negb _); [left; reflexivity|].
  cbn [hd]. cbn [length Nat.eqb]. rewrite Nat.leb_refl. apply IH.
Qed.
Theorem C92_writing_partial c s f take h t : w_sf s <> SfHs ->
  wstep c (WIo false true f take [] h) s = Some t -> w_term t = true \/ w_wr t = false.
Proof.
  intros F E. cbn [wstep] in E. apply guard_some in E. destruct E as [_ E]. inversion E. unfold call_send.
  destruct (w_sf s); [congruence| |]; apply send_all.
Qed.
Print Assumptions C92_writing_partial.

(** Before approval, if nothing is written, the socket is not waited for at all. *)
Definition is_queue (e : wev) : bool := match e with WQueue _ => true | _ => false end.
Lemma quiet_step c e s t : 0 < w_chunk c -> inv c s -> is_queue e = false -> wstep c e s = Some t ->
  (w_term s = false -> w_rf s = RfDummy -> w_rd s = false /\ w_wr s = false) ->
  w_term t = false -> w_rf t = RfDummy -> w_rd t = false /\ w_wr t = false.
Proof.
  intros C I N H D0 T0 E.
  assert (TS : w_term s = false).
  { destruct (w_term s) eqn:X; [|reflexivity]. rewrite (term_step c e s t C I H X) in T0. discriminate. }
  pose proof (D0 TS) as D. clear D0.
  assert (HS : forall h s1, w_rf s1 = RfHs -> w_rf (handshake h s1) = RfDummy ->
               w_rd (handshake h s1) = false /\ w_wr (handshake h s1) = false).
  { intros [[|]| | |] s1 X; cbn; rewrite ?X; intros Y; try discriminate Y; auto. }
  assert (DS : w_sf s = SfHs -> w_rf s = RfHs).
  { intros X. destruct (w_tls c) eqn:T.
    - destruct (i_fun1 _ _ I T) as [[_ [Y _]]|[Y _]]; congruence.
    - destruct (i_fun0 _ _ I T); congruence. }
  destruct e; cbn [wstep is_queue] in *; try discriminate N.
  - inversion H; subst. exact (D E).
  - inversion H; subst. exact (D E).
  - apply guard_some in H. destruct H as [G H].
    apply andb_prop in G. destruct G as [G GW]. apply andb_prop in G. destruct G as [G GR].
    apply andb_prop in G. destruct G as [_ G]. destruct r.
    + unfold call_recv in H. destruct (w_rf s) eqn:F.
      * inversion H; subst. apply HS; assumption.
      * apply recv_loop_ok in H; [|exact C|apply I]. destruct H. destruct rk_out as (_ & X & _). congruence.
      * apply recv_loop_ok in H; [|exact C|apply I]. destruct H. destruct rk_out as (_ & X & _). congruence.
      * destruct (D eq_refl) as [X _]. rewrite X in GR. discriminate.
    + destruct w; [|discriminate]. inversion H; subst t. unfold call_send in *. destruct (w_sf s) eqn:F.
      * apply HS; [exact (DS eq_refl)|exact E].
      * destruct (send_in_same c (w_q s) ws s) as (_ & X & _). rewrite X in E. destruct (D E) as [_ Y]. rewrite Y in GW. discriminate.
      * destruct (send_in_same c (w_q s) ws s) as (_ & X & _). rewrite X in E. destruct (D E) as [_ Y]. rewrite Y in GW. discriminate.
  - apply guard_some in H. destruct H as [_ H]. inversion H; subst t. cbn [set_mask w_sf] in *.
    destruct (w_sf s) eqn:F; [|auto|auto]. apply HS; [exact (DS eq_refl)|exact E].
  - apply guard_some in H. destruct H as [_ H]. destruct (w_tls c) eqn:T; [destruct ok|].
    + inversion H; subst. discriminate E.
    + inversion H; subst. exact (D E).
    + inversion H; subst. destruct (i_fun0 _ _ I T) as [_ X]. cbn in E. congruence.
  - apply guard_some in H. destruct H as [G H]. apply andb_prop in G. destruct G as [U G].
    destruct (w_rr (eat take s) && _) eqn:R; [|inversion H; subst; exact (D E)].
    exfalso. unfold call_recv in H. cbn [set_mask eat w_rf] in H.
    destruct (w_rf s) eqn:F.
    + destruct (w_tls c) eqn:T.
      * destruct (i_fun1 _ _ I T) as [[_ [_ [_ Y]]]|[_ [[Y _]|[Y _]]]]; congruence.
      * destruct (i_fun0 _ _ I T); congruence.
    + apply recv_loop_ok in H; [|exact C|apply I]. destruct H. destruct rk_out as (_ & X & _). cbn in X. congruence.
    + apply recv_loop_ok in H; [|exact C|apply I]. destruct H. destruct rk_out as (_ & X & _). cbn in X. congruence.
    + destruct (w_tls c) eqn:T.
      * destruct (i_fun1 _ _ I T) as [[_ [Y _]]|[_ [[_ Y]|[Y _]]]]; [congruence| |congruence].
        rewrite (Y G) in TS. discriminate.
      * destruct (i_fun0 _ _ I T); congruence.
  - inversion H; subst. exact (D E).
  - apply guard_some in H. destruct H as [_ H]. inversion H; subst. auto.
Qed.
Theorem C92_unapproved_partial c es s : 0 < w_chunk c -> existsb is_queue es = false ->
  wrun c es (winit c) = Some s -> w_term s = false -> w_rf s = RfDummy ->
  w_rd s = false /\ w_wr s = false.
Proof.
  intros C N.
  assert (Z : forall s, inv c s -> (w_term s = false -> w_rf s = RfDummy -> w_rd s = false /\ w_wr s = false) ->
              forall t, wrun c es s = Some t -> w_term t = false -> w_rf t = RfDummy -> w_rd t = false /\ w_wr t = false).
  { clear s. induction es as [|e es IH]; cbn [wrun]; intros s I D t H; [inversion H; subst; exact D|].
    destruct (wstep c e s) as [u|] eqn:E; [|discriminate]. cbn [existsb] in N. apply orb_false_iff in N. destruct N as [N1 N2].
    exact (IH N2 u (inv_step c e s u C I E) (quiet_step c e s u C I N1 E D) t H). }
  apply (Z _ (inv_init c)). unfold winit. destruct (w_tls c); cbn; intros; discriminate.
Qed.
Print Assumptions C92_unapproved_partial.
Example C92_nonvacuous :
  wrun tls4 hands (winit tls4) = Some (at_ tls4 hands) /\ w_rf (at_ tls4 hands) = RfDummy /\
  w_term (at_ tls4 hands) = false /\ existsb is_queue hands = false /\
  let es := hands ++ [WApprove true; WArrive abc] in
  wrun tls4 es (winit tls4) = Some (at_ tls4 es) /\ w_rf (at_ tls4 es) = RfTls /\
  w_plain (at_ tls4 es) ++ concat (w_sock (at_ tls4 es)) = abc /\
  (exists t, wstep tls4 (WIo true true RBlock 0 [] HErr) (at_ tls4 es) = Some t) /\
  exists t, wstep tls4 (WIo false true RBlock 0 [] HErr) (at_ tls4 es) = Some t.
Proof.
  split; [vm_compute; reflexivity|]. split; [vm_compute; reflexivity|]. split; [vm_compute; reflexivity|].
  split; [reflexivity|]. cbv zeta. split; [vm_compute; reflexivity|]. split; [vm_compute; reflexivity|].
  split; [vm_compute; reflexivity|]. split; eexists; vm_compute; reflexivity.
Qed.

(** * C93 fails: the engine, writing, needs to read first (or reading, to write); neither
    is an error, and both end the connection *)
Definition write_wants_read : list wev := hands ++ [WApprove true; WPush abc; WIo false true RBlock 0 [WWantRead] HErr].
Definition read_wants_write : list wev := hands ++ [WApprove true; WArrive []; WIo true false RWantWrite 0 [] HErr].
Theorem C93_other_direction_refuted :
  (exists c es s, wrun c es (winit c) = Some s /\ 0 < w_chunk c /\ forallb fine (removelast es) = true /\
     last es WKill = WIo false true RBlock 0 [WWantRead] HErr /\ w_term s = true) /\
  (exists c es s, wrun c es (winit c) = Some s /\ 0 < w_chunk c /\ forallb fine (removelast es) = true /\
     last es WKill = WIo true false RWantWrite 0 [] HErr /\ w_term s = true).
Proof.
  split.
  - exists tls4, write_wants_read, (at_ tls4 write_wants_read). split; [vm_compute; reflexivity|]. split; [cbn; lia|].
    split; [reflexivity|]. split; [reflexivity|]. vm_compute. reflexivity.
  - exists tls4, read_wants_write, (at_ tls4 read_wants_write). split; [vm_compute; reflexivity|]. split; [cbn; lia|].
    split; [reflexivity|]. split; [reflexivity|]. vm_compute. reflexivity.
Qed.
Print Assumptions C93_other_direction_refuted.
(** [ordinary] meets the hypotheses of C93_kept_partial: see C88_no_refusal_nonvacuous. *)
Example C93_kept_nonvacuous :
  forallb fine ordinary = true /\ forallb no_block ordinary = true /\
  wrun tls4 ordinary (winit tls4) = Some (at_ tls4 ordinary).
Proof. split; [reflexivity|]. split; [reflexivity|]. vm_compute. reflexivity. Qed.

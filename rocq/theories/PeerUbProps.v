(** C74: null pointers and uninitialised flags in the peer network. *)
From Coq Require Import Arith NArith ZArith List Bool Lia.
From Verif Require Import PeerModel PeerInv PeerStep PeerRegProps PeerRetryProps PeerCalmProps PeerCbProps.
Import ListNotations.

(** ** Specification *)

(** The peer was reported connected at some time, or is about to be. *)
Definition ever_up (s : st) (o : list obs) (p : nat) : Prop := exists c, In (OCb p c true) o \/ In (UCb p c true) (s_uq s).

(** The step to come is not a conn_peer for a peer whose connection is just being
    replaced by an incoming one. *)
Definition no_late_conn (e : ev) (s : st) : Prop :=
  match e with
  | EDisp _ => match s_q s with TConn _ i _ :: _ => forall p, find_by i (s_known s) = Some p -> p_pre (s_peer s p) = None | _ => True end
  | _ => True
  end.

Section U.
Variable hash : addr -> pid.

Lemma told_in p c b o : In (c, b) (told p o) <-> In (OCb p c b) o.
Proof.
  unfold told. rewrite in_flat_map. split.
  - intros (x & I & X). destruct x; try contradiction X. destruct (Nat.eqb_spec p0 p) as [->|_]; [|contradiction X]. destruct X as [X|[]]. injection X as <- <-. exact I.
  - intros I. exists (OCb p c b). split; [exact I|]. cbn. rewrite Nat.eqb_refl. left. reflexivity.
Qed.
Lemma ever_in s o p : ever_up s o p <-> exists c, In (c, true) (story s o p).
Proof.
  unfold ever_up, story. split; intros (c & H); exists c; rewrite in_app_iff in *; rewrite told_in in *.
  - destruct H as [H|H]; [left; exact H|right]. unfold to_tell. rewrite in_flat_map. exists (UCb p c true). split; [exact H|]. cbn. rewrite Nat.eqb_refl. left. reflexivity.
  - destruct H as [H|H]; [left; exact H|right]. unfold to_tell in H. rewrite in_flat_map in H. destruct H as (x & I & X). destruct x; try contradiction X; destruct (Nat.eqb_spec p0 p) as [->|_]; try contradiction X; destruct X as [X|[]]; try discriminate X. injection X as -> ->. exact I.
Qed.

(** ** The heartbeat flags are set once a peer was connected *)

Lemma nonce_ub g p s s' n : get_nonce g p s = Some (s', n) -> forall r, let x := s_peer s' r in let y := s_peer s r in
  p_ptok x = p_ptok y /\ p_pre x = p_pre y /\ p_in x = p_in y /\ p_state x = p_state y /\ p_live x = p_live y.
Proof. intros E r. apply get_nonce_spec in E. destruct E as (-> & _). destruct (p_nonce (s_peer s p) =? 0)%N; [|auto]. sel. unfold upd. destruct (Nat.eqb_spec r p); [subst|]; cbn; auto. Qed.

Lemma nonce_q g p s s' n : get_nonce g p s = Some (s', n) -> s_q s' = s_q s /\ s_uq s' = s_uq s.
Proof. intros E. apply get_nonce_spec in E. destruct E as (-> & _). destruct (_ =? 0)%N; split; reflexivity. Qed.

Ltac other := sel; unfold upd; repeat match goal with |- context [?a =? ?b] => destruct (Nat.eqb_spec a b); [subst|] end; cbn; auto.

Lemma del_peer_same c s r : s_peer (clear_peer_of c s) r = s_peer s r.
Proof. destruct c; reflexivity. Qed.

Lemma ptok_leaf e s s' o r : leaf hash e s s' o -> r < s_np s -> p_ptok (s_peer s r) <> None -> p_ptok (s_peer s' r) <> None.
Proof.
  intros L B H. inversion L; subst; try (other; discriminate);
    try (match goal with G : get_nonce _ _ _ = Some _ |- _ => pose proof (nonce_ub _ _ _ _ _ G r) as (N1 & _) end);
    try (match goal with F : finished _ _ _ _ _ |- _ => rewrite (f_peer _ _ _ _ _ F) end);
    try (unfold reset_ping_timer; other; try rewrite N1; other; discriminate).
  all: try (sel; unfold upd; destruct (Nat.eqb_spec r p); [subst|auto]; unfold x_unpre, x_lost, x_end, x_conn; repeat match goal with |- context [match ?x with _ => _ end] => destruct x end; cbn; auto).
  - sel. rewrite upd_other by lia. exact H.
  - rewrite !del_peer_same. exact H.
  - rewrite !del_peer_same. exact H.
Qed.

Lemma ptok_run es s o p : run hash es st0 = Some (s, o) -> ever_up s o p -> p < s_np s /\ p_ptok (s_peer s p) <> None.
Proof.
  intros E H. revert H. apply (run_inv hash (fun s o => ever_up s o p -> p < s_np s /\ p_ptok (s_peer s p) <> None)) with (es := es); [| | |exact E].
  - intros (c & [[]|[]]).
  - intros e s1 o1 s2 o2 W _ IH L H. rewrite ever_in in H, IH. pose proof (np_leaf hash _ _ _ _ L) as NP.
    assert (OLD : (exists c, In (c, true) (story s1 o1 p)) -> p < s_np s2 /\ p_ptok (s_peer s2 p) <> None).
    { intros X. destruct (IH X) as (B & T). split; [lia|]. exact (ptok_leaf _ _ _ _ _ L B T). }
    destruct (change_leaf hash _ _ _ o1 _ p W L) as [X _|X _ _|c X _ _ _ PT N|c X _ _ _ _ N]; rewrite X in H.
    + exact (OLD H).
    + exact (OLD H).
    + split; [lia|rewrite PT; discriminate].
    + apply OLD. destruct H as (d & D). rewrite in_app_iff in D. destruct D as [D|[D|[]]]; [exists d; exact D|discriminate D].
  - intros s1 s2 o1 Q IH H. rewrite ever_in in H, IH. rewrite (story_eqv _ _ _ _ Q) in H. rewrite <- (q_np _ _ Q), <- (q_peer _ _ Q). exact (IH H).
Qed.

(** An uninitialised flag is read only by the answer to a heartbeat that comes in for a
    peer which was never connected. *)
Theorem C74_uninit_partial : forall es s o e s' o', run hash es st0 = Some (s, o) -> step hash e s = Some (s', o') -> In (OUb Uninit) o' ->
  exists g c n p q, e = EDisp g /\ s_q s = TPong c 0%N n :: q /\ k_peer (s_conn s c) = Some p /\ p_live (s_peer s p) = true /\ ~ ever_up s o p.
Proof.
  intros es s o e s' o' E ST I. destruct (step_leaf _ _ _ _ _ (wf_run _ _ _ _ E) ST) as (HH & s1 & LF & _).
  destruct LF; try solve [repeat (destruct I as [I|I]; [discriminate I|]); destruct I]; try solve [exfalso; eapply mild_noub; eassumption];
    try solve [exfalso; repeat (destruct I as [I|I]; [discriminate I|]); repeat (apply in_app_or in I; destruct I as [I|I]); try (eapply mild_noub; eassumption); repeat (destruct I as [I|I]; [discriminate I|]); destruct I].
  - exfalso. apply in_app_or in I. destruct I as [I|[I|I]]; [destruct (p_addr (s_peer s p) =? 0)%N; [destruct I as [I|[]]; discriminate I|destruct I]|discriminate I|eapply mild_noub; eassumption].
  - exfalso. destruct I as [I|[I|I]]; [discriminate I|discriminate I|]. destruct (p_in (s_peer s p)), (p_out (s_peer s p)); cbn in I; intuition discriminate.
  - exfalso. destruct I as [I|[I|I]]; [discriminate I|discriminate I|]. apply in_app_or in I. destruct I as [I|I]; [eapply mild_noub; eassumption|].
    rewrite H12 in I. destruct (k_term (s_conn s u)); cbn in I; intuition discriminate.
  - exists g, c, n, p, q. repeat split; auto. intros U. apply (ptok_run _ _ _ p E U). assumption.
  - exfalso. destruct I as [I|I]; [discriminate I|]. apply in_app_or in I. destruct I as [I|I]; [eapply mild_noub; eassumption|].
    rewrite H12 in I. destruct (k_term (s_conn s u)); cbn in I; intuition discriminate.
Qed.

(** ** The replaced connection *)

Record P (s : st) : Prop := mkP {
  P_in : forall p, p_pre (s_peer s p) <> None -> p_state (s_peer s p) <> Disconnected /\ p_in (s_peer s p) <> None;
  P_u : forall p c a n, ~ In (UPre p c a n None) (s_uq s);
  P_q : forall a n, ~ In (TPing None a n) (s_q s) }.


Lemma P_leaf e s s' o' : WF s -> s_halt s = false -> P s -> no_late_conn e s -> leaf hash e s s' o' -> P s'.
Proof.
  intros W _ [P1 P2 P3] Q L.
  assert (HP : forall s', (forall p, p_pre (s_peer s' p) <> None -> p_pre (s_peer s p) <> None /\ p_state (s_peer s' p) = p_state (s_peer s p) /\ p_in (s_peer s' p) = p_in (s_peer s p)) ->
    (forall t, In t (s_uq s') -> In t (s_uq s)) -> (forall t, In t (s_q s') -> In t (s_q s)) -> P s').
  { intros t T1 T2 T3. constructor; [|intros ? ? ? ? X; apply T2 in X; exact (P2 _ _ _ _ X)|intros ? ? X; apply T3 in X; exact (P3 _ _ X)].
    intros p X. destruct (T1 p X) as (Y1 & Y2 & Y3). rewrite Y2, Y3. auto. }
  inversion L; subst.
  all: try solve [apply HP; sel; auto; match goal with H : s_q _ = _ |- _ => rewrite H; right; assumption end].
  all: try solve [apply HP; [intros r; sel; unfold upd; destruct (Nat.eqb_spec r p); [subst; cbn; auto|auto]|sel; auto|sel; auto; match goal with H : s_q _ = _ |- _ => rewrite H; right; assumption end]].
  - (* post *) constructor; sel; auto. intros a n X. apply in_app_or in X. destruct X as [X|[X|[]]]; [exact (P3 _ _ X)|]. subst t. discriminate H.
  - constructor; sel; auto. intros r d a n X. apply (P2 r d a n). rewrite H. right. exact X.
  - constructor; sel; auto.
    + intros r d b m X. apply (P2 r d b m). rewrite H. right. exact X.
    + intros b m X. apply in_app_or in X. destruct X as [X|[X|[]]]; [exact (P3 _ _ X)|]. injection X as -> -> ->. apply (P2 p c b m). rewrite H. left. reflexivity.
  - constructor; sel; auto. intros r d b n X. apply (P2 r d b n). rewrite H. right. exact X.
  - (* nonce *) pose proof (nonce_ub _ _ _ _ _ H4) as N. destruct (nonce_q _ _ _ _ _ H4) as (Q1 & Q2). apply HP; [intros r; destruct (N r) as (_ & -> & -> & -> & _); auto|rewrite Q2; auto|rewrite Q1; auto].
  - (* tear *) constructor; sel; auto.
    + intros r. unfold upd. destruct (Nat.eqb_spec r p); [subst|auto]. intros X. exfalso. apply X. reflexivity.
    + intros r d b m X. apply in_app_or in X. destruct X as [X|[X|[]]]; [exact (P2 _ _ _ _ X)|]. injection X as -> -> -> -> X. apply (P1 r); [congruence|exact X].
  - constructor; sel; auto.
    + intros r. unfold upd. destruct (Nat.eqb_spec r p); [subst|auto]. intros X. exfalso. apply X. rewrite <- H5. unfold x_lost, x_end. destruct (p_state _); destruct (x_cur _ =? 0)%Z; reflexivity.
    + intros r d b m X. apply in_app_or in X. destruct X as [X|[X|[]]]; [exact (P2 _ _ _ _ X)|discriminate X].
  - (* add *) constructor; sel; auto.
    + intros r. unfold upd. destruct (Nat.eqb_spec r (s_np s)); [subst|auto]. intros X. exfalso. apply X. reflexivity.
    + intros b m X. apply (P3 b m). rewrite H. right. exact X.
  - (* del *) assert (QQ : forall d t, s_q (clear_peer_of d t) = s_q t /\ s_uq (clear_peer_of d t) = s_uq t) by (intros [d|] t; split; reflexivity).
    apply HP.
    + intros r. unfold st_del. sel. unfold upd. destruct (Nat.eqb_spec r p); [subst|]; cbn; rewrite !del_peer_same; auto.
    + unfold st_del. sel. rewrite !(proj2 (QQ _ _)). sel. auto.
    + unfold st_del. sel. rewrite !(proj1 (QQ _ _)). sel. rewrite H. right. assumption.
  - (* conn_peer *) cbn [no_late_conn] in Q. rewrite H in Q. specialize (Q p H0). apply HP; [|sel; auto|sel; rewrite H; right; assumption].
    intros r. sel. unfold upd. destruct (Nat.eqb_spec r p); [subst|auto]. intros X. exfalso. apply X. rewrite <- Q. destruct (n =? 0)%Z; reflexivity.
  - cbn [no_late_conn] in Q. rewrite H in Q. specialize (Q p H0). apply HP; [|sel; auto|sel; rewrite H; right; assumption].
    intros r. sel. unfold upd. destruct (Nat.eqb_spec r p); [subst|auto]. intros X. exfalso. apply X. rewrite <- Q. reflexivity.
  - cbn [no_late_conn] in Q. rewrite H in Q. specialize (Q p H0). apply HP; [|sel; auto|sel; rewrite H; right; assumption].
    intros r. sel. unfold upd. destruct (Nat.eqb_spec r p); [subst|auto]. intros X. exfalso. apply X. rewrite <- Q. reflexivity.
  - constructor; sel; auto.
    + intros r d b m X. apply in_app_or in X. destruct X as [X|[X|[]]]; [exact (P2 _ _ _ _ X)|discriminate X].
    + intros b m X. apply (P3 b m). rewrite H. right. exact X.
  - (* preempt *) constructor; sel; auto.
    + intros r. unfold upd. destruct (Nat.eqb_spec r p); [subst|auto]. intros _. cbn. split; [congruence|discriminate].
    + intros b m X. apply (P3 b m). rewrite H. right. exact X.
  - (* ping refused *) pose proof (nonce_ub _ _ _ _ _ H7) as N. destruct (nonce_q _ _ _ _ _ H7) as (Q1 & Q2). constructor; sel.
    + intros r. unfold upd. destruct (N r) as (_ & N1 & N2 & N3 & _). destruct (Nat.eqb_spec r p); [subst|rewrite N1, N2, N3; exact (P1 r)]. cbn. rewrite N1, N3. intros X. split; [|discriminate]. apply (P1 p X).
    + rewrite Q2. exact P2.
    + rewrite Q1. intros b m X. apply (P3 b m). rewrite H. right. exact X.
  - (* ping finished *) pose proof (nonce_ub _ _ _ _ _ H7) as N. destruct (nonce_q _ _ _ _ _ H7) as (Q1 & Q2). constructor.
    + intros r. rewrite (f_peer _ _ _ _ _ H11). sel. destruct (N r) as (_ & N1 & N2 & N3 & _). destruct (Nat.eqb_spec r p); [subst|rewrite !upd_other by assumption; rewrite N1, N2, N3; exact (P1 r)]. rewrite !upd_same. cbn. rewrite N1. intros X. exfalso. exact (proj1 (P1 p X) H6).
    + rewrite (f_uq _ _ _ _ _ H11). sel. rewrite Q2. intros ? ? ? ? X. apply in_app_or in X. destruct X as [X|[X|[]]]; [exact (P2 _ _ _ _ X)|discriminate X].
    + rewrite (f_q _ _ _ _ _ H11). sel. rewrite Q1. intros b m X. apply (P3 b m). rewrite H. right. exact X.
  - (* pong refused *) pose proof (nonce_ub _ _ _ _ _ H7) as N. destruct (nonce_q _ _ _ _ _ H7) as (Q1 & Q2). apply HP.
    + intros r. destruct (N r) as (_ & -> & -> & -> & _). sel. unfold upd. destruct (Nat.eqb_spec r p); [subst; cbn|]; auto.
    + rewrite Q2. auto.
    + rewrite Q1. sel. rewrite H. right. assumption.
  - (* pong finished *) pose proof (nonce_ub _ _ _ _ _ H7) as N. destruct (nonce_q _ _ _ _ _ H7) as (Q1 & Q2). constructor.
    + intros r. rewrite (f_peer _ _ _ _ _ H11). unfold reset_ping_timer. sel. destruct (N r) as (_ & N1 & N2 & N3 & _). destruct (Nat.eqb_spec r p); [subst|].
      * rewrite !upd_same. cbn. rewrite N1. sel. rewrite upd_same. cbn. intros X. exfalso. exact (proj1 (P1 p X) H5).
      * rewrite !upd_other by assumption. rewrite N1, N2, N3. sel. rewrite upd_other by assumption. exact (P1 r).
    + rewrite (f_uq _ _ _ _ _ H11). unfold reset_ping_timer. sel. rewrite Q2. intros ? ? ? ? X. apply in_app_or in X. destruct X as [X|[X|[]]]; [exact (P2 _ _ _ _ X)|discriminate X].
    + rewrite (f_q _ _ _ _ _ H11). unfold reset_ping_timer. sel. rewrite Q1. intros b m X. apply (P3 b m). rewrite H. right. exact X.
Qed.

(** A null connection is read only if conn_peer was executed for a peer whose connection
    was being replaced by an incoming one. *)
Theorem C74_null_partial : forall es s o e s' o', run hash es st0 = Some (s, o) -> along hash no_late_conn es st0 -> step hash e s = Some (s', o') -> ~ In (OUb Null) o'.
Proof.
  intros es s o e s' o' E A ST I. destruct (step_leaf _ _ _ _ _ (wf_run _ _ _ _ E) ST) as (HH & s1 & LF & _).
  assert (PP : P s).
  { refine (along_inv hash no_late_conn (fun s _ => P s) _ _ _ es s o E A).
    - constructor; cbn; auto.
    - intros e1 s2 o2 s3 o3 W HH2 X Q L. exact (P_leaf _ _ _ _ W HH2 X Q L).
    - intros s2 s3 _ Q [P1 P2 P3]. constructor; [intros p; rewrite <- (q_peer _ _ Q); auto|rewrite <- (q_uq _ _ Q); auto|rewrite <- (q_q _ _ Q); auto]. }
  destruct LF; try solve [repeat (destruct I as [I|I]; [discriminate I|]); destruct I]; try solve [exfalso; eapply mild_noub; eassumption];
    try solve [exfalso; repeat (destruct I as [I|I]; [discriminate I|]); repeat (apply in_app_or in I; destruct I as [I|I]); try (eapply mild_noub; eassumption); repeat (destruct I as [I|I]; [discriminate I|]); destruct I].
  - apply in_app_or in I. destruct I as [I|[I|I]]; [destruct (p_addr (s_peer s p) =? 0)%N; [destruct I as [I|[]]; discriminate I|destruct I]|discriminate I|eapply mild_noub; eassumption].
  - destruct I as [I|[I|I]]; [discriminate I|discriminate I|]. destruct (p_in (s_peer s p)), (p_out (s_peer s p)); cbn in I; intuition discriminate.
  - apply (P_q _ PP a n). rewrite H. left. reflexivity.
  - destruct I as [I|[I|I]]; [discriminate I|discriminate I|]. apply in_app_or in I. destruct I as [I|I]; [eapply mild_noub; eassumption|].
    rewrite H12 in I. destruct (k_term (s_conn s u)); cbn in I; intuition discriminate.
  - destruct I as [I|I]; [discriminate I|]. apply in_app_or in I. destruct I as [I|I]; [eapply mild_noub; eassumption|].
    rewrite H12 in I. destruct (k_term (s_conn s u)); cbn in I; intuition discriminate.
Qed.
End U.
Print Assumptions C74_uninit_partial.
Print Assumptions C74_null_partial.

(** ** Witnesses *)

(** A peer that was dialled answers the handshake with a pong carrying the null address. *)
Theorem C74_uninit_refuted : exists es s o, run h5 es st0 = Some (s, o) /\ along h5 (calm h5) es st0 /\ In (OUb Uninit) o.
Proof.
  set (es := call (-1) ++ [ERetry 0 g0; ESetup 1 g0; EPost (TPong 1 0%N 7%N); EDisp g0]). exists es.
  destruct (run h5 es st0) as [[s o]|] eqn:E; [|exfalso; vm_compute in E; discriminate E]. exists s, o. split; [reflexivity|]. split.
  - apply (alongb_ok h5 (calmb h5)); [exact (calmb_ok h5)|exact wf0|vm_compute; reflexivity].
  - assert (K : option_map (fun x => last (snd x) OFatal) (run h5 es st0) = Some (OUb Uninit)) by (vm_compute; reflexivity).
    rewrite E in K. cbn [option_map snd] in K. injection K as K. rewrite <- K. destruct o as [|x o] using rev_ind; [discriminate K|]. rewrite last_last. apply in_or_app. right. left. reflexivity.
Qed.

(** A connected peer connects again; while its old connection is being closed the user
    calls conn_peer. *)
Theorem C74_null_refuted : exists es s o, run h5 es st0 = Some (s, o) /\ along h5 (calm h5) es st0 /\ In (OUb Null) o.
Proof.
  set (es := calm_ex ++ [EAccept 20%N None; ESetup 3 g0; EPost (TPing (Some 3) 9%N 1%N); EDisp g0; EPost (TConn 4 5%N (-1)); EDisp g0; ETerm 2; ETear 2; EUser; EDisp g0]). exists es.
  destruct (run h5 es st0) as [[s o]|] eqn:E; [|exfalso; vm_compute in E; discriminate E]. exists s, o. split; [reflexivity|]. split.
  - apply (alongb_ok h5 (calmb h5)); [exact (calmb_ok h5)|exact wf0|vm_compute; reflexivity].
  - assert (K : option_map (fun x => last (snd x) OFatal) (run h5 es st0) = Some (OUb Null)) by (vm_compute; reflexivity).
    rewrite E in K. cbn [option_map snd] in K. injection K as K. rewrite <- K. destruct o as [|x o] using rev_ind; [discriminate K|]. rewrite last_last. apply in_or_app. right. left. reflexivity.
Qed.
Print Assumptions C74_uninit_refuted.
Print Assumptions C74_null_refuted.

Definition no_lateb (e : ev) (s : st) : bool :=
  match e with
  | EDisp _ => match s_q s with TConn _ i _ :: _ => match find_by i (s_known s) with Some p => match p_pre (s_peer s p) with None => true | _ => false end | None => true end | _ => true end
  | _ => true
  end.
Lemma no_lateb_ok e s : WF s -> no_lateb e s = true -> no_late_conn e s.
Proof.
  intros _ H. destruct e; try exact I. cbn [no_lateb no_late_conn] in *. destruct (s_q s) as [|[| | | | | | | | | |] q]; try exact I.
  intros p F. rewrite F in H. destruct (p_pre (s_peer s p)); [discriminate H|reflexivity].
Qed.

(** Non-vacuous: a history with conn_peer and a connection replaced by an incoming one,
    in which the peer was reported connected and heartbeats are answered. *)
Example C74_nonvacuous : exists s o, run h5 (cb_ex ++ [EPost (TPong 3 0%N 0%N); EDisp g0; EPost (TConn 4 5%N (-1)); EDisp g0]) st0 = Some (s, o) /\
  along h5 no_late_conn (cb_ex ++ [EPost (TPong 3 0%N 0%N); EDisp g0; EPost (TConn 4 5%N (-1)); EDisp g0]) st0 /\ s_halt s = false /\ ever_up s o 0.
Proof.
  set (es := cb_ex ++ [EPost (TPong 3 0%N 0%N); EDisp g0; EPost (TConn 4 5%N (-1)); EDisp g0]).
  destruct (run h5 es st0) as [[s o]|] eqn:E; [|exfalso; vm_compute in E; discriminate E]. exists s, o. split; [reflexivity|]. split.
  - apply (alongb_ok h5 no_lateb); [exact no_lateb_ok|exact wf0|vm_compute; reflexivity].
  - assert (K : option_map (fun x => (s_halt (fst x), told 0 (snd x))) (run h5 es st0) = Some (false, [(1, false); (2, true); (2, false); (3, true)])) by (vm_compute; reflexivity).
    rewrite E in K. cbn [option_map fst snd] in K. injection K as K1 K2. split; [exact K1|]. exists 3. left. apply told_in. rewrite K2. right. right. right. left. reflexivity.
Qed.

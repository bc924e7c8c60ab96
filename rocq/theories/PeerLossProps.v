(** C137: two peers do not share a connection, and a peer whose connection is
    over does not stay connected. *)
From Coq Require Import Arith NArith ZArith List Bool Lia.
From Verif Require Import PeerModel PeerInv PeerStep PeerRegProps IdentInv IdentProps PeerEndProps.
Import ListNotations.

(** ** Proofs *)

Section P.
Variable hash : addr -> pid.

Definition up (x : peer) : Prop := p_state x <> Disconnected.

(** Another peer, q, holds c, or c has shown to be q. *)
Definition taken (s : st) (r c : nat) : Prop :=
  exists q, q <> r /\ p_live (s_peer s q) = true /\
    (p_conn (s_peer s q) = Some c \/ p_in (s_peer s q) = Some c \/ p_out (s_peer s q) = Some c \/ (c < s_nc s /\ k_term (s_conn s c) = false /\ exists a, ident hash (s_conn s c) a = p_id (s_peer s q))).

(** What a step does to the connections of peers that are up. *)
Record lp (s s' : st) : Prop := mkLp {
  lp_torn : (forall d, k_torn (s_conn s d) = true -> k_term (s_conn s d) = true) -> forall d, k_torn (s_conn s' d) = true -> k_term (s_conn s' d) = true;
  lp_up : forall r c, p_live (s_peer s' r) = true -> up (s_peer s' r) -> p_conn (s_peer s' r) = Some c ->
    (p_live (s_peer s r) = true /\ up (s_peer s r) /\ p_conn (s_peer s r) = Some c /\
      ((k_peer (s_conn s' c) = k_peer (s_conn s c) /\ k_torn (s_conn s' c) = k_torn (s_conn s c)) \/ taken s r c \/ k_peer (s_conn s c) <> Some r \/ (k_mode (s_conn s c) = Active /\ k_manual (s_conn s c) = true))) \/
    (k_peer (s_conn s' c) = Some r /\ k_torn (s_conn s' c) = k_torn (s_conn s c) /\ k_term (s_conn s c) = false /\ c < s_nc s) }.

Definition soft2 (x y : peer) : Prop := (p_live y = true -> p_live x = true) /\ (up y -> up x) /\ p_conn y = p_conn x.
Lemma soft2_refl x : soft2 x x.
Proof. repeat split; auto. Qed.
Lemma soft2_onp p f s s0 : s_peer s0 = s_peer s -> soft2 (s_peer s p) (f (s_peer s p)) -> forall q, soft2 (s_peer s q) (s_peer (onp p f s0) q).
Proof. intros E F q. sel. rewrite E. unfold upd. destruct (Nat.eqb_spec q p); [subst; exact F|apply soft2_refl]. Qed.

Definition keep (s s' : st) : Prop := (forall c, c < s_nc s -> k_peer (s_conn s' c) = k_peer (s_conn s c) /\ k_torn (s_conn s' c) = k_torn (s_conn s c)) /\
  ((forall d, k_torn (s_conn s d) = true -> k_term (s_conn s d) = true) -> forall d, k_torn (s_conn s' d) = true -> k_term (s_conn s' d) = true).

Lemma lp_soft s s' : WF s -> (forall q, soft2 (s_peer s q) (s_peer s' q)) -> keep s s' -> lp s s'.
Proof.
  intros W F (K1 & K2). constructor; [exact K2|]. intros r c E1 E2 E3. destruct (F r) as (X1 & X2 & X3). rewrite X3 in E3. left. split; [auto|]. split; [auto|]. split; [exact E3|]. left. apply K1.
  destruct (w_live _ W r (X1 E1)) as (_ & _ & OK). destruct (ok_conn _ _ OK) as (d & D1 & D2). congruence.
Qed.

Lemma keep_same s s' : s_conn s' = s_conn s -> keep s s'.
Proof. intros E. unfold keep. rewrite E. auto. Qed.
Lemma keep_new s s' k : s_conn s' = upd (s_conn s) (s_nc s) k -> (k_torn k = true -> k_term k = true) -> keep s s'.
Proof. intros E T. split; rewrite E; [intros c L; rewrite upd_other by lia; auto|]. intros X d. unfold upd. destruct (Nat.eqb_spec d (s_nc s)); [exact T|apply X]. Qed.
Lemma keep_upd s s' c k : s_conn s' = upd (s_conn s) c k -> k_peer k = k_peer (s_conn s c) -> k_torn k = k_torn (s_conn s c) -> (k_term (s_conn s c) = true -> k_term k = true) -> keep s s'.
Proof.
  intros E A B T. split; rewrite E.
  - intros d L. unfold upd. destruct (Nat.eqb_spec d c); [subst|]; auto.
  - intros X d. unfold upd. destruct (Nat.eqb_spec d c); [subst; intros Y; apply T, X; congruence|apply X].
Qed.

Ltac kk := first [apply keep_same; reflexivity | eapply keep_new; [reflexivity|cbn; congruence] | eapply keep_upd; [reflexivity|reflexivity|cbn; solve [auto|congruence]|cbn; solve [auto|congruence]]].
Ltac soft2t := first [intros ?; apply soft2_refl | apply soft2_onp; [reflexivity|unfold soft2, up; cbn; intuition congruence]].

Lemma tear_torn s c : (forall d, k_torn (s_conn s d) = true -> k_term (s_conn s d) = true) -> forall d, k_torn (upd (s_conn s) c (k_flags true (k_set (s_conn s c)) true (s_conn s c)) d) = true -> k_term (upd (s_conn s) c (k_flags true (k_set (s_conn s c)) true (s_conn s c)) d) = true.
Proof. intros X d. unfold upd. destruct (Nat.eqb_spec d c); [subst; reflexivity|apply X]. Qed.

Lemma lp_tear s s' c p f : WF s -> k_peer (s_conn s c) = Some p -> s_conn s' = upd (s_conn s) c (k_flags true (k_set (s_conn s c)) true (s_conn s c)) ->
  (forall r, s_peer s' r = if r =? p then f (s_peer s p) else s_peer s r) -> p_state (f (s_peer s p)) = Disconnected -> lp s s'.
Proof.
  intros W KP E P F. constructor; rewrite E; [apply tear_torn|]. intros r d. rewrite P. destruct (Nat.eqb_spec r p) as [->|N]; [unfold up; congruence|]. intros E1 E2 E3. left. repeat (split; [assumption|]).
  unfold upd. destruct (Nat.eqb_spec d c) as [->|M]; [|auto]. right. right. left. congruence.
Qed.

(** Peer p is connected, over c. *)
Lemma lp_fin s s1 s' p c u a o : WF s -> c < s_nc s -> k_term (s_conn s c) = false -> find_by (ident hash (s_conn s c) a) (s_known s) = Some p -> p_conn (s_peer s p) = Some u ->
  s_conn s1 = s_conn s -> (forall r, r <> p -> s_peer s1 r = s_peer s r) -> (p_out (s_peer s1 p) = p_out (s_peer s p) \/ p_out (s_peer s1 p) = Some c) ->
  p_conn (s_peer s1 p) = p_conn (s_peer s p) -> finished p c u s1 s' -> o = p_out (s_peer s p) -> lp s s'.
Proof.
  intros W L T F PC E1 E2 E3 E4 FI ->. destruct FI as [F1 F2 _ _ _ _ _ _ _]. destruct (known_live _ _ _ W F) as (LV & ID & _).
  constructor.
  - intros X d. rewrite F1, E1. cbn. apply X.
  - intros r d. rewrite F2. destruct (Nat.eqb_spec r p) as [->|N].
    + intros _ _ E. cbn in E. injection E as <-. right. rewrite F1, Nat.eqb_refl, E1. cbn. auto.
    + rewrite (E2 r N). intros X1 X2 X3. left. repeat (split; [assumption|]). rewrite F1, E1. cbn.
      destruct (Nat.eqb_spec d c) as [->|Nc]; [right; left; exists p; split; [auto|]; split; [exact LV|]; right; right; right; split; [exact L|]; split; [exact T|]; exists a; auto|].
      destruct (Nat.eqb_spec d u) as [->|Nu]; [right; left; exists p; auto|]. cbn [orb].
      destruct (oeq (p_out (s_peer s1 p)) (Some d)) eqn:OE; [|left; auto]. assert (OE' : p_out (s_peer s1 p) = Some d) by (destruct (p_out (s_peer s1 p)); [apply Nat.eqb_eq in OE; congruence|discriminate OE]). destruct E3 as [E3|E3]; [|congruence]. right. left. exists p. split; [auto|]. split; [exact LV|]. right. right. left. congruence.
Qed.

Lemma lp_leaf e s s' o' : WF s -> s_halt s' = false -> leaf hash e s s' o' -> lp s s'.
Proof.
  intros W HH L. destruct L; try discriminate HH;
    try match goal with G : get_nonce _ _ _ = Some _ |- _ => pose proof (get_nonce_spec _ _ _ _ _ G) as (GE & _); clear G end.
  all: try (apply lp_soft; [exact W|soft2t|kk]; fail).
  - destruct (p_nonce _ =? 0)%N; subst s1; (apply lp_soft; [exact W|soft2t|kk]).
  - constructor; sel; [apply tear_torn|]. intros r d E1 E2 E3. left. repeat (split; [assumption|]). unfold upd. destruct (Nat.eqb_spec d c) as [->|N]; [|auto].
    match goal with X : k_peer _ = None \/ _ |- _ => destruct X as [X|X] end; [right; right; left; congruence|auto].
  - eapply (lp_tear s _ c p (fun x => x_unpre (x_end x))); [exact W|eassumption|reflexivity|intros r; reflexivity|]. unfold x_unpre, x_end. destruct (p_state (s_peer s p)) eqn:ST; cbn; auto.
  - eapply (lp_tear s _ c p (fun x => x_lost (x_end x))); [exact W|eassumption|reflexivity|intros r; reflexivity|]. unfold x_lost, x_end. destruct (p_state (s_peer s p)) eqn:ST; cbn; destruct (_ =? 0)%Z; cbn; auto.
  - constructor; sel.
    + intros X d. unfold upd. destruct (Nat.eqb_spec d (s_nc s)); [reflexivity|apply X].
    + intros r d. unfold upd at 1 2 3. destruct (Nat.eqb_spec r (s_np s)); [unfold up; cbn; congruence|]. intros E1 E2 E3. left. repeat (split; [assumption|]). left.
      destruct (w_live _ W r E1) as (_ & _ & OK). destruct (ok_conn _ _ OK) as (u & D1 & D2). assert (u = d) by congruence. subst u. rewrite upd_other by lia. auto.
  - match goal with F : find_by _ _ = Some p |- _ => destruct (known_live _ _ _ W F) as (LV & _) end.
    assert (P : forall r, s_peer (st_del i p c (w_q q s)) r = if r =? p then p_dead (s_peer s p) else s_peer s r).
    { intros r. unfold st_del, clear_peer_of. cbn [s_peer w_q onc w_conn]. destruct (p_out (s_peer s p)), (p_in (s_peer s p)); cbn; unfold upd; reflexivity. }
    assert (K : forall d, k_torn (s_conn (st_del i p c (w_q q s)) d) = k_torn (s_conn s d) /\ k_term (s_conn (st_del i p c (w_q q s)) d) = k_term (s_conn s d) /\
      (k_peer (s_conn (st_del i p c (w_q q s)) d) = k_peer (s_conn s d) \/ p_conn (s_peer s p) = Some d \/ p_in (s_peer s p) = Some d \/ p_out (s_peer s p) = Some d)).
    { intros d. unfold st_del, clear_peer_of. cbn [s_peer w_q onc w_conn]. destruct (p_out (s_peer s p)), (p_in (s_peer s p)); cbn; unfold upd; repeat (match goal with |- context [?a =? ?b] => destruct (Nat.eqb_spec a b); subst end; cbn); auto 8. }
    constructor.
    + intros X d. destruct (K d) as (-> & -> & _). apply X.
    + intros r d. rewrite P. destruct (Nat.eqb_spec r p) as [->|N]; [discriminate|]. intros E1 E2 E3. left. repeat (split; [assumption|]). destruct (K d) as (-> & _ & [->|X]); [auto|]. right. left. exists p. split; [auto|]. split; [exact LV|]. tauto.
  - apply lp_soft; [exact W| |kk]. apply soft2_onp; [reflexivity|]. destruct (n =? 0)%Z; unfold soft2, up; cbn; intuition congruence.
  - destruct (p_nonce _ =? 0)%N; subst s1; (apply lp_soft; [exact W| |kk]); intros r; sel; unfold upd; (destruct (Nat.eqb_spec r p); [subst; rewrite ?Nat.eqb_refl; repeat split; auto|apply soft2_refl]).
  - match goal with F : finished _ _ _ ?t _ |- _ => eapply (lp_fin s t s' p c u a) end; try eassumption; try reflexivity; sel.
    + destruct (p_nonce _ =? 0)%N; subst s1; reflexivity.
    + intros r N. rewrite !upd_other by exact N. destruct (p_nonce _ =? 0)%N; subst s1; sel; rewrite ?upd_other by exact N; reflexivity.
    + left. rewrite !upd_same. cbn. destruct (p_nonce _ =? 0)%N; subst s1; sel; rewrite ?upd_same; reflexivity.
    + rewrite !upd_same. cbn. destruct (p_nonce _ =? 0)%N; subst s1; sel; rewrite ?upd_same; reflexivity.
  - destruct (p_nonce _ =? 0)%N; subst s1; (apply lp_soft; [exact W| |kk]); intros r; sel; unfold upd; (destruct (Nat.eqb_spec r p); [subst; rewrite ?Nat.eqb_refl; repeat split; auto|apply soft2_refl]).
  - unfold reset_ping_timer in *. match goal with F : finished _ _ _ ?t _ |- _ => eapply (lp_fin s t s' p c u) end; try eassumption; try reflexivity; sel.
    + destruct (p_nonce _ =? 0)%N; subst s1; reflexivity.
    + intros r N. rewrite !upd_other by exact N. destruct (p_nonce _ =? 0)%N; subst s1; sel; rewrite ?upd_other by exact N; reflexivity.
    + right. rewrite !upd_same. cbn. destruct (p_nonce _ =? 0)%N; subst s1; sel; rewrite ?upd_same; reflexivity.
    + rewrite !upd_same. cbn. destruct (p_nonce _ =? 0)%N; subst s1; sel; rewrite ?upd_same; reflexivity.
Qed.

(** Connections of peers that are up: they carry the peer's certificate, they
    are the peer's own and not torn down, unless dialled for another peer or
    made with connect(). *)
Record LO (s : st) (o : list obs) : Prop := mkLO {
  lo_torn : forall d, k_torn (s_conn s d) = true -> k_term (s_conn s d) = true;
  lo_up : forall p c, p_live (s_peer s p) = true -> up (s_peer s p) -> p_conn (s_peer s p) = Some c ->
    k_cert (s_conn s c) = Some (p_id (s_peer s p)) /\
    ((k_peer (s_conn s c) = Some p /\ k_torn (s_conn s c) = false) \/ (exists j a, j <> p_id (s_peer s p) /\ In (ODial j c a) o) \/ (k_mode (s_conn s c) = Active /\ k_manual (s_conn s c) = true)) }.

Lemma LO_leaf e s s' o o' : WF s -> INV2 s o -> (forall p c, p_conn (s_peer s' p) = Some c -> k_cert (s_conn s' c) = None \/ k_cert (s_conn s' c) = Some (p_id (s_peer s' p))) -> END s o -> LO s o -> s_halt s' = false -> leaf hash e s s' o' -> LO s' (o ++ o').
Proof.
  intros W V2 V2' V U HH L. pose proof (still_leaf _ _ _ _ _ W L) as T. pose proof (lp_leaf _ _ _ _ W HH L) as K. pose proof (lk_leaf _ _ _ _ _ W HH L) as KK. clear L.
  constructor; [apply (lp_torn _ _ K), (lo_torn _ _ U)|]. intros r c E1 E2 E3.
  destruct (lp_up _ _ K _ _ E1 E2 E3) as [(X1 & X2 & X3 & X4)|(X1 & X2 & X3 & X4)].
  - destruct (lo_up _ _ U _ _ X1 X2 X3) as (Y1 & Y2). destruct (w_live _ W r X1) as (RN & RK & OK). destruct (ok_conn _ _ OK) as (d & D1 & D2). assert (d = c) by congruence. subst d. clear D1.
    pose proof (t_at _ _ _ T c D2) as AT. unfold attr in AT. injection AT as A1 A2 A3 A4. rewrite A1, A3, A4, (t_id _ _ _ T r RN). split; [exact Y1|].
    destruct Y2 as [(Y2 & Y3)|[(j & a & Y2 & Y3)|Y2]]; [|right; left; exists j, a; split; [exact Y2|apply in_or_app; auto]|auto].
    destruct X4 as [(X4 & X5)|[(q & N & LV & X4)|[X4|X4]]]; [left; split; congruence| |congruence|auto].
    assert (Q : p_id (s_peer s q) <> p_id (s_peer s r)).
    { intros E. apply N. destruct (w_live _ W q LV) as (_ & QK & _). rewrite E in QK. pose proof (In_find_by _ _ _ (w_keys _ W) QK). pose proof (In_find_by _ _ _ (w_keys _ W) RK). congruence. }
    right. left. destruct X4 as [X4|[X4|[X4|(_ & TT & a & X4)]]].
    + destruct (j_pc _ _ V2 _ _ X4); congruence.
    + pose proof (n_in _ _ V _ _ LV X4). congruence.
    + destruct (n_out _ _ V _ _ LV X4) as [B|(a & B)]; [congruence|]. exists (p_id (s_peer s q)), a. split; [exact Q|apply in_or_app; auto].
    + unfold ident in X4. rewrite Y1 in X4. congruence.
  - destruct (V2' _ _ E3) as [Y|Y].
    + exfalso. pose proof (t_at _ _ _ T c X4) as AT. unfold attr in AT. injection AT as A1 A2 A3 A4. rewrite A3 in Y. destruct (j_none _ _ V2 _ X4 Y) as (_ & Z & _). congruence.
    + split; [exact Y|]. left. split; [exact X1|]. rewrite X2. destruct (k_torn (s_conn s c)) eqn:TO; [|reflexivity]. apply (lo_torn _ _ U) in TO. congruence.
Qed.

Lemma LO_eqv s s' o : eqv s s' -> LO s o -> LO s' o.
Proof.
  intros Q [U1 U2]. constructor.
  - intros d. rewrite <- (q_conn _ _ Q). apply U1.
  - intros p c. rewrite <- (q_peer _ _ Q), <- (q_conn _ _ Q). apply U2.
Qed.

Lemma run_snoc es e s s2 o : run hash (es ++ [e]) s = Some (s2, o) -> exists s1 o1 o2, run hash es s = Some (s1, o1) /\ step hash e s1 = Some (s2, o2) /\ o = o1 ++ o2.
Proof.
  revert o s. induction es as [|x es IH]; intros o s0 E; cbn [run app] in *.
  - destruct (step hash e s0) as [[s1 o1]|] eqn:SE; [|discriminate E]. injection E as <- <-. exists s0, [], o1. rewrite app_nil_r. auto.
  - destruct (step hash x s0) as [[s1 o1]|]; [|discriminate E]. destruct (run hash (es ++ [e]) s1) as [[s3 o2]|] eqn:R; [|discriminate E]. injection E as <- <-.
    destruct (IH _ _ R) as (s4 & o3 & o4 & A & B & ->). rewrite A. exists s4, (o1 ++ o3), o4. rewrite app_assoc. auto.
Qed.

Lemma LO_run es s o : run hash es st0 = Some (s, o) -> Forall certified es -> s_halt s = false -> LO s o.
Proof.
  revert s o. induction es as [|e es IH] using rev_ind; intros s o E F HH.
  - cbn in E. injection E as <- <-. constructor; cbn; auto. intros; discriminate.
  - apply Forall_app in F as F0. destruct F0 as (F1 & F2). pose proof (INV2_run _ _ _ _ E F) as V2'.
    destruct (run_snoc _ _ _ _ _ E) as (s1 & o1 & o2 & R & S & ->). pose proof (wf_run _ _ _ _ R) as W. destruct (step_leaf _ _ _ _ _ W S) as (H1 & s2 & L & EQ).
    assert (H2 : s_halt s2 = false) by (rewrite (q_halt _ _ EQ); exact HH).
    eapply LO_eqv; [exact EQ|]. eapply LO_leaf; eauto; [eapply INV2_run; eauto| |eapply END_run; eauto].
    intros p c. rewrite (q_peer _ _ EQ), (q_conn _ _ EQ). apply (j_pc _ _ V2').
Qed.
End P.

(** ** C137 *)

(** What is claimed, with and without certificates: no two peers are connected
    over one connection; and when the connection of a connected peer is torn
    down, the peer is disconnected, and the call of the peer callback that says
    so is on its way. *)
Definition C137_apart_full : Prop := forall hash es s o i j c, run hash es st0 = Some (s, o) -> connected s i c -> connected s j c -> i = j.

(** Peer i is disconnected, and the next calls of the callback for it say so,
    with connection c. *)
Definition reported_lost (s s' : st) (i : pid) (c : nat) : Prop :=
  exists p t, In (i, p) (s_known s') /\ p_state (s_peer s' p) = Disconnected /\ s_uq s' = s_uq s ++ [t] /\ (t = UCb p c false \/ exists a n d, t = UPre p c a n d).

Definition C137_reported_full : Prop := forall hash es s o i c s' o', run hash es st0 = Some (s, o) -> connected s i c -> step hash (ETear c) s = Some (s', o') -> reported_lost s s' i c.

(** With certificates no two peers share a connection. *)
Theorem C137_apart_partial : forall hash es s o i j c, run hash es st0 = Some (s, o) -> Forall certified es -> s_halt s = false -> connected s i c -> connected s j c -> i = j.
Proof.
  intros hash es s o i j c R F HH (p & P1 & P2 & P3) (q & Q1 & Q2 & Q3). pose proof (LO_run _ _ _ _ R F HH) as U. pose proof (wf_run _ _ _ _ R) as W.
  destruct (w_kn _ W _ _ P1) as (P4 & P5). destruct (w_kn _ W _ _ Q1) as (Q4 & Q5).
  destruct (lo_up _ _ U p c P4) as (A & _); [unfold up; congruence|exact P3|]. destruct (lo_up _ _ U q c Q4) as (B & _); [unfold up; congruence|exact Q3|]. congruence.
Qed.
Print Assumptions C137_apart_partial.

(** With certificates the end of a connected peer's connection is reported,
    unless the connection was made with connect(), or dialled for another peer. *)
Theorem C137_reported_partial : forall hash es s o i c s' o', run hash es st0 = Some (s, o) -> Forall certified es -> connected s i c -> step hash (ETear c) s = Some (s', o') ->
  reported_lost s s' i c \/ (k_mode (s_conn s c) = Active /\ k_manual (s_conn s c) = true) \/ exists j a, j <> i /\ In (ODial j c a) o /\ k_cert (s_conn s c) = Some i.
Proof.
  intros hash es s o i c s' o' R F (p & P1 & P2 & P3) S. pose proof (wf_run _ _ _ _ R) as W. destruct (step_leaf _ _ _ _ _ W S) as (HH & s1 & L & EQ). pose proof (LO_run _ _ _ _ R F HH) as U.
  destruct (w_kn _ W _ _ P1) as (P4 & P5). destruct (lo_up _ _ U p c P4) as (A & B); [unfold up; congruence|exact P3|]. rewrite P5 in A, B.
  destruct B as [(B & C)|[(j & a & B & C)|B]]; [|right; right; exists j, a; auto|auto].
  inversion L; subst.
  - assert (p0 = p) by congruence. subst p0. congruence.
  - match goal with X : k_peer _ = None \/ _ |- _ => destruct X as [X|X] end; [congruence|auto].
  - assert (p0 = p) by congruence. subst p0. left. exists p. eexists. rewrite <- (q_known _ _ EQ), <- (q_peer _ _ EQ), <- (q_uq _ _ EQ). sel. rewrite upd_same. split; [exact P1|].
    split; [unfold x_unpre, x_end; rewrite P2; reflexivity|]. split; [reflexivity|]. right. eauto.
  - assert (p0 = p) by congruence. subst p0. left. exists p. eexists. rewrite <- (q_known _ _ EQ), <- (q_peer _ _ EQ), <- (q_uq _ _ EQ). sel. rewrite upd_same. split; [exact P1|].
    split; [unfold x_lost, x_end; rewrite P2; cbn; destruct (_ =? 0)%Z; reflexivity|]. split; [reflexivity|]. left. reflexivity.
Qed.
Print Assumptions C137_reported_partial.

(** Without certificates: peers 5 and 7, their ids the hashes of their
    addresses.  Someone connects and says, twice, where they listen: at the address
    of 5, then at that of 7.  Both are connected over that connection; when it
    is over, only one is told of, and the other stays connected. *)
Definition c137_share : list ev :=
  [EPost (TAdd 0 5); EPost (TAdd 1 7); EDisp (c135_g None); EDisp (c135_g None); EAccept 200 None; ESetup 2%nat (c135_g None);
   EPost (TPing (Some 2%nat) 5 1); EPost (TPing (Some 2%nat) 7 1); EDisp (c135_g None); EDisp (c135_g None); EUser; EUser; ETerm 2%nat]%N.
Theorem C137_apart_refuted : exists es s o i j c s' o', run (fun a => a) es st0 = Some (s, o) /\ ~ In OAssert o /\ connected s i c /\ connected s j c /\ i <> j /\
  step (fun a => a) (ETear c) s = Some (s', o') /\ connected s' i c /\ k_torn (s_conn s' c) = true /\ s_q s' = [] /\ s_uq s' = [UCb 1 c false].
Proof.
  destruct (run (fun a => a) c137_share st0) as [[s o]|] eqn:E; [|vm_compute in E; discriminate E].
  destruct (step (fun a => a) (ETear 2) s) as [[s' o']|] eqn:S.
  2:{ exfalso. vm_compute in E. injection E as <- <-. vm_compute in S. discriminate S. }
  exists c137_share, s, o, 5%N, 7%N, 2, s', o'. split; [exact E|]. vm_compute in E. injection E as <- <-. vm_compute in S. injection S as <- <-.
  split; [cbn; intuition discriminate|]. split; [exists 0; split; [right; left; reflexivity|split; reflexivity]|]. split; [exists 1; split; [left; reflexivity|split; reflexivity]|].
  split; [discriminate|]. split; [reflexivity|]. split; [exists 0; split; [right; left; reflexivity|split; reflexivity]|]. repeat split.
Qed.
Print Assumptions C137_apart_refuted.

(** With certificates: the two peers of C136, 7 connected over the connection
    dialled for 5.  The user deletes 5, the identity that is no more: the
    connection of 7 is ended, and nothing says that 7 is not connected. *)
Definition c137_bad : list ev := c136_bad ++ [EPost (TDel 6 5); EDisp (c135_g None); ETerm 2%nat]%N.
Theorem C137_reported_refuted : exists es s o i c s' o', run (fun a => a) es st0 = Some (s, o) /\ Forall certified es /\ ~ In OAssert o /\ connected s i c /\ step (fun a => a) (ETear c) s = Some (s', o') /\
  connected s' i c /\ k_torn (s_conn s' c) = true /\ s_q s' = [] /\ s_uq s' = [] /\ ~ reported_lost s s' i c.
Proof.
  destruct (run (fun a => a) c137_bad st0) as [[s o]|] eqn:E; [|vm_compute in E; discriminate E].
  destruct (step (fun a => a) (ETear 2) s) as [[s' o']|] eqn:S.
  2:{ exfalso. vm_compute in E. injection E as <- <-. vm_compute in S. discriminate S. }
  exists c137_bad, s, o, 7%N, 2, s', o'. split; [exact E|]. split; [repeat constructor; discriminate|]. vm_compute in E. injection E as <- <-. vm_compute in S. injection S as <- <-.
  split; [cbn; intuition discriminate|]. split; [exists 1; split; [left; reflexivity|split; reflexivity]|]. split; [reflexivity|].
  split; [exists 1; split; [left; reflexivity|split; reflexivity]|]. split; [reflexivity|]. split; [reflexivity|]. split; [reflexivity|].
  intros (p & t & _ & _ & X & _). destruct t; discriminate X.
Qed.
Print Assumptions C137_reported_refuted.

(** Peers 5 and 7, each connected over its own connection; that of 5 ends. *)
Definition c137_es : list ev :=
  [EPost (TAdd 0 5); EPost (TAdd 1 7); EPost (TSetAddr 2 5 100); EPost (TConn 3 5 (-1)%Z); EDisp (c135_g None); EDisp (c135_g None); EDisp (c135_g None); EDisp (c135_g None);
   ERetry 0%nat (c135_g (Some 5%N)); ESetup 2%nat (c135_g None); EPost (TPong 2%nat 100 65535); EDisp (c135_g None); EUser;
   EAccept 200 (Some 7%N); ESetup 3%nat (c135_g None); EPost (TPing (Some 3%nat) 300 4); EDisp (c135_g None); EUser; ETerm 2%nat]%N.
Example C137_nonvacuous : exists s o s' o', run (fun a => a) c137_es st0 = Some (s, o) /\ Forall certified c137_es /\ s_halt s = false /\ connected s 5%N 2 /\ connected s 7%N 3 /\
  step (fun a => a) (ETear 2) s = Some (s', o') /\ k_manual (s_conn s 2) = false /\ (forall j a, In (ODial j 2 a) o -> j = 5%N) /\ s_uq s' = [UCb 0 2 false].
Proof.
  destruct (run (fun a => a) c137_es st0) as [[s o]|] eqn:E; [|vm_compute in E; discriminate E].
  destruct (step (fun a => a) (ETear 2) s) as [[s' o']|] eqn:S.
  2:{ exfalso. vm_compute in E. injection E as <- <-. vm_compute in S. discriminate S. }
  exists s, o, s', o'. split; [reflexivity|]. split; [repeat constructor; discriminate|].
  vm_compute in E. injection E as <- <-. vm_compute in S. injection S as <- <-. split; [reflexivity|].
  split; [exists 0; split; [right; left; reflexivity|split; reflexivity]|]. split; [exists 1; split; [left; reflexivity|split; reflexivity]|]. split; [reflexivity|]. split; [reflexivity|]. split; [|reflexivity].
  intros j a I. cbn in I. repeat (destruct I as [I|I]; [try discriminate I; injection I as <- <-; reflexivity|]). destruct I.
Qed.

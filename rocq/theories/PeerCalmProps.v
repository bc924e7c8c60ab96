(** Which connections belong to a peer, and who touches its record (C60, C61). *)
From Coq Require Import Arith NArith ZArith List Bool Lia.
From Verif Require Import PeerModel PeerInv PeerStep PeerRegProps PeerRetryProps.
Import ListNotations.

(** ** Calm histories *)

(** c is the established connection of q, or takes part in a handshake with
    q. *)
Definition serves (s : st) (c q : nat) : Prop := k_peer (s_conn s c) = Some q \/ p_in (s_peer s q) = Some c \/ p_out (s_peer s q) = Some c.
(** No attempt to dial p is under way (one that is torn down is over), other than d. *)
Definition no_dial (s : st) (p : nat) : Prop := forall c, p_out (s_peer s p) = Some c -> k_torn (s_conn s c) = true.

Section C.
Variable hash : addr -> pid.

(** One step of a calm history:
    - the timer of a peer does not fire, and conn_peer of it is not executed, before the last attempt
      to dial it has ended;
    - a reply to a handshake does not come in on a connection that the user made with
      connect(), nor while another attempt to dial the same peer is under way;
    - handshake messages on one connection do not concern two peers;
    - the user does not ask a connection that is closed for its peer. *)
Definition calm (e : ev) (s : st) : Prop :=
  match e with
  | ERetry p _ => no_dial s p
  | EDisp _ =>
    match s_q s with
    | TConn _ i _ :: _ => forall p, find_by i (s_known s) = Some p -> no_dial s p
    | TPeer c :: _ => k_torn (s_conn s c) = false
    | TPing (Some c) a _ :: _ => a <> 0%N -> forall p q, find_by (ident hash (s_conn s c) a) (s_known s) = Some p -> p_live (s_peer s q) = true -> serves s c q -> q = p
    | TPong c a _ :: _ => a <> 0%N -> forall p, find_by (ident hash (s_conn s c) (k_addr (s_conn s c))) (s_known s) = Some p ->
        k_manual (s_conn s c) = false /\ (p_out (s_peer s p) = Some c \/ no_dial s p) /\ (forall q, p_live (s_peer s q) = true -> serves s c q -> q = p)
    | _ => True
    end
  | _ => True
  end.

(** ** The invariant *)

Record J (k : nat -> conn) (x : nat -> peer) : Prop := mkJ {
  j_own : forall c p, k_peer (k c) = Some p -> k_torn (k c) = false -> p_live (x p) = true /\ (p_conn (x p) = Some c \/ p_out (x p) = Some c);
  j_up : forall p, p_live (x p) = true -> p_state (x p) <> Disconnected -> exists c, p_conn (x p) = Some c /\ k_peer (k c) = Some p /\ k_torn (k c) = false;
  j_out : forall p, p_live (x p) = true -> p_state (x p) <> Disconnected -> p_out (x p) = None;
  j_ton : forall p, p_live (x p) = true -> p_ton (x p) = true -> p_state (x p) = Disconnected;
  j_down : forall p c, p_live (x p) = true -> p_state (x p) = Disconnected -> p_conn (x p) = Some c -> k_torn (k c) = true;
  j_in : forall p c q, p_live (x p) = true -> p_in (x p) = Some c -> k_peer (k c) = Some q -> q = p;
  j_outp : forall p c q, p_live (x p) = true -> p_out (x p) = Some c -> k_peer (k c) = Some q -> q = p;
  j_man : forall c, k_mode (k c) = Active -> k_manual (k c) = true -> k_peer (k c) = None;
  j_term : forall c, k_torn (k c) = true -> k_term (k c) = true }.

(** Changing one connection's flags. *)
Lemma J_flags k x c t u z : J k x -> (k_term (k c) = true -> t = true) -> (z = true -> t = true) ->
  (z = false -> k_torn (k c) = false) ->
  (z = true -> k_torn (k c) = false -> forall p, p_live (x p) = true -> p_state (x p) <> Disconnected -> p_conn (x p) = Some c -> False) ->
  J (upd k c (k_flags t u z (k c))) x.
Proof.
  intros [J1 J2 J3 J4 J5 J6 J7 J8 J9] T Z1 Z2 Z3. constructor; auto.
  - intros d p. unfold upd. destruct (Nat.eqb_spec d c) as [->|_]; [|apply J1]. cbn. intros P ->. auto.
  - intros p L S. destruct (J2 p L S) as (d & D1 & D2 & D3). exists d. split; [exact D1|]. unfold upd. destruct (Nat.eqb_spec d c) as [->|_]; [|auto]. cbn. split; [exact D2|].
    destruct z; [|reflexivity]. exfalso. exact (Z3 eq_refl D3 p L S D1).
  - intros p d L S D. pose proof (J5 p d L S D) as H. unfold upd. destruct (Nat.eqb_spec d c) as [->|_]; [|exact H]. cbn. destruct z; [reflexivity|]. rewrite (Z2 eq_refl) in H. discriminate H.
  - intros p d q L D. unfold upd. destruct (Nat.eqb_spec d c) as [->|_]; [|apply J6; auto]. cbn. apply J6; auto.
  - intros p d q L D. unfold upd. destruct (Nat.eqb_spec d c) as [->|_]; [|apply J7; auto]. cbn. apply J7; auto.
  - intros d. unfold upd. destruct (Nat.eqb_spec d c) as [->|_]; [|apply J8]. cbn. apply J8.
  - intros d. unfold upd. destruct (Nat.eqb_spec d c) as [->|_]; [|apply J9]. cbn. auto.
Qed.

(** Changing one peer. *)
Lemma J_peer k x p v : J k x -> p_live v = p_live (x p) -> p_conn v = p_conn (x p) ->
  (p_live (x p) = true ->
    (p_state v <> Disconnected -> p_state (x p) <> Disconnected /\ p_out v = None) /\
    (p_ton v = true -> p_state v = Disconnected) /\
    (p_state v = Disconnected -> p_state (x p) <> Disconnected -> forall c, p_conn (x p) = Some c -> k_torn (k c) = true) /\
    (forall c, p_out (x p) = Some c -> k_torn (k c) = false -> p_conn (x p) = Some c \/ p_out v = Some c) /\
    (forall c q, p_in v = Some c -> k_peer (k c) = Some q -> q = p) /\
    (forall c q, p_out v = Some c -> k_peer (k c) = Some q -> q = p)) ->
  J k (upd x p v).
Proof.
  intros [J1 J2 J3 J4 J5 J6 J7 J8 J9] L C H. constructor; auto.
  - intros c q P T. destruct (J1 c q P T) as (A & B). unfold upd. destruct (Nat.eqb_spec q p) as [E0|_]; [subst q|auto]. split; [congruence|]. destruct (H A) as (_ & _ & _ & H4 & _). rewrite C.
    destruct B as [B|B]; [auto|]. destruct (H4 c B T); auto.
  - intros q LQ S. unfold upd in *. destruct (Nat.eqb_spec q p) as [E0|_]; [subst q|auto]. rewrite L in LQ. destruct (H LQ) as (H1 & _). destruct (H1 S) as (S1 & _). rewrite C. auto.
  - intros q LQ S. unfold upd in *. destruct (Nat.eqb_spec q p) as [E0|_]; [subst q|auto]. rewrite L in LQ. destruct (H LQ) as (H1 & _). exact (proj2 (H1 S)).
  - intros q LQ S. unfold upd in *. destruct (Nat.eqb_spec q p) as [E0|_]; [subst q|auto]. rewrite L in LQ. destruct (H LQ) as (_ & H1 & _). auto.
  - intros q c LQ S D. unfold upd in *. destruct (Nat.eqb_spec q p) as [E0|_]; [subst q|eauto]. rewrite L in LQ. rewrite C in D. destruct (H LQ) as (_ & _ & H1 & _).
    destruct (p_state (x p)) eqn:E; [eauto|apply H1; auto; discriminate|apply H1; auto; discriminate].
  - intros q c r LQ D P. unfold upd in *. destruct (Nat.eqb_spec q p) as [E0|_]; [subst q|eauto]. rewrite L in LQ. destruct (H LQ) as (_ & _ & _ & _ & H1 & _). eauto.
  - intros q c r LQ D P. unfold upd in *. destruct (Nat.eqb_spec q p) as [E0|_]; [subst q|eauto]. rewrite L in LQ. destruct (H LQ) as (_ & _ & _ & _ & _ & H1). eauto.
Qed.

(** Nothing that matters changes in one peer. *)
Lemma J_peer_same k x p v : J k x -> p_live v = p_live (x p) -> p_conn v = p_conn (x p) -> p_state v = p_state (x p) -> p_in v = p_in (x p) -> p_out v = p_out (x p) ->
  (p_ton v = true -> p_ton (x p) = true) -> J k (upd x p v).
Proof.
  intros K L C S I O T. apply J_peer; auto. intros LV. rewrite S, I, O. split; [|split; [|split; [|split; [|split]]]].
  - intros D. split; [exact D|]. exact (j_out _ _ K p LV D).
  - intros E. exact (j_ton _ _ K p LV (T E)).
  - intros D1 D2. contradiction.
  - auto.
  - intros c q. exact (j_in _ _ K p c q LV).
  - intros c q. exact (j_outp _ _ K p c q LV).
Qed.

Lemma J_new k x c v : J k x -> (forall p, p_live (x p) = true -> p_conn (x p) <> Some c /\ p_in (x p) <> Some c /\ p_out (x p) <> Some c) ->
  k_peer v = None -> (k_torn v = true -> k_term v = true) -> J (upd k c v) x.
Proof.
  intros [J1 J2 J3 J4 J5 J6 J7 J8 J9] F P T. constructor; auto.
  - intros d p. unfold upd. destruct (d =? c); [congruence|apply J1].
  - intros p L S. destruct (J2 p L S) as (d & D1 & D2 & D3). exists d. split; [exact D1|]. unfold upd. destruct (Nat.eqb_spec d c) as [->|_]; [|auto]. exfalso. exact (proj1 (F p L) D1).
  - intros p d L S D. unfold upd. destruct (Nat.eqb_spec d c) as [->|_]; [|eauto]. exfalso. exact (proj1 (F p L) D).
  - intros p d q L D. unfold upd. destruct (d =? c); [congruence|eauto].
  - intros p d q L D. unfold upd. destruct (d =? c); [congruence|eauto].
  - intros d. unfold upd. destruct (d =? c); auto.
  - intros d. unfold upd. destruct (d =? c); auto.
Qed.

Lemma J_ext k x k' x' : J k x -> (forall c, k' c = k c) -> (forall p, x' p = x p) -> J k' x'.
Proof.
  intros [J1 J2 J3 J4 J5 J6 J7 J8 J9] E F. constructor; intros *; rewrite ?E, ?F; eauto.
  intros L S. destruct (J2 _ L S) as (c & H). exists c. rewrite E. exact H.
Qed.

Lemma J_nonce g p s s' n : get_nonce g p s = Some (s', n) -> J (s_conn s) (s_peer s) -> J (s_conn s') (s_peer s') /\ s_conn s' = s_conn s /\
  (forall q, p_live (s_peer s' q) = p_live (s_peer s q) /\ p_conn (s_peer s' q) = p_conn (s_peer s q) /\ p_state (s_peer s' q) = p_state (s_peer s q) /\ p_in (s_peer s' q) = p_in (s_peer s q) /\ p_out (s_peer s' q) = p_out (s_peer s q) /\ p_ton (s_peer s' q) = p_ton (s_peer s q)).
Proof.
  intros E K. apply get_nonce_spec in E. destruct E as (-> & _). destruct (p_nonce (s_peer s p) =? 0)%N; [|auto 10]. sel. split; [apply J_peer_same; auto|].
  split; [reflexivity|]. intros q. unfold upd. destruct (Nat.eqb_spec q p); [subst|]; cbn; auto 10.
Qed.

(** The end of a handshake. *)
Lemma J_fin p c u s s' : finished p c u s s' -> J (s_conn s) (s_peer s) -> p_live (s_peer s p) = true -> p_state (s_peer s p) = Disconnected -> p_conn (s_peer s p) = Some u ->
  k_torn (s_conn s c) = false -> (k_mode (s_conn s c) = Active -> k_manual (s_conn s c) = false) -> (forall q, p_live (s_peer s q) = true -> serves s c q -> q = p) -> J (s_conn s') (s_peer s').
Proof.
  intros [F1 F2 _ _ _ _ _ _ _] K L S U T M O. pose proof K as [J1 J2 J3 J4 J5 J6 J7 J8 J9].
  assert (TU : k_torn (s_conn s u) = true) by eauto. assert (NE : u <> c) by congruence.
  assert (KP : forall d q, k_peer (s_conn s' d) = Some q -> (d = c /\ q = p) \/ (d <> c /\ d <> u /\ p_out (s_peer s p) <> Some d /\ k_peer (s_conn s d) = Some q)).
  { intros d q. rewrite F1. cbn. destruct (Nat.eqb_spec d c) as [->|N]; [intros E; injection E as <-; auto|]. destruct (Nat.eqb_spec d u) as [->|N']; [discriminate|]. cbn [orb].
    unfold oeq. destruct (p_out (s_peer s p)) as [w|]; [destruct (Nat.eqb_spec w d); [discriminate|right; repeat split; auto; congruence]|right; repeat split; auto; congruence]. }
  assert (KT : forall d, k_torn (s_conn s' d) = k_torn (s_conn s d)) by (intros d; rewrite F1; reflexivity).
  assert (KQ : forall d q, q <> p -> p_live (s_peer s q) = true -> k_peer (s_conn s d) = Some q -> k_torn (s_conn s d) = false -> k_peer (s_conn s' d) = Some q).
  { intros d q N LQ P TD. rewrite F1. cbn. destruct (Nat.eqb_spec d c) as [->|N1]; [exfalso; apply N; apply O; [exact LQ|left; exact P]|]. destruct (Nat.eqb_spec d u) as [->|N2]; [congruence|]. cbn [orb].
    unfold oeq. destruct (p_out (s_peer s p)) as [w|] eqn:EO; [|exact P]. destruct (Nat.eqb_spec w d); [subst w|exact P]. exfalso. apply N. symmetry. symmetry. exact (J7 p d q L EO P). }
  assert (PP : s_peer s' p = fin_peer c (s_peer s p)) by (rewrite F2, Nat.eqb_refl; reflexivity).
  assert (PQ : forall q, q <> p -> s_peer s' q = s_peer s q) by (intros q N; rewrite F2; apply Nat.eqb_neq in N; rewrite N; reflexivity).
  constructor.
  - intros d q P TD. rewrite KT in TD. destruct (KP _ _ P) as [(-> & ->)|(N1 & N2 & N3 & P')].
    + rewrite PP. cbn. auto.
    + destruct (J1 _ _ P' TD) as (A & B). destruct (Nat.eq_dec q p) as [->|N]; [|rewrite (PQ _ N); auto]. exfalso. destruct B as [B|B]; congruence.
  - intros q LQ SQ. destruct (Nat.eq_dec q p) as [->|N].
    + exists c. rewrite PP, KT. cbn. split; [reflexivity|]. split; [|exact T]. rewrite F1, Nat.eqb_refl. reflexivity.
    + rewrite (PQ _ N) in *. destruct (J2 q LQ SQ) as (d & D1 & D2 & D3). exists d. rewrite KT. split; [exact D1|]. split; [apply KQ; auto|exact D3].
  - intros q LQ SQ. destruct (Nat.eq_dec q p) as [->|N]; [rewrite PP; reflexivity|rewrite (PQ _ N) in *; auto].
  - intros q LQ SQ. destruct (Nat.eq_dec q p) as [->|N]; [rewrite PP in SQ; discriminate SQ|rewrite (PQ _ N) in *; auto].
  - intros q d LQ SQ D. destruct (Nat.eq_dec q p) as [->|N]; [rewrite PP in SQ; discriminate SQ|rewrite (PQ _ N) in *; rewrite KT; eauto].
  - intros q d r LQ D P. destruct (Nat.eq_dec q p) as [->|N]; [rewrite PP in D; discriminate D|rewrite (PQ _ N) in *]. destruct (KP _ _ P) as [(-> & ->)|(N1 & N2 & N3 & P')]; [|eauto].
    symmetry. apply O; [exact LQ|]. right. left. exact D.
  - intros q d r LQ D P. destruct (Nat.eq_dec q p) as [->|N]; [rewrite PP in D; discriminate D|rewrite (PQ _ N) in *]. destruct (KP _ _ P) as [(-> & ->)|(N1 & N2 & N3 & P')]; [|eauto].
    symmetry. apply O; [exact LQ|]. right. right. exact D.
  - intros d. rewrite F1. cbn. intros A B. destruct (Nat.eqb_spec d c) as [->|N1]; [rewrite (M A) in B; discriminate B|]. rewrite (J8 d A B). destruct (_ || _); reflexivity.
  - intros d. rewrite F1. cbn. auto.
Qed.

Lemma fresh s : WF s -> forall p, p_live (s_peer s p) = true -> p_conn (s_peer s p) <> Some (s_nc s) /\ p_in (s_peer s p) <> Some (s_nc s) /\ p_out (s_peer s p) <> Some (s_nc s).
Proof.
  intros W p L. destruct (w_live _ W _ L) as (_ & _ & OK). destruct (ok_conn _ _ OK) as (c & C & B). repeat split; intros E.
  - assert (c = s_nc s) by congruence. lia.
  - pose proof (ok_in _ _ OK _ E). lia.
  - pose proof (ok_out _ _ OK _ E). lia.
Qed.

Lemma own_up k x c p : J k x -> k_peer (k c) = Some p -> k_torn (k c) = false -> p_state (x p) <> Disconnected -> p_conn (x p) = Some c.
Proof. intros K P T S. destruct (j_own _ _ K _ _ P T) as (L & [H|H]); [exact H|]. rewrite (j_out _ _ K _ L S) in H. discriminate H. Qed.

Lemma J_tear k x c p v u : J k x -> k_peer (k c) = Some p -> k_torn (k c) = false -> p_live (x p) = true -> p_live v = true -> p_conn v = p_conn (x p) -> p_state v = Disconnected -> p_in v = None ->
  (p_state (x p) = Disconnected -> p_out v = p_out (x p)) -> (p_state (x p) <> Disconnected -> p_out v = None) ->
  J (upd k c (k_flags true u true (k c))) (upd x p v).
Proof.
  intros K P T L LV CV SV IV OD OU. pose proof K as [J1 J2 J3 J4 J5 J6 J7 J8 J9]. constructor.
  - intros d q. destruct (Nat.eq_dec d c) as [->|N]; [rewrite upd_same; cbn; discriminate|rewrite upd_other by exact N]. intros PD TD. destruct (J1 _ _ PD TD) as (A & B).
    destruct (Nat.eq_dec q p) as [->|NQ]; [rewrite upd_same|rewrite upd_other by exact NQ; auto]. split; [exact LV|]. rewrite CV. destruct B as [B|B]; [auto|].
    destruct (p_state (x p)) eqn:S; [right; rewrite OD by reflexivity; exact B|exfalso|exfalso]; rewrite (J3 p L) in B by congruence; discriminate B.
  - intros q. destruct (Nat.eq_dec q p) as [->|NQ]; [rewrite upd_same; congruence|rewrite upd_other by exact NQ]. intros LQ SQ. destruct (J2 q LQ SQ) as (d & D1 & D2 & D3).
    exists d. assert (d <> c) by congruence. rewrite upd_other by assumption. auto.
  - intros q. destruct (Nat.eq_dec q p) as [->|NQ]; [rewrite upd_same; congruence|rewrite upd_other by exact NQ; auto].
  - intros q. destruct (Nat.eq_dec q p) as [->|NQ]; [rewrite upd_same; congruence|rewrite upd_other by exact NQ; auto].
  - intros q d. destruct (Nat.eq_dec d c) as [->|N]; [rewrite upd_same; reflexivity|rewrite (upd_other k) by exact N].
    destruct (Nat.eq_dec q p) as [->|NQ]; [rewrite upd_same|rewrite upd_other by exact NQ; eauto]. intros _ _ C. rewrite CV in C.
    destruct (p_state (x p)) eqn:S; [eauto|exfalso|exfalso]; assert (p_conn (x p) = Some c) by (apply (own_up k); auto; congruence); congruence.
  - intros q d r LQ D PD. assert (PD' : k_peer (k d) = Some r) by (unfold upd in PD; destruct (Nat.eqb_spec d c); [subst; exact PD|exact PD]).
    destruct (Nat.eq_dec q p) as [->|NQ]; [rewrite upd_same in D; congruence|rewrite upd_other in * by exact NQ; eauto].
  - intros q d r LQ D PD. assert (PD' : k_peer (k d) = Some r) by (unfold upd in PD; destruct (Nat.eqb_spec d c); [subst; exact PD|exact PD]).
    destruct (Nat.eq_dec q p) as [->|NQ]; [rewrite upd_same in D|rewrite upd_other in * by exact NQ; eauto].
    destruct (p_state (x p)) eqn:S; [rewrite OD in D by reflexivity; eauto|exfalso|exfalso]; rewrite OU in D by discriminate; discriminate D.
  - intros d. unfold upd. destruct (Nat.eqb_spec d c) as [->|_]; [cbn; apply J8|apply J8].
  - intros d. unfold upd. destruct (Nat.eqb_spec d c) as [->|_]; [reflexivity|apply J9].
Qed.

Lemma J_dial k x c p v w : J k x -> (forall q, p_live (x q) = true -> p_conn (x q) <> Some c /\ p_in (x q) <> Some c /\ p_out (x q) <> Some c) ->
  p_live (x p) = true -> p_state (x p) = Disconnected -> (forall d, p_out (x p) = Some d -> k_torn (k d) = true) ->
  k_peer w = Some p -> k_torn w = false -> k_manual w = false ->
  p_live v = true -> p_conn v = p_conn (x p) -> p_state v = Disconnected -> p_in v = p_in (x p) -> p_out v = Some c -> J (upd k c w) (upd x p v).
Proof.
  intros K F L S OT WP WT WM LV CV SV IV OV. pose proof K as [J1 J2 J3 J4 J5 J6 J7 J8 J9]. constructor.
  - intros d q. destruct (Nat.eq_dec d c) as [->|N]; [rewrite upd_same|rewrite (upd_other k) by exact N].
    + rewrite WP. intros E _. injection E as <-. rewrite upd_same. auto.
    + intros PD TD. destruct (J1 _ _ PD TD) as (A & B). destruct (Nat.eq_dec q p) as [->|NQ]; [rewrite upd_same|rewrite upd_other by exact NQ; auto]. split; [exact LV|]. left. rewrite CV.
      destruct B as [B|B]; [exact B|]. rewrite (OT _ B) in TD. discriminate TD.
  - intros q. destruct (Nat.eq_dec q p) as [->|NQ]; [rewrite upd_same; congruence|rewrite upd_other by exact NQ]. intros LQ SQ. destruct (J2 q LQ SQ) as (d & D1 & D2 & D3).
    exists d. assert (d <> c) by (intros ->; exact (proj1 (F q LQ) D1)). rewrite upd_other by assumption. auto.
  - intros q. destruct (Nat.eq_dec q p) as [->|NQ]; [rewrite upd_same; congruence|rewrite upd_other by exact NQ; auto].
  - intros q. destruct (Nat.eq_dec q p) as [->|NQ]; [rewrite upd_same; congruence|rewrite upd_other by exact NQ; auto].
  - intros q d. destruct (Nat.eq_dec q p) as [->|NQ]; [rewrite upd_same|rewrite (upd_other x) by exact NQ].
    + intros _ _ C. rewrite CV in C. assert (d <> c) by (intros ->; exact (proj1 (F p L) C)). rewrite upd_other by assumption. eauto.
    + intros LQ SQ C. assert (d <> c) by (intros ->; exact (proj1 (F q LQ) C)). rewrite upd_other by assumption. eauto.
  - intros q d r LQ D PD. assert (HD : p_live (x q) = true /\ p_in (x q) = Some d).
    { destruct (Nat.eq_dec q p) as [->|NQ]; [rewrite upd_same in D; rewrite IV in D; auto|rewrite upd_other in * by exact NQ; auto]. }
    destruct HD as (LQ' & D'). assert (d <> c) by (intros ->; exact (proj1 (proj2 (F q LQ')) D')). rewrite upd_other in PD by assumption. eauto.
  - intros q d r. destruct (Nat.eq_dec q p) as [->|NQ]; [rewrite upd_same, OV|rewrite upd_other by exact NQ].
    + intros _ E. injection E as <-. rewrite upd_same. congruence.
    + intros LQ D. assert (d <> c) by (intros ->; exact (proj2 (proj2 (F q LQ)) D)). rewrite upd_other by assumption. eauto.
  - intros d. unfold upd. destruct (d =? c); [congruence|apply J8].
  - intros d. unfold upd. destruct (d =? c); [congruence|apply J9].
Qed.

Lemma J_add k x c p v w : J k x -> (forall q, p_live (x q) = true -> p_conn (x q) <> Some c /\ p_in (x q) <> Some c /\ p_out (x q) <> Some c) -> p_live (x p) = false ->
  k_torn w = true -> k_term w = true -> k_mode w = Passive -> p_conn v = Some c -> p_state v = Disconnected -> p_in v = None -> p_out v = None -> J (upd k c w) (upd x p v).
Proof.
  intros K F L WT WM WP CV SV IV OV. pose proof K as [J1 J2 J3 J4 J5 J6 J7 J8 J9]. constructor.
  - intros d q. destruct (Nat.eq_dec d c) as [->|N]; [rewrite upd_same; congruence|rewrite (upd_other k) by exact N].
    intros PD TD. destruct (J1 _ _ PD TD) as (A & B). assert (q <> p) by congruence. rewrite upd_other by assumption. auto.
  - intros q. destruct (Nat.eq_dec q p) as [->|NQ]; [rewrite upd_same; congruence|rewrite upd_other by exact NQ]. intros LQ SQ. destruct (J2 q LQ SQ) as (d & D1 & D2 & D3).
    exists d. assert (d <> c) by (intros ->; exact (proj1 (F q LQ) D1)). rewrite upd_other by assumption. auto.
  - intros q. destruct (Nat.eq_dec q p) as [->|NQ]; [rewrite upd_same; congruence|rewrite upd_other by exact NQ; auto].
  - intros q. destruct (Nat.eq_dec q p) as [->|NQ]; [rewrite upd_same; congruence|rewrite upd_other by exact NQ; auto].
  - intros q d. destruct (Nat.eq_dec q p) as [->|NQ]; [rewrite upd_same|rewrite (upd_other x) by exact NQ].
    + intros _ _ C. rewrite CV in C. injection C as <-. rewrite upd_same. exact WT.
    + intros LQ SQ C. assert (d <> c) by (intros ->; exact (proj1 (F q LQ) C)). rewrite upd_other by assumption. eauto.
  - intros q d r. destruct (Nat.eq_dec q p) as [->|NQ]; [rewrite upd_same, IV; discriminate|rewrite upd_other by exact NQ].
    intros LQ D. assert (d <> c) by (intros ->; exact (proj1 (proj2 (F q LQ)) D)). rewrite upd_other by assumption. eauto.
  - intros q d r. destruct (Nat.eq_dec q p) as [->|NQ]; [rewrite upd_same, OV; discriminate|rewrite upd_other by exact NQ].
    intros LQ D. assert (d <> c) by (intros ->; exact (proj2 (proj2 (F q LQ)) D)). rewrite upd_other by assumption. eauto.
  - intros d. unfold upd. destruct (d =? c); [congruence|apply J8].
  - intros d. unfold upd. destruct (d =? c); [auto|apply J9].
Qed.

Lemma J_del k x k' x' p c : J k x -> p_live (x p) = true -> p_conn (x p) = Some c ->
  (forall d, k_torn (k' d) = k_torn (k d) /\ k_term (k' d) = k_term (k d) /\ k_mode (k' d) = k_mode (k d) /\ k_manual (k' d) = k_manual (k d) /\
     k_peer (k' d) = if (d =? c) || oeq (p_in (x p)) (Some d) || oeq (p_out (x p)) (Some d) then None else k_peer (k d)) ->
  (forall q, q <> p -> x' q = x q) -> p_live (x' p) = false -> J k' x'.
Proof.
  intros K L C H X XP. pose proof K as [J1 J2 J3 J4 J5 J6 J7 J8 J9].
  assert (KP : forall d q, k_peer (k' d) = Some q -> k_peer (k d) = Some q /\ d <> c /\ p_out (x p) <> Some d).
  { intros d q. destruct (H d) as (_ & _ & _ & _ & ->). destruct (Nat.eqb_spec d c); [discriminate|]. cbn [orb]. destruct (oeq (p_in (x p)) (Some d)); [discriminate|]. cbn [orb].
    unfold oeq. destruct (p_out (x p)) as [w|]; [destruct (Nat.eqb_spec w d); [discriminate|]|]; intros E; repeat split; auto; congruence. }
  assert (KQ : forall d q, q <> p -> k_peer (k d) = Some q -> k_torn (k d) = false -> k_peer (k' d) = Some q).
  { intros d q N P T. destruct (H d) as (_ & _ & _ & _ & ->). destruct (Nat.eqb_spec d c) as [->|_].
    - exfalso. destruct (p_state (x p)) eqn:S; [rewrite (J5 p c L S C) in T; discriminate T| |]; destruct (J2 p L) as (e & E1 & E2 & _); congruence.
    - cbn [orb]. unfold oeq. destruct (p_in (x p)) as [w|] eqn:IN, (p_out (x p)) as [w'|] eqn:OU; try (destruct (Nat.eqb_spec w d) as [->|_]; [exfalso; apply N; exact (J6 _ _ _ L IN P)|]); try (destruct (Nat.eqb_spec w' d) as [->|_]; [exfalso; apply N; exact (J7 _ _ _ L OU P)|]); exact P. }
  assert (KT : forall d, k_torn (k' d) = k_torn (k d)) by (intros d; apply H).
  assert (LP : forall q, p_live (x' q) = true -> q <> p /\ x' q = x q) by (intros q LQ; destruct (Nat.eq_dec q p) as [->|N]; [congruence|auto]).
  constructor.
  - intros d q P T. destruct (KP _ _ P) as (P' & N1 & N2). rewrite KT in T. destruct (J1 _ _ P' T) as (A & B). destruct (Nat.eq_dec q p) as [->|N]; [exfalso; destruct B; congruence|rewrite (X _ N); auto].
  - intros q LQ S. destruct (LP q LQ) as (N & E). rewrite E in *. destruct (J2 q LQ S) as (d & D1 & D2 & D3). exists d. rewrite KT. auto.
  - intros q LQ S. destruct (LP q LQ) as (N & E). rewrite E in *. auto.
  - intros q LQ S. destruct (LP q LQ) as (N & E). rewrite E in *. auto.
  - intros q d LQ S D. destruct (LP q LQ) as (N & E). rewrite E in *. rewrite KT. eauto.
  - intros q d r LQ D P. destruct (LP q LQ) as (N & E). rewrite E in *. destruct (KP _ _ P) as (P' & _). eauto.
  - intros q d r LQ D P. destruct (LP q LQ) as (N & E). rewrite E in *. destruct (KP _ _ P) as (P' & _). eauto.
  - intros d A B. destruct (H d) as (_ & _ & H1 & H2 & ->). rewrite H1 in A. rewrite H2 in B. rewrite (J8 d A B). destruct (_ || _); reflexivity.
  - intros d. rewrite KT. destruct (H d) as (_ & -> & _). auto.
Qed.

Lemma j_own_nt c s : J (s_conn s) (s_peer s) -> k_term (s_conn s c) = false -> forall q, k_peer (s_conn s c) = Some q -> p_live (s_peer s q) = true /\ (p_conn (s_peer s q) = Some c \/ p_out (s_peer s q) = Some c).
Proof.
  intros K H q E. apply (j_own _ _ K); [exact E|]. destruct (k_torn (s_conn s c)) eqn:TC; [|reflexivity]. rewrite (j_term _ _ K c TC) in H. discriminate H.
Qed.
Lemma J_in c p s : J (s_conn s) (s_peer s) -> k_term (s_conn s c) = false -> (forall q, k_peer (s_conn s c) = Some q -> q = p) -> J (s_conn s) (upd (s_peer s) p (x_in c (s_peer s p))).
Proof.
  intros K H O. apply J_peer; auto. intros LV. cbn. split; [intros N; split; [exact N|exact (j_out _ _ K p LV N)]|]. split; [exact (j_ton _ _ K p LV)|]. split; [congruence|]. split; [auto|]. split.
  - intros d q E P. injection E as <-. auto.
  - intros d q. exact (j_outp _ _ K p d q LV).
Qed.
Lemma J_outc c p s : J (s_conn s) (s_peer s) -> k_term (s_conn s c) = false -> p_state (s_peer s p) = Disconnected -> (forall q, k_peer (s_conn s c) = Some q -> q = p) ->
  p_out (s_peer s p) = Some c \/ no_dial s p -> J (s_conn s) (upd (s_peer s) p (x_out c (s_peer s p))).
Proof.
  intros K H S O D. apply J_peer; auto. intros LV. cbn. split; [congruence|]. split; [auto|]. split; [congruence|]. split; [|split].
  - intros d E T. destruct D as [D|D]; [right; congruence|]. rewrite (D d E) in T. discriminate T.
  - intros d q. exact (j_in _ _ K p d q LV).
  - intros d q E P. injection E as <-. auto.
Qed.

Ltac eqsd := repeat (match goal with |- context [?a =? ?b] => destruct (Nat.eqb_spec a b); subst end; rewrite ?Nat.eqb_refl; cbn [orb]); cbn; auto 10; try congruence.

Lemma calm_leaf e s (o : list obs) s' o' : WF s -> s_halt s = false -> (s_halt s = true \/ J (s_conn s) (s_peer s)) -> calm e s -> leaf hash e s s' o' -> s_halt s' = true \/ J (s_conn s') (s_peer s').
Proof.
  intros W HH T CA L. destruct T as [T|K]; [congruence|]. pose proof (fresh _ W) as FR.
  destruct L; sel; try solve [left; reflexivity]; try solve [right; exact K]; try solve [right; apply J_peer_same; auto]; try solve [right; apply J_new; auto; cbn; discriminate]; right.
  - apply J_flags; auto. intros A B. congruence.
  - apply J_flags; auto; discriminate.
  - destruct (J_nonce _ _ _ _ _ H4) as (A & _); [|exact A]. sel. apply J_flags; auto; discriminate.
  - apply J_flags; auto; discriminate.
  - apply J_flags; auto; try discriminate. intros _ _ p LV S C. destruct (j_up _ _ K p LV S) as (d & D1 & D2 & D3). assert (d = c) by congruence. subst d.
    destruct H2 as [H2|(H2 & H3)]; [congruence|]. rewrite (j_man _ _ K c H2 H3) in D2. discriminate D2.
  - apply (J_tear _ _ c p); auto; unfold x_unpre, x_end; destruct (p_state (s_peer s p)) eqn:S; cbn; auto; try discriminate; congruence.
  - apply (J_tear _ _ c p); auto; unfold x_lost, x_end; destruct (p_state (s_peer s p)) eqn:S; destruct (x_cur _ =? 0)%Z; cbn; auto; try discriminate; congruence.
  - apply (J_dial _ _ (s_nc s) p); auto. exact (j_ton _ _ K p H H1). exact (j_ton _ _ K p H H1).
  - apply J_add; auto. destruct (p_live (s_peer s (s_np s))) eqn:LV; [|reflexivity]. destruct (w_live _ W _ LV) as (B & _). lia.
  - destruct (known_live _ _ _ W H0) as (LV & _ & _ & _). apply (J_del (s_conn s) (s_peer s) _ _ p c K LV H1).
    + intros d. destruct (p_out (s_peer s p)) as [v|], (p_in (s_peer s p)) as [u|]; cbn [clear_peer_of onc w_conn s_conn oeq w_q]; unfold upd; eqsd.
    + intros q0 N. destruct (p_out (s_peer s p)) as [v|], (p_in (s_peer s p)) as [u|]; cbn [clear_peer_of onc w_conn s_peer w_q]; apply upd_other; exact N.
    + rewrite upd_same. reflexivity.
  - unfold calm in CA. rewrite H in CA. specialize (CA p H0). apply J_peer; auto; try (destruct (n =? 0)%Z; reflexivity). intros LV.
    assert (E : forall x, p_state (if (n =? 0)%Z then x_conn n x else x_arm (x_conn n x)) = p_state x /\ p_in (if (n =? 0)%Z then x_conn n x else x_arm (x_conn n x)) = None /\ p_out (if (n =? 0)%Z then x_conn n x else x_arm (x_conn n x)) = None) by (intros x; destruct (n =? 0)%Z; auto).
    destruct (E (s_peer s p)) as (-> & -> & ->). repeat split; auto; try discriminate; try congruence. intros d D TD. rewrite (CA d D) in TD. discriminate TD.
  - apply J_peer; auto. intros LV. cbn. assert (N : p_state (s_peer s p) <> Disconnected) by congruence. repeat split; auto; try discriminate. intros d D. rewrite (j_out _ _ K p LV N) in D. discriminate D.
  - apply J_peer; auto. intros LV. cbn. assert (N : p_state (s_peer s p) <> Disconnected) by congruence. repeat split; auto; try discriminate; try congruence. intros d D. rewrite (j_out _ _ K p LV N) in D. discriminate D.
  - unfold calm in CA. rewrite H in CA. assert (CB := fun q => CA H2 p q H4). clear CA. apply J_peer; auto. intros LV. cbn. assert (N : p_state (s_peer s p) <> Disconnected) by congruence.
    split; [intros; split; [exact N|exact (j_out _ _ K p LV N)]|]. split; [exact (j_ton _ _ K p LV)|]. split; [congruence|]. split; [auto|]. split.
    + intros d q0 E P. injection E as <-. destruct (j_own _ _ K _ _ P) as (A & _); [|apply CB; [exact A|left; exact P]].
      destruct (k_torn (s_conn s c)) eqn:TC; [|reflexivity]. rewrite (j_term _ _ K c TC) in H1. discriminate H1.
    + intros d q0. exact (j_outp _ _ K p d q0 LV).
  - unfold calm in CA. rewrite H in CA. assert (CB := fun q => CA H2 p q H4). clear CA. destruct (J_nonce _ _ _ _ _ H7 K) as (K1 & C1 & Q1). change (s_conn (w_q q s)) with (s_conn s) in C1. change (s_peer (w_q q s)) with (s_peer s) in Q1.
    assert (OC : forall q0, k_peer (s_conn s1 c) = Some q0 -> q0 = p) by (rewrite C1; exact (fun q0 E => CB q0 (proj1 (j_own_nt c _ K H1 q0 E)) (or_introl E))).
    exact (J_in c p s1 K1 ltac:(rewrite C1; exact H1) OC).
  - unfold calm in CA. rewrite H in CA. assert (CB := fun q => CA H2 p q H4). clear CA. destruct (J_nonce _ _ _ _ _ H7 K) as (K1 & C1 & Q1). change (s_conn (w_q q s)) with (s_conn s) in C1. change (s_peer (w_q q s)) with (s_peer s) in Q1.
    assert (OC : forall q0, k_peer (s_conn s1 c) = Some q0 -> q0 = p) by (rewrite C1; exact (fun q0 E => CB q0 (proj1 (j_own_nt c _ K H1 q0 E)) (or_introl E))).
    destruct (known_live _ _ _ W H4) as (LV & _ & _ & _). destruct (Q1 p) as (Q1a & Q1b & Q1c & _).
    assert (TC : k_torn (s_conn s c) = false) by (destruct (k_torn (s_conn s c)) eqn:TC; [rewrite (j_term _ _ K c TC) in H1; discriminate H1|reflexivity]).
    refine (J_fin p c u _ _ H11 _ _ _ _ _ _ _); sel; rewrite ?C1; auto; try (rewrite ?upd_same; cbn; congruence); try congruence.
    + apply J_peer_same; auto. rewrite <- C1; exact (J_in c p s1 K1 ltac:(rewrite C1; exact H1) OC).
    + intros q0. destruct (Nat.eq_dec q0 p) as [->|N]; [auto|]. unfold serves. sel. rewrite C1, !upd_other by exact N. destruct (Q1 q0) as (-> & _ & _ & -> & -> & _). intros A B. exact (CB q0 A B).
  - unfold calm in CA. rewrite H in CA. destruct (CA H2 p H4) as (CM & CD & CS). clear CA.
    assert (K0 : J (s_conn s) (upd (s_peer s) p (x_out c (s_peer s p)))) by exact (J_outc c p s K H1 H5 (fun q0 E => CS q0 (proj1 (j_own_nt c _ K H1 q0 E)) (or_introl E)) CD).
    exact (proj1 (J_nonce _ _ _ _ _ H7 K0)).
  - unfold calm in CA. rewrite H in CA. destruct (CA H2 p H4) as (CM & CD & CS). clear CA.
    assert (K0 : J (s_conn s) (upd (s_peer s) p (x_out c (s_peer s p)))) by exact (J_outc c p s K H1 H5 (fun q0 E => CS q0 (proj1 (j_own_nt c _ K H1 q0 E)) (or_introl E)) CD).
    destruct (J_nonce _ _ _ _ _ H7 K0) as (K1 & C1 & Q1). change (s_conn (onp p (x_out c) (w_q q s))) with (s_conn s) in C1.
    destruct (known_live _ _ _ W H4) as (LV & _ & _ & _). pose proof (Q1 p) as Q1p. sel. cbn [s_peer onp w_peer w_q] in Q1p. rewrite upd_same in Q1p. destruct Q1p as (Q1a & Q1b & Q1c & _). cbn in Q1a, Q1b, Q1c.
    assert (TC : k_torn (s_conn s c) = false) by (destruct (k_torn (s_conn s c)) eqn:TC; [rewrite (j_term _ _ K c TC) in H1; discriminate H1|reflexivity]).
    unfold reset_ping_timer in H11.
    refine (J_fin p c u _ _ H11 _ _ _ _ _ _ _); sel; rewrite ?C1; auto; try (rewrite ?upd_same; cbn; congruence); try congruence.
    + apply J_peer_same; auto. apply J_peer_same; auto. rewrite <- C1. exact K1.
    + intros q0. destruct (Nat.eq_dec q0 p) as [->|N]; [auto|]. unfold serves. sel. rewrite C1, !upd_other by exact N. destruct (Q1 q0) as (-> & _ & _ & -> & -> & _). sel. rewrite !upd_other by exact N. intros A B. exact (CS q0 A B).
Qed.

Lemma calm_run es s o : run hash es st0 = Some (s, o) -> along hash calm es st0 -> s_halt s = true \/ J (s_conn s) (s_peer s).
Proof.
  apply (along_inv hash calm (fun s _ => s_halt s = true \/ J (s_conn s) (s_peer s))).
  - right. constructor; cbn; try discriminate; auto.
  - intros e s1 o1 s2 o2. exact (calm_leaf e s1 o1 s2 o2).
  - intros s1 s2 o1 Q [T|T]; [left; rewrite <- (q_halt _ _ Q); exact T|]. right. apply (J_ext _ _ _ _ T); intros; symmetry; apply Q.
Qed.

(** ** C60 *)

(** [p_conn]: what get_peer_conn gives; [k_peer]: the peer whose id get_peer_id
    gives. *)
Theorem C60_one_connection_partial : forall es s o i p, run hash es st0 = Some (s, o) -> along hash calm es st0 -> s_halt s = false ->
  find_by i (s_known s) = Some p -> p_state (s_peer s p) <> Disconnected ->
  exists c, p_conn (s_peer s p) = Some c /\ k_peer (s_conn s c) = Some p /\ k_torn (s_conn s c) = false /\
    forall d, k_peer (s_conn s d) = Some p -> k_torn (s_conn s d) = false -> d = c.
Proof.
  intros es s o i p E A HH F S. destruct (calm_run _ _ _ E A) as [T|K]; [congruence|]. destruct (known_live _ _ _ (wf_run _ _ _ _ E) F) as (L & _).
  destruct (j_up _ _ K p L S) as (c & C1 & C2 & C3). exists c. repeat split; auto. intros d D1 D2. pose proof (own_up _ _ _ _ K D1 D2 S). congruence.
Qed.

Theorem C60_other_teardown_partial : forall es s o d s' o' p, run hash es st0 = Some (s, o) -> along hash calm es st0 ->
  step hash (ETear d) s = Some (s', o') -> p_live (s_peer s p) = true -> p_conn (s_peer s p) <> Some d ->
  p_state (s_peer s' p) = p_state (s_peer s p) /\ p_conn (s_peer s' p) = p_conn (s_peer s p) /\
  (forall c, p_conn (s_peer s p) = Some c -> k_peer (s_conn s' c) = k_peer (s_conn s c) /\ k_torn (s_conn s' c) = k_torn (s_conn s c)).
Proof.
  intros es s o d s' o' p E A ST L N. destruct (step_leaf _ _ _ _ _ (wf_run _ _ _ _ E) ST) as (HH & s1 & LF & Q). destruct (calm_run _ _ _ E A) as [T|K]; [congruence|].
  rewrite <- (q_peer _ _ Q). 
  assert (X : p_state (s_peer s1 p) = p_state (s_peer s p) /\ p_conn (s_peer s1 p) = p_conn (s_peer s p) /\ (forall c, c <> d -> s_conn s1 c = s_conn s c)).
  { inversion LF; subst; sel; try solve [repeat split; auto; intros; apply upd_other; assumption].
    - split; [|split; [|intros; apply upd_other; assumption]].
      + unfold upd. destruct (Nat.eqb_spec p p0) as [->|_]; [|reflexivity]. unfold x_unpre, x_end. destruct (p_state (s_peer s p0)) eqn:S; [exact S| |]; exfalso; apply N; apply (own_up (s_conn s)); auto; congruence.
      + unfold upd. destruct (Nat.eqb_spec p p0) as [->|_]; [|reflexivity]. unfold x_unpre, x_end. destruct (p_state (s_peer s p0)); reflexivity.
    - split; [|split; [|intros; apply upd_other; assumption]].
      + unfold upd. destruct (Nat.eqb_spec p p0) as [->|_]; [|reflexivity]. unfold x_lost, x_end. destruct (p_state (s_peer s p0)) eqn:S; [destruct (_ =? 0)%Z; exact S| |]; exfalso; apply N; apply (own_up (s_conn s)); auto; congruence.
      + unfold upd. destruct (Nat.eqb_spec p p0) as [->|_]; [|reflexivity]. unfold x_lost, x_end. destruct (p_state (s_peer s p0)), (_ =? 0)%Z; reflexivity. }
  destruct X as (X1 & X2 & X3). split; [exact X1|]. split; [exact X2|]. intros c C. rewrite <- (q_conn _ _ Q), X3 by congruence. auto.
Qed.

(** ** C61 *)

Lemma mild_noub o w : mild o -> ~ In (OUb w) o.
Proof. intros M I. exact (M _ I). Qed.

Theorem C61_no_dangling_partial : forall es s o e s' o', run hash es st0 = Some (s, o) -> along hash calm es st0 -> calm e s -> step hash e s = Some (s', o') -> ~ In (OUb Freed) o'.
Proof.
  intros es s o e s' o' E A CE ST I. destruct (step_leaf _ _ _ _ _ (wf_run _ _ _ _ E) ST) as (HH & s1 & LF & _). destruct (calm_run _ _ _ E A) as [T|K]; [congruence|].
  assert (NF : forall c p, k_peer (s_conn s c) = Some p -> k_torn (s_conn s c) = false -> p_live (s_peer s p) = false -> False).
  { intros c p P T L. destruct (j_own _ _ K _ _ P T) as (L' & _). congruence. }
  assert (NT : forall c, k_term (s_conn s c) = false -> k_torn (s_conn s c) = false).
  { intros c T. destruct (k_torn (s_conn s c)) eqn:TC; [|reflexivity]. rewrite (j_term _ _ K c TC) in T. discriminate T. }
  destruct LF; try solve [repeat (destruct I as [I|I]; [discriminate I|]); destruct I]; try solve [eapply mild_noub; eassumption];
    try solve [repeat (destruct I as [I|I]; [discriminate I|]); repeat (apply in_app_or in I; destruct I as [I|I]); try (eapply mild_noub; eassumption); repeat (destruct I as [I|I]; [discriminate I|]); destruct I].
  all: eauto.
  - apply in_app_or in I. destruct I as [I|[I|I]]; [destruct (p_addr (s_peer s p) =? 0)%N; [destruct I as [I|[]]; discriminate I|destruct I]|discriminate I|eapply mild_noub; eassumption].
  - destruct I as [I|[I|I]]; [discriminate I|discriminate I|]. destruct (p_in (s_peer s p)), (p_out (s_peer s p)); cbn in I; intuition discriminate.
  - unfold calm in CE. rewrite H in CE. eauto.
  - destruct I as [I|[I|I]]; [discriminate I|discriminate I|]. apply in_app_or in I. destruct I as [I|I]; [eapply mild_noub; eassumption|].
    rewrite H12 in I. destruct (k_term (s_conn s u)); cbn in I; intuition discriminate.
  - destruct I as [I|I]; [discriminate I|]. apply in_app_or in I. destruct I as [I|I]; [eapply mild_noub; eassumption|].
    rewrite H12 in I. destruct (k_term (s_conn s u)); cbn in I; intuition discriminate.
Qed.

End C.

(** ** Checking that a given history is calm *)

Section B.
Variable hash : addr -> pid.

Definition servesb (s : st) (c q : nat) : bool := oeq (k_peer (s_conn s c)) (Some q) || oeq (p_in (s_peer s q)) (Some c) || oeq (p_out (s_peer s q)) (Some c).
Definition no_dialb (s : st) (p : nat) : bool := match p_out (s_peer s p) with Some c => k_torn (s_conn s c) | None => true end.
Definition onlyb (s : st) (c p : nat) : bool := forallb (fun q => negb (p_live (s_peer s q) && servesb s c q) || (q =? p)) (List.seq 0 (s_np s)).
Definition calmb (e : ev) (s : st) : bool :=
  match e with
  | ERetry p _ => no_dialb s p
  | EDisp _ =>
    match s_q s with
    | TConn _ i _ :: _ => match find_by i (s_known s) with Some p => no_dialb s p | None => true end
    | TPeer c :: _ => negb (k_torn (s_conn s c))
    | TPing (Some c) a _ :: _ => match find_by (ident hash (s_conn s c) a) (s_known s) with Some p => onlyb s c p | None => true end
    | TPong c a _ :: _ => (a =? 0)%N || match find_by (ident hash (s_conn s c) (k_addr (s_conn s c))) (s_known s) with
                          | Some p => negb (k_manual (s_conn s c)) && (oeq (p_out (s_peer s p)) (Some c) || no_dialb s p) && onlyb s c p
                          | None => true
                          end
    | _ => true
    end
  | _ => true
  end.

Lemma oeq_iff a b : oeq a (Some b) = true <-> a = Some b.
Proof. destruct a as [a|]; cbn; [rewrite Nat.eqb_eq|]; split; congruence. Qed.
Lemma no_dialb_ok s p : no_dialb s p = true -> no_dial s p.
Proof. unfold no_dialb, no_dial. intros H c E. rewrite E in H. exact H. Qed.
Lemma onlyb_ok s c p : WF s -> onlyb s c p = true -> forall q, p_live (s_peer s q) = true -> serves s c q -> q = p.
Proof.
  intros W H q L S. unfold onlyb in H. rewrite forallb_forall in H. destruct (w_live _ W _ L) as (B & _). specialize (H q ltac:(apply in_seq; lia)).
  apply orb_true_iff in H. destruct H as [H|H]; [|apply Nat.eqb_eq; exact H]. exfalso. rewrite L in H. cbn [andb] in H. rewrite negb_true_iff in H. unfold servesb in H. rewrite !orb_false_iff in H. destruct H as ((H1 & H2) & H3).
  destruct S as [S|[S|S]]; rewrite <- oeq_iff in S; congruence.
Qed.
Lemma calmb_ok e s : WF s -> calmb e s = true -> calm hash e s.
Proof.
  intros W H. destruct e; cbn [calm calmb] in *; auto; [|apply no_dialb_ok; exact H].
  destruct (s_q s) as [|t q]; [exact I|]. destruct t; auto.
  - intros p F. rewrite F in H. apply no_dialb_ok. exact H.
  - apply negb_true_iff. exact H.
  - destruct c as [c|]; [|exact I]. intros _ p q0 F. rewrite F in H. exact (onlyb_ok _ _ _ W H q0).
  - intros A p F. rewrite F in H. apply orb_true_iff in H. destruct H as [H|H]; [apply N.eqb_eq in H; contradiction|]. rewrite !andb_true_iff, orb_true_iff, negb_true_iff in H. destruct H as ((H1 & H2) & H3).
    split; [exact H1|]. split; [|exact (onlyb_ok _ _ _ W H3)]. destruct H2 as [H2|H2]; [left; apply oeq_iff; exact H2|right; apply no_dialb_ok; exact H2].
Qed.

Fixpoint alongb (Q : ev -> st -> bool) (es : list ev) (s : st) : bool :=
  match es with
  | [] => true
  | e :: es => Q e s && match step hash e s with Some (s1, _) => alongb Q es s1 | None => true end
  end.
Lemma alongb_ok (Qb : ev -> st -> bool) (Q : ev -> st -> Prop) : (forall e s, WF s -> Qb e s = true -> Q e s) -> forall es s, WF s -> alongb Qb es s = true -> along hash Q es s.
Proof.
  intros H es. induction es as [|e es IH]; intros s W B; [exact I|]. cbn [alongb along] in *. apply andb_true_iff in B. destruct B as (B1 & B2). split; [auto|].
  destruct (step hash e s) as [[s1 o1]|] eqn:E; [|exact I]. apply IH; [exact (wf_step _ _ _ _ _ W E)|exact B2].
Qed.
End B.

(** ** Witnesses *)

(** Peer 5 (address 9) is dialled; the attempt, connection 1, takes longer than
    the retry delay, so it is dialled again with connection 2, which gets
    established. *)
Definition stale : list ev := call (-1) ++
  [ERetry 0 g0; ERetry 0 g0; ESetup 2 g0; EPost (TPong 2 9%N passive_nonce); EDisp g0; EUser].

(** Then the first attempt ends: the peer counts as disconnected, and the
    user is told so, although connection 2 is up. *)
Theorem C60_stale_dial_refuted : exists es s o e s' o', run h5 es st0 = Some (s, o) /\ step h5 e s = Some (s', o') /\ e = ETear 1 /\
  p_state (s_peer s 0) = Connected /\ p_conn (s_peer s 0) = Some 2 /\ k_peer (s_conn s 1) = Some 0 /\
  p_state (s_peer s' 0) = Disconnected /\ p_conn (s_peer s' 0) = Some 2 /\ k_peer (s_conn s' 2) = Some 0 /\ k_term (s_conn s' 2) = false /\ In OAssert o' /\ s_uq s' = [UCb 0 1 false].
Proof.
  set (es := stale ++ [ETerm 1]). exists es.
  destruct (run h5 es st0) as [[s o]|] eqn:E; [|exfalso; vm_compute in E; discriminate E]. exists s, o, (ETear 1).
  assert (K : option_map (fun x => let s := fst x in (p_state (s_peer s 0), p_conn (s_peer s 0), k_peer (s_conn s 1))) (run h5 es st0) = Some (Connected, Some 2, Some 0)) by (vm_compute; reflexivity).
  assert (K' : match run h5 es st0 with Some (s, _) => option_map (fun x => let s := fst x in (p_state (s_peer s 0), p_conn (s_peer s 0), k_peer (s_conn s 2), k_term (s_conn s 2), snd x, s_uq s)) (step h5 (ETear 1) s) | None => None end
    = Some (Disconnected, Some 2, Some 0, false, [OAssert], [UCb 0 1 false])) by (vm_compute; reflexivity).
  rewrite E in K, K'. cbn [option_map fst snd] in K. injection K as K1 K2 K3. destruct (step h5 (ETear 1) s) as [[s' o']|] eqn:E1; [|discriminate K']. exists s', o'.
  cbn [option_map fst snd] in K'. injection K' as K4 K5 K6 K7 K8 K9. rewrite K8. repeat split; auto. left. reflexivity.
Qed.

(** A connection made with connect() to a registered peer is established like
    any other; when it closes the peer stays connected, to a connection that no
    longer exists, and no callback is made. *)
Definition manual : list ev := call 0 ++ [EDial 9%N None; ESetup 1 g0; EPost (TPong 1 9%N passive_nonce); EDisp g0; EUser; ETerm 1; ETear 1].
Theorem C60_connect_refuted : exists es s o, run h5 es st0 = Some (s, o) /\ p_state (s_peer s 0) = Connected /\ p_conn (s_peer s 0) = Some 1 /\ k_torn (s_conn s 1) = true /\
  In (OCb 0 1 true) o /\ s_q s = [] /\ s_uq s = [].
Proof.
  exists manual. destruct (run h5 manual st0) as [[s o]|] eqn:E; [|exfalso; vm_compute in E; discriminate E]. exists s, o. split; [reflexivity|].
  assert (K : option_map (fun x => let s := fst x in (p_state (s_peer s 0), p_conn (s_peer s 0), k_torn (s_conn s 1), s_q s, s_uq s, last (snd x) OFatal)) (run h5 manual st0) = Some (Connected, Some 1, true, [], [], OCb 0 1 true)) by (vm_compute; reflexivity).
  rewrite E in K. cbn [option_map fst snd] in K. injection K as K1 K2 K3 K4 K5 K6. repeat split; auto.
  rewrite <- K6. destruct o as [|x o] using rev_ind; [discriminate K6|]. rewrite last_last. apply in_or_app. right. left. reflexivity.
Qed.

(** The first attempt ends after the peer was deleted. *)
Theorem C61_stale_dial_refuted : exists es s o, run h5 es st0 = Some (s, o) /\ member 5%N (execs o) = false /\ In (OUb Freed) o.
Proof.
  set (es := stale ++ [EPost (TDel 3 5%N); EDisp g0; ETerm 1; ETear 1]). exists es.
  destruct (run h5 es st0) as [[s o]|] eqn:E; [|exfalso; vm_compute in E; discriminate E]. exists s, o. split; [reflexivity|].
  assert (K : option_map (fun x => (member 5%N (execs (snd x)), last (snd x) OFatal)) (run h5 es st0) = Some (false, OUb Freed)) by (vm_compute; reflexivity).
  rewrite E in K. cbn [option_map fst snd] in K. injection K as K1 K2. split; [exact K1|].
  rewrite <- K2. destruct o as [|x o] using rev_ind; [discriminate K2|]. rewrite last_last. apply in_or_app. right. left. reflexivity.
Qed.

(** Nor need two attempts overlap: the user, who was told with peer_cb that an attempt
    failed, asks that connection for its peer once the peer was dialled again and deleted. *)
Definition asks : list ev := call (-1) ++ [ERetry 0 g0; ETerm 1; ETear 1; EUser; ERetry 0 g0; EPost (TDel 3 5%N); EDisp g0; EPost (TPeer 1); EDisp g0].
Theorem C61_get_peer_id_refuted : exists es s o, run h5 es st0 = Some (s, o) /\ member 5%N (execs o) = false /\ In (OCb 0 1 false) o /\ In (OUb Freed) o /\
  along h5 (fun e s => forall p g, e = ERetry p g -> no_dial s p) es st0.
Proof.
  exists asks. destruct (run h5 asks st0) as [[s o]|] eqn:E; [|exfalso; vm_compute in E; discriminate E]. exists s, o. split; [reflexivity|].
  assert (K : option_map (fun x => (member 5%N (execs (snd x)), existsb (fun x => match x with OCb 0 1 false => true | _ => false end) (snd x), last (snd x) OFatal)) (run h5 asks st0) = Some (false, true, OUb Freed)) by (vm_compute; reflexivity).
  rewrite E in K. cbn [option_map fst snd] in K. injection K as K1 K2 K3. split; [exact K1|]. split; [|split].
  - apply existsb_exists in K2. destruct K2 as (x & I & X). destruct x as [| | | | | | | | | | | |p c b| | | |]; try discriminate X. destruct p; [|discriminate X]. destruct c as [|[|c]]; try discriminate X. destruct b; [discriminate X|exact I].
  - rewrite <- K3. destruct o as [|x o] using rev_ind; [discriminate K3|]. rewrite last_last. apply in_or_app. right. left. reflexivity.
  - apply (alongb_ok h5 (fun e s => match e with ERetry p _ => no_dialb s p | _ => true end)); [|exact wf0|vm_compute; reflexivity].
    intros e s0 _ B p g ->. apply no_dialb_ok, B.
Qed.

(** Non-vacuous: a calm history in which an attempt fails and the next one is
    established; in [calm_ex2] it is then closed while a second connection of the peer comes
    in, and the peer deleted. *)
Definition calm_ex : list ev := call (-1) ++ [ERetry 0 g0; ETerm 1; ETear 1; EUser; ERetry 0 g0; ESetup 2 g0; EPost (TPong 2 9%N passive_nonce); EDisp g0; EUser].
Definition calm_ex2 : list ev := calm_ex ++ [EAccept 20%N None; ESetup 3 g0; EPost (TPing (Some 3) 9%N 1%N); EDisp g0; ETerm 2; ETear 2; EUser; EDisp g0; EUser; EPost (TDel 3 5%N); EDisp g0; ETerm 3; ETear 3].
Example C60_nonvacuous : exists s o, run h5 calm_ex st0 = Some (s, o) /\ along h5 (calm h5) calm_ex st0 /\ s_halt s = false /\ find_by 5%N (s_known s) = Some 0 /\ p_state (s_peer s 0) = Connected.
Proof.
  destruct (run h5 calm_ex st0) as [[s o]|] eqn:E; [|exfalso; vm_compute in E; discriminate E]. exists s, o. split; [reflexivity|]. split.
  - apply (alongb_ok h5 (calmb h5)); [exact (calmb_ok h5)|exact wf0|vm_compute; reflexivity].
  - assert (K : option_map (fun x => let s := fst x in (s_halt s, find_by 5%N (s_known s), p_state (s_peer s 0))) (run h5 calm_ex st0) = Some (false, Some 0, Connected)) by (vm_compute; reflexivity).
    rewrite E in K. cbn [option_map fst snd] in K. injection K as K1 K2 K3. auto.
Qed.
Example C61_nonvacuous : exists s o, run h5 calm_ex2 st0 = Some (s, o) /\ along h5 (calm h5) calm_ex2 st0 /\ s_halt s = false /\ member 5%N (execs o) = false /\ p_live (s_peer s 0) = false.
Proof.
  destruct (run h5 calm_ex2 st0) as [[s o]|] eqn:E; [|exfalso; vm_compute in E; discriminate E]. exists s, o. split; [reflexivity|]. split.
  - apply (alongb_ok h5 (calmb h5)); [exact (calmb_ok h5)|exact wf0|vm_compute; reflexivity].
  - assert (K : option_map (fun x => let s := fst x in (s_halt s, member 5%N (execs (snd x)), p_live (s_peer s 0))) (run h5 calm_ex2 st0) = Some (false, false, false)) by (vm_compute; reflexivity).
    rewrite E in K. cbn [option_map fst snd] in K. injection K as K1 K2 K3. auto.
Qed.

Print Assumptions C60_one_connection_partial.
Print Assumptions C60_other_teardown_partial.
Print Assumptions C60_stale_dial_refuted.
Print Assumptions C60_connect_refuted.
Print Assumptions C61_no_dangling_partial.
Print Assumptions C61_stale_dial_refuted.
Print Assumptions C61_get_peer_id_refuted.

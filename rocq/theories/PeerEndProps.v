(** C136: the connection of a connected peer is ended for a reason of that peer. *)
From Coq Require Import Arith NArith ZArith List Bool Lia.
From Verif Require Import PeerModel PeerInv PeerStep PeerRegProps IdentInv IdentProps.
Import ListNotations.

(** ** Proofs *)

(** The connection a message came on. *)
Definition source (t : dtask) : option nat := match t with TPing (Some c) _ _ => Some c | TPong c _ _ => Some c | _ => None end.

Section P.
Variable hash : addr -> pid.

Definition msgs_set (s : st) : Prop :=
  (forall t c, In t (s_q s) -> source t = Some c -> k_set (s_conn s c) = true) /\
  (forall p d a n c, In (UPre p d a n (Some c)) (s_uq s) -> k_set (s_conn s c) = true) /\
  (forall p c, p_live (s_peer s p) = true -> p_in (s_peer s p) = Some c -> k_set (s_conn s c) = true).

(** What a step does to the attempts of peers and to the pending connections. *)
Record lk (s s' : st) (o' : list obs) : Prop := mkLk {
  l_live : forall q, p_live (s_peer s' q) = true -> p_live (s_peer s q) = true \/ (q = s_np s /\ p_in (s_peer s' q) = None /\ p_out (s_peer s' q) = None /\ p_state (s_peer s' q) = Disconnected);
  l_set : forall c, c < s_nc s -> k_set (s_conn s c) = true -> k_set (s_conn s' c) = true;
  l_q : forall t c, In t (s_q s') -> source t = Some c -> In t (s_q s) \/ (c < s_nc s /\ k_set (s_conn s c) = true) \/ exists p d a n, In (UPre p d a n (Some c)) (s_uq s);
  l_u : forall p d a n c, In (UPre p d a n (Some c)) (s_uq s') -> In (UPre p d a n (Some c)) (s_uq s) \/ (p_live (s_peer s p) = true /\ p_in (s_peer s p) = Some c);
  l_in : forall q c, p_live (s_peer s' q) = true -> p_in (s_peer s' q) = Some c -> p_in (s_peer s q) = Some c \/
    (k_term (s_conn s c) = false /\ (exists t, In t (s_q s) /\ source t = Some c) /\ exists a, ident hash (s_conn s c) a = p_id (s_peer s q));
  l_out : forall q c, p_live (s_peer s' q) = true -> p_out (s_peer s' q) = Some c -> p_out (s_peer s q) = Some c \/
    (k_term (s_conn s c) = false /\ c < s_nc s /\ exists a, ident hash (s_conn s c) a = p_id (s_peer s q)) \/ exists a, In (ODial (p_id (s_peer s q)) c a) o';
  l_pend : forall a c, In (a, c) (s_pend s') -> In (a, c) (s_pend s) \/ (c < s_nc s /\ k_set (s_conn s c) = false /\ a = k_addr (s_conn s c));
  l_up : forall p c, p_live (s_peer s' p) = true -> p_state (s_peer s' p) = Connected -> p_conn (s_peer s' p) = Some c ->
    (p_live (s_peer s p) = true /\ p_state (s_peer s p) = Connected /\ p_conn (s_peer s p) = Some c) \/
    ((exists t, In t (s_q s) /\ source t = Some c) /\ s_pend s' = drop_by (k_addr (s_conn s c)) (s_pend s)) }.

Lemma in_drop a k (l : list (N * nat)) c : In (a, c) (drop_by k l) -> In (a, c) l /\ a <> k.
Proof. unfold drop_by. intros I. apply filter_In in I. destruct I as (I & J). split; [exact I|]. cbn in J. intros ->. rewrite N.eqb_refl in J. discriminate J. Qed.

Definition soft (x y : peer) : Prop :=
  (p_live y = true -> p_live x = true) /\ (p_in y = p_in x \/ p_in y = None) /\ (p_out y = p_out x \/ p_out y = None) /\
  (p_state y = Connected -> p_state x = Connected) /\ p_conn y = p_conn x.
Lemma soft_refl x : soft x x.
Proof. repeat split; auto. Qed.
Lemma soft_onp p f s s0 : s_peer s0 = s_peer s -> soft (s_peer s p) (f (s_peer s p)) -> forall q, soft (s_peer s q) (s_peer (onp p f s0) q).
Proof. intros E F q. sel. rewrite E. unfold upd. destruct (Nat.eqb_spec q p); [subst; exact F|apply soft_refl]. Qed.

Definition q_ok (s s' : st) : Prop := forall t c, In t (s_q s') -> source t = Some c -> In t (s_q s) \/ (c < s_nc s /\ k_set (s_conn s c) = true) \/ exists p d a n, In (UPre p d a n (Some c)) (s_uq s).
Definition u_ok (s s' : st) : Prop := forall p d a n c, In (UPre p d a n (Some c)) (s_uq s') -> In (UPre p d a n (Some c)) (s_uq s) \/ (p_live (s_peer s p) = true /\ p_in (s_peer s p) = Some c).
Definition set_ok (s s' : st) : Prop := forall c, c < s_nc s -> k_set (s_conn s c) = true -> k_set (s_conn s' c) = true.
Definition pend_ok (s s' : st) : Prop := forall a c, In (a, c) (s_pend s') -> In (a, c) (s_pend s) \/ (c < s_nc s /\ k_set (s_conn s c) = false /\ a = k_addr (s_conn s c)).

Lemma lk_soft s s' o' : (forall q, soft (s_peer s q) (s_peer s' q)) -> set_ok s s' -> q_ok s s' -> u_ok s s' -> pend_ok s s' -> lk s s' o'.
Proof.
  intros F A B C D. constructor; auto.
  - intros q E. left. apply (F q). exact E.
  - intros q c E I. destruct (F q) as (_ & [X|X] & _); rewrite X in I; [auto|discriminate I].
  - intros q c E I. destruct (F q) as (_ & _ & [X|X] & _); rewrite X in I; [auto|discriminate I].
  - intros q c E1 E2 E3. destruct (F q) as (X1 & _ & _ & X2 & X3). left. rewrite X3 in E3. auto.
Qed.

Lemma q_same s s' : s_q s' = s_q s -> q_ok s s'.
Proof. intros E t c I _. rewrite E in I. auto. Qed.
Lemma q_pop s s' t q : s_q s = t :: q -> s_q s' = q -> q_ok s s'.
Proof. intros E F u c I _. rewrite F in I. left. rewrite E. right. exact I. Qed.
Lemma u_same s s' : s_uq s' = s_uq s -> u_ok s s'.
Proof. intros E p d a n c I. rewrite E in I. auto. Qed.
Lemma u_pop s s' t q : s_uq s = t :: q -> s_uq s' = q -> u_ok s s'.
Proof. intros E F p d a n c I. rewrite F in I. left. rewrite E. right. exact I. Qed.
Lemma u_push s s' t : match t with UPre _ _ _ _ _ => False | _ => True end -> s_uq s' = s_uq s ++ [t] -> u_ok s s'.
Proof. intros N E p d a n c I. rewrite E in I. apply in_app_or in I. destruct I as [I|[I|[]]]; [auto|subst t; destruct N]. Qed.
Lemma set_same s s' : s_conn s' = s_conn s -> set_ok s s'.
Proof. intros E c _ K. rewrite E. exact K. Qed.
Lemma set_new s s' k : s_conn s' = upd (s_conn s) (s_nc s) k -> set_ok s s'.
Proof. intros E c L K. rewrite E, upd_other by lia. exact K. Qed.
Lemma set_flags s s' d k : s_conn s' = upd (s_conn s) d k -> (k_set (s_conn s d) = true -> k_set k = true) -> set_ok s s'.
Proof. intros E F c L K. rewrite E. unfold upd. destruct (Nat.eqb_spec c d); [subst; auto|exact K]. Qed.
Lemma pend_same s s' : s_pend s' = s_pend s -> pend_ok s s'.
Proof. intros E a c I. rewrite E in I. auto. Qed.
Lemma pend_drop s s' k : s_pend s' = drop_by k (s_pend s) -> pend_ok s s'.
Proof. intros E a c I. rewrite E in I. apply in_drop in I. left. apply I. Qed.

Ltac qq := first [apply q_same; reflexivity | eapply q_pop; [eassumption|reflexivity]].
Ltac uu := first [apply u_same; reflexivity | eapply u_pop; [eassumption|reflexivity] | eapply u_push; [|reflexivity]; exact I].
Ltac ss := first [apply set_same; reflexivity | eapply set_new; reflexivity | eapply set_flags; [reflexivity|cbn; solve [auto|congruence]]].
Ltac pp := first [apply pend_same; reflexivity | eapply pend_drop; reflexivity].
Ltac soft1 := first [intros ?; apply soft_refl | apply soft_onp; [reflexivity|repeat split; cbn; auto; discriminate]].

Lemma lk_leaf e s s' o' : WF s -> s_halt s' = false -> leaf hash e s s' o' -> lk s s' o'.
Proof.
  intros W HH L. pose proof (still_leaf _ _ _ _ _ W L) as ST. destruct L; try discriminate HH;
    try match goal with G : get_nonce _ _ _ = Some _ |- _ => pose proof (get_nonce_spec _ _ _ _ _ G) as (GE & _); clear G end.
  all: try (apply lk_soft; [soft1|ss|qq|uu|pp]; fail).
  - apply lk_soft; [soft1|ss| |uu|pp]. intros t0 c I E. sel. cbn [s_q w_q] in I. apply in_app_or in I. destruct I as [I|[<-|[]]]; [auto|]. right. left.
    destruct t as [ | | | | | | | | |[d|]|]; cbn in E, H; try discriminate E; injection E as ->; apply andb_true_iff in H; destruct H as (H1 & H2); apply Nat.ltb_lt in H1; auto.
  - apply lk_soft; [soft1|ss| |uu|pp]. intros t0 d I E. cbn [s_q w_q w_uq] in I. apply in_app_or in I. destruct I as [I|[<-|[]]]; [auto|]. right. right.
    destruct inb as [d1|]; cbn in E; [injection E as ->|discriminate E]. exists p, c, a, n. rewrite H. left. reflexivity.
  - destruct (p_nonce _ =? 0)%N; subst s1; apply lk_soft; [soft1|ss|qq|uu|pp|soft1|ss|qq|uu|pp].
  - apply lk_soft; [soft1|ss|qq|uu|]. intros a d I. sel. cbn [s_pend w_pend] in I. subst l. destruct I as [I|I]; [injection I as <- <-; auto|]. apply in_drop in I. left. apply I.
  - apply lk_soft; [|ss|qq| |pp].
    + apply soft_onp; [reflexivity|]. unfold x_unpre, x_end. destruct (p_state (s_peer s p)); repeat split; cbn; auto; discriminate.
    + intros p0 d a0 n0 c0 I. cbn [s_uq upost w_uq onp w_peer w_pend onc w_conn] in I. apply in_app_or in I. destruct I as [I|[I|[]]]; [auto|]. right. injection I as <- <- <- <- I. auto.
  - apply lk_soft; [|ss|qq|uu|pp]. apply soft_onp; [reflexivity|]. unfold x_lost, x_end. destruct (p_state (s_peer s p)); cbn; destruct (_ =? 0)%Z; repeat split; cbn; auto; discriminate.
  - constructor; [| | | | | | |]; sel.
    + intros r. unfold upd. destruct (Nat.eqb_spec r p); [subst; auto|auto].
    + intros d D E. rewrite upd_other by lia. exact E.
    + auto.
    + auto.
    + intros r d. unfold upd. destruct (Nat.eqb_spec r p); [subst; cbn; auto|auto].
    + intros r d. unfold upd. destruct (Nat.eqb_spec r p); [subst; cbn|auto]. intros _ E. right. right. injection E as <-. eexists. apply in_or_app. right. left. reflexivity.
    + auto.
    + intros r d. unfold upd. destruct (Nat.eqb_spec r p); [subst; cbn; auto|auto].
  - constructor; [| | | | | | |]; sel.
    + intros r. unfold upd. destruct (Nat.eqb_spec r (s_np s)); [subst; cbn; auto|auto].
    + intros d D E. rewrite upd_other by lia. exact E.
    + intros t d I E. left. rewrite H. right. exact I.
    + auto.
    + intros r d. unfold upd. destruct (Nat.eqb_spec r (s_np s)); [subst; cbn; discriminate|auto].
    + intros r d. unfold upd. destruct (Nat.eqb_spec r (s_np s)); [subst; cbn; discriminate|auto].
    + auto.
    + intros r d. unfold upd. destruct (Nat.eqb_spec r (s_np s)); [subst; cbn; discriminate|auto].
  - assert (P : forall r, s_peer (st_del i p c (w_q q s)) r = if r =? p then p_dead (s_peer s p) else s_peer s r).
    { intros r. unfold st_del, clear_peer_of. cbn [s_peer w_q onc w_conn]. destruct (p_out (s_peer s p)), (p_in (s_peer s p)); cbn; unfold upd; reflexivity. }
    assert (K : forall d, k_set (s_conn (st_del i p c (w_q q s)) d) = k_set (s_conn s d)).
    { intros d. unfold st_del, clear_peer_of. cbn [s_peer w_q onc w_conn]. destruct (p_out (s_peer s p)), (p_in (s_peer s p)); cbn; unfold upd; repeat (match goal with |- context [?a =? ?b] => destruct (Nat.eqb_spec a b); subst end; cbn); try reflexivity. }
    assert (Q : s_q (st_del i p c (w_q q s)) = q /\ s_uq (st_del i p c (w_q q s)) = s_uq s /\ s_pend (st_del i p c (w_q q s)) = s_pend s).
    { unfold st_del, clear_peer_of. destruct (p_out _), (p_in _); repeat split; reflexivity. }
    destruct Q as (Q1 & Q2 & Q3). apply lk_soft.
    + intros r. rewrite P. destruct (Nat.eqb_spec r p); [subst|apply soft_refl]. repeat split; cbn; auto. discriminate.
    + intros d D E. rewrite K. exact E.
    + eapply q_pop; eassumption.
    + apply u_same. exact Q2.
    + apply pend_same. exact Q3.
  - apply lk_soft; [|ss|qq|uu|pp]. apply soft_onp; [reflexivity|]. destruct (n =? 0)%Z; repeat split; cbn; auto.
  - constructor; [| | | | | | |]; sel.
    + intros r. unfold upd. destruct (Nat.eqb_spec r p); [subst; auto|auto].
    + auto.
    + intros t d I E. left. rewrite H. right. exact I.
    + auto.
    + intros r d. unfold upd. destruct (Nat.eqb_spec r p); [subst; cbn|auto]. intros _ E. injection E as <-. right.
      split; [assumption|]. split; [eexists; split; [rewrite H; left; reflexivity|reflexivity]|]. exists a. symmetry. eapply known_live; eassumption.
    + intros r d. unfold upd. destruct (Nat.eqb_spec r p); [subst; cbn; auto|auto].
    + auto.
    + intros r d. unfold upd. destruct (Nat.eqb_spec r p); [subst; cbn; auto|auto].
  - assert (S1 : s_conn s1 = s_conn s /\ s_q s1 = q /\ s_uq s1 = s_uq s /\ s_pend s1 = s_pend s /\ forall r, p_live (s_peer s1 r) = p_live (s_peer s r) /\ p_in (s_peer s1 r) = p_in (s_peer s r) /\ p_out (s_peer s1 r) = p_out (s_peer s r) /\ p_state (s_peer s1 r) = p_state (s_peer s r) /\ p_conn (s_peer s1 r) = p_conn (s_peer s r)).
    { destruct (p_nonce _ =? 0)%N; subst s1; [|auto 10]. repeat (split; [reflexivity|]). intros r. sel. unfold upd. destruct (Nat.eqb_spec r p); [subst|]; auto. }
    destruct S1 as (S1 & S2 & S3 & S4 & S5). clear GE. constructor; [| | | | | | |]; sel; rewrite ?S1, ?S2, ?S3, ?S4; auto.
    + intros r. destruct (S5 r) as (X & _). unfold upd. destruct (Nat.eqb_spec r p); [subst; cbn|]; rewrite X; auto.
    + intros t d I E. left. rewrite H. right. exact I.
    + intros r d. destruct (S5 r) as (X & Y & _). unfold upd. destruct (Nat.eqb_spec r p); [subst; cbn|rewrite X, Y; auto]. intros _ E. injection E as <-. right.
      split; [assumption|]. split; [eexists; split; [rewrite H; left; reflexivity|reflexivity]|]. exists a. symmetry. eapply known_live; eassumption.
    + intros r d. destruct (S5 r) as (X & _ & Y & _). unfold upd. destruct (Nat.eqb_spec r p); [subst; cbn|]; rewrite X, Y; auto.
    + intros r d. destruct (S5 r) as (X & _ & _ & Y & Z). unfold upd. destruct (Nat.eqb_spec r p); [subst; cbn|]; rewrite X, Y, Z; auto.
  - assert (S1 : s_conn s1 = s_conn s /\ s_q s1 = q /\ s_uq s1 = s_uq s /\ s_pend s1 = s_pend s /\ forall r, p_live (s_peer s1 r) = p_live (s_peer s r) /\ p_in (s_peer s1 r) = p_in (s_peer s r) /\ p_out (s_peer s1 r) = p_out (s_peer s r) /\ p_state (s_peer s1 r) = p_state (s_peer s r) /\ p_conn (s_peer s1 r) = p_conn (s_peer s r)).
    { destruct (p_nonce _ =? 0)%N; subst s1; [|auto 10]. repeat (split; [reflexivity|]). intros r. sel. unfold upd. destruct (Nat.eqb_spec r p); [subst|]; auto. }
    destruct S1 as (S1 & S2 & S3 & S4 & S5). clear GE. match goal with F : finished _ _ _ _ _ |- _ => destruct F as [F1 F2 F3 F4 F5 F6 F7 F8 F9] end. cbn [s_nc s_np s_conn s_uq s_q s_pend onp w_peer] in F1, F3, F4, F6, F8, F9.
    rewrite S2 in F6. rewrite S1, S4 in F8. rewrite S3 in F9.
    assert (PO : forall r, r <> p -> s_peer s' r = s_peer s1 r). { intros r N. rewrite F2. sel. unfold upd. apply Nat.eqb_neq in N. rewrite N. reflexivity. }
    assert (PP : p_live (s_peer s' p) = p_live (s_peer s p) /\ p_in (s_peer s' p) = None /\ p_out (s_peer s' p) = None /\ p_conn (s_peer s' p) = Some c).
    { rewrite F2, Nat.eqb_refl. sel. unfold upd. rewrite Nat.eqb_refl. cbn. destruct (S5 p) as (-> & _). auto. }
    destruct PP as (P1 & P2 & P3 & P4). constructor; [| | | | | | |].
    + intros r E. left. destruct (Nat.eq_dec r p) as [->|N]; [congruence|]. rewrite PO in E by exact N. destruct (S5 r) as (X & _). congruence.
    + intros d D E. rewrite F1. cbn. rewrite S1. exact E.
    + intros t d I E. left. rewrite H. right. rewrite F6 in I. exact I.
    + intros p0 d a0 n0 c0 I. rewrite F9 in I. apply in_app_or in I. destruct I as [I|[I|[]]]; [auto|discriminate I].
    + intros r d E I. left. destruct (Nat.eq_dec r p) as [->|N]; [congruence|]. rewrite PO in I by exact N. destruct (S5 r) as (_ & X & _). congruence.
    + intros r d E I. left. destruct (Nat.eq_dec r p) as [->|N]; [congruence|]. rewrite PO in I by exact N. destruct (S5 r) as (_ & _ & X & _). congruence.
    + eapply pend_drop. exact F8.
    + intros r d E I J. destruct (Nat.eq_dec r p) as [->|N].
      * right. assert (d = c) by congruence. subst d. split; [eexists; split; [rewrite H; left; reflexivity|reflexivity]|exact F8].
      * left. rewrite PO in E, I, J by exact N. destruct (S5 r) as (X & _ & _ & Y & Z). rewrite <- X, <- Y, <- Z. auto.
  - assert (S1 : s_conn s1 = s_conn s /\ s_q s1 = q /\ s_uq s1 = s_uq s /\ s_pend s1 = s_pend s /\ forall r, p_live (s_peer s1 r) = p_live (s_peer s r) /\ p_in (s_peer s1 r) = p_in (s_peer s r) /\ p_out (s_peer s1 r) = (if r =? p then Some c else p_out (s_peer s r)) /\ p_state (s_peer s1 r) = p_state (s_peer s r) /\ p_conn (s_peer s1 r) = p_conn (s_peer s r)).
    { destruct (p_nonce _ =? 0)%N; subst s1; (repeat (split; [reflexivity|])); intros r; sel; unfold upd; (destruct (Nat.eqb_spec r p); [subst; rewrite ?Nat.eqb_refl|]; auto). }
    destruct S1 as (S1 & S2 & S3 & S4 & S5). clear GE. constructor; [| | | | | | |]; rewrite ?S1, ?S2, ?S3, ?S4; auto.
    + intros r. destruct (S5 r) as (X & _). rewrite X. auto.
    + intros t d I E. left. rewrite H. right. exact I.
    + intros r d. destruct (S5 r) as (X & Y & _). rewrite X, Y. auto.
    + intros r d. destruct (S5 r) as (X & _ & Y & _). rewrite X, Y. destruct (Nat.eqb_spec r p); [subst|auto]. intros _ E. injection E as <-. right. left.
      split; [assumption|]. split; [assumption|]. eexists. symmetry. eapply known_live; eassumption.
    + intros r d. destruct (S5 r) as (X & _ & _ & Y & Z). rewrite X, Y, Z. auto.
  - assert (S1 : s_conn s1 = s_conn s /\ s_q s1 = q /\ s_uq s1 = s_uq s /\ s_pend s1 = s_pend s /\ forall r, p_live (s_peer s1 r) = p_live (s_peer s r) /\ p_in (s_peer s1 r) = p_in (s_peer s r) /\ p_out (s_peer s1 r) = (if r =? p then Some c else p_out (s_peer s r)) /\ p_state (s_peer s1 r) = p_state (s_peer s r) /\ p_conn (s_peer s1 r) = p_conn (s_peer s r)).
    { destruct (p_nonce _ =? 0)%N; subst s1; (repeat (split; [reflexivity|])); intros r; sel; unfold upd; (destruct (Nat.eqb_spec r p); [subst; rewrite ?Nat.eqb_refl|]; auto). }
    destruct S1 as (S1 & S2 & S3 & S4 & S5). clear GE. match goal with F : finished _ _ _ _ _ |- _ => destruct F as [F1 F2 F3 F4 F5 F6 F7 F8 F9] end. unfold reset_ping_timer in *. cbn [s_nc s_np s_conn s_uq s_q s_pend onp w_peer] in F1, F3, F4, F6, F8, F9.
    rewrite S2 in F6. rewrite S1, S4 in F8. rewrite S3 in F9.
    assert (PO : forall r, r <> p -> s_peer s' r = s_peer s1 r). { intros r N. rewrite F2. sel. unfold upd. apply Nat.eqb_neq in N. rewrite N. reflexivity. }
    assert (PP : p_live (s_peer s' p) = p_live (s_peer s p) /\ p_in (s_peer s' p) = None /\ p_out (s_peer s' p) = None /\ p_conn (s_peer s' p) = Some c).
    { rewrite F2, Nat.eqb_refl. sel. unfold upd. rewrite Nat.eqb_refl. cbn. destruct (S5 p) as (-> & _). auto. }
    destruct PP as (P1 & P2 & P3 & P4). constructor; [| | | | | | |].
    + intros r E. left. destruct (Nat.eq_dec r p) as [->|N]; [congruence|]. rewrite PO in E by exact N. destruct (S5 r) as (X & _). congruence.
    + intros d D E. rewrite F1. cbn. rewrite S1. exact E.
    + intros t d I E. left. rewrite H. right. rewrite F6 in I. exact I.
    + intros p0 d a0 n0 c0 I. rewrite F9 in I. apply in_app_or in I. destruct I as [I|[I|[]]]; [auto|discriminate I].
    + intros r d E I. left. destruct (Nat.eq_dec r p) as [->|N]; [congruence|]. rewrite PO in I by exact N. destruct (S5 r) as (_ & X & _). congruence.
    + intros r d E I. left. destruct (Nat.eq_dec r p) as [->|N]; [congruence|]. rewrite PO in I by exact N. destruct (S5 r) as (_ & _ & X & _). apply Nat.eqb_neq in N. rewrite N in X. congruence.
    + eapply pend_drop. exact F8.
    + intros r d E I J. destruct (Nat.eq_dec r p) as [->|N].
      * right. assert (d = c) by congruence. subst d. split; [eexists; split; [rewrite H; left; reflexivity|reflexivity]|exact F8].
      * left. rewrite PO in E, I, J by exact N. destruct (S5 r) as (X & _ & _ & Y & Z). rewrite <- X, <- Y, <- Z. auto.
Qed.

(** *** Which step ends which connection *)

Definition next (s : st) (t : dtask) : Prop := exists q, s_q s = t :: q.
Definition kills (s : st) (e : ev) (c : nat) : Prop :=
  (exists g, e = ESetup c g /\ k_set (s_conn s c) = false) \/
  (exists d g, e = ESetup d g /\ find_by (k_addr (s_conn s d)) (s_pend s) = Some c) \/
  (exists p g, e = ERetry p g /\ p_live (s_peer s p) = true /\ p_out (s_peer s p) = Some c) \/
  exists g t, e = EDisp g /\ next s t /\
   ((exists id i p, t = TDel id i /\ find_by i (s_known s) = Some p /\ (p_conn (s_peer s p) = Some c \/ p_in (s_peer s p) = Some c \/ p_out (s_peer s p) = Some c)) \/
    (exists id i n p, t = TConn id i n /\ find_by i (s_known s) = Some p /\ p_conn (s_peer s p) = Some c) \/
    (exists a n, t = TPing (Some c) a n /\ k_term (s_conn s c) = false /\ find_by (ident hash (s_conn s c) a) (s_known s) = None) \/
    (exists d a n p, t = TPing (Some d) a n /\ k_term (s_conn s d) = false /\ find_by (ident hash (s_conn s d) a) (s_known s) = Some p /\
       (p_conn (s_peer s p) = Some c \/ p_state (s_peer s p) = Disconnected /\ (p_in (s_peer s p) = Some c \/ c = d))) \/
    (exists a n, t = TPong c a n /\ k_term (s_conn s c) = false /\ find_by (ident hash (s_conn s c) (k_addr (s_conn s c))) (s_known s) = None) \/
    (exists d a n p, t = TPong d a n /\ k_term (s_conn s d) = false /\ find_by (ident hash (s_conn s d) (k_addr (s_conn s d))) (s_known s) = Some p /\
       p_state (s_peer s p) = Disconnected /\ (p_out (s_peer s p) = Some c \/ c = d))).

Definition nokill (x : out) : Prop := forall c, ~ In (OKill c) (snd x).
Definition only (P : nat -> Prop) (x : out) : Prop := forall c, In (OKill c) (snd x) -> P c.
Lemma ok_seq P x f : only P x -> (forall s, only P (f s)) -> only P (x ;; f).
Proof.
  unfold only, seq. destruct x as [s o]. cbn. intros A B. destruct (s_halt s); [exact A|]. specialize (B s). destruct (f s) as [s2 o2]. cbn in *.
  intros c I. apply in_app_or in I. destruct I as [I|I]; [exact (A _ I)|exact (B _ I)].
Qed.
Lemma ok_say P l s : forallb (fun y => match y with OKill _ => false | _ => true end) l = true -> only P (say l s).
Proof. intros H c I. rewrite forallb_forall in H. specialize (H _ I). discriminate H. Qed.
Lemma ok_check P b s : only P (check b s).
Proof. intros c I. cbn in I. destruct b; [destruct I|]. destruct I as [I|[]]. discriminate I. Qed.
Lemma ok_ub P w s : only P (ub w s).
Proof. intros c [I|[]]. discriminate I. Qed.
Lemma ok_one (P : nat -> Prop) c s : P c -> only P (say [OKill c] s).
Proof. intros H d [I|[]]. injection I as <-. exact H. Qed.
Lemma ok_send P p s : only P (send_ping p s).
Proof. unfold send_ping. destruct (p_chosen _); [|apply ok_ub]. intros c [I|[]]. discriminate I. Qed.
Ltac oks := repeat first
  [ apply ok_check | apply ok_ub | apply ok_send
  | apply ok_say; reflexivity
  | apply ok_seq; [|intro]
  | match goal with |- only _ (match ?x with _ => _ end) => destruct x end
  | progress cbv zeta ].
Lemma ok_fin P p s : only P (finish_handshake p s).
Proof. unfold finish_handshake. oks. Qed.

Lemma ok_ping g d a n s : only (fun c => k_term (s_conn s d) = false /\
   ((c = d /\ find_by (ident hash (s_conn s c) a) (s_known s) = None) \/
    exists p, find_by (ident hash (s_conn s d) a) (s_known s) = Some p /\ (p_conn (s_peer s p) = Some c \/ p_state (s_peer s p) = Disconnected /\ (p_in (s_peer s p) = Some c \/ c = d))))
  (ping_task hash g (Some d) a n s).
Proof.
  unfold ping_task. destruct (k_term (s_conn s d)) eqn:T; [apply ok_say; reflexivity|]. destruct (a =? 0)%N; [apply ok_say; reflexivity|]. destruct (k_mode (s_conn s d)); [apply ok_say; reflexivity|].
  destruct (find_by (ident hash (s_conn s d) a) (s_known s)) as [p|] eqn:F; [|apply ok_one; auto].
  destruct (n =? 0)%N; [apply ok_say; reflexivity|]. destruct (p_state (s_peer s p)) eqn:ST.
  - destruct (get_nonce g p s) as [[s1 mine]|] eqn:G; [|apply ok_say; reflexivity]. apply get_nonce_spec in G. destruct G as (G & _).
    assert (PI : p_in (s_peer s1 p) = p_in (s_peer s p)). { subst s1. destruct (_ =? 0)%N; [|reflexivity]. sel. rewrite upd_same. reflexivity. }
    unfold seq at 1. cbn [say]. destruct (s_halt s1); [intros c [I|[]]; discriminate I|]. rewrite PI.
    match goal with |- only ?P (let '(x, y) := ?X in _) => assert (H : only P X) end.
    2:{ match type of H with only _ ?X => destruct X as [x y] end. intros c I. cbn in I. destruct I as [I|I]; [discriminate I|]. exact (H c I). }
    apply ok_seq.
    + destruct (p_in (s_peer s p)) as [o|] eqn:PE; [|apply ok_say; reflexivity]. destruct (o =? d); [apply ok_say; reflexivity|]. apply ok_seq; [apply ok_check|intros s2; apply ok_one]. split; [reflexivity|]. right. exists p. auto.
    + intros s2. cbv zeta. destruct (_ || _); [apply ok_fin|apply ok_one]. split; [reflexivity|]. right. exists p. auto.
  - cbv zeta. sel. rewrite upd_same. cbn. destruct (p_conn (s_peer s p)) as [o|] eqn:PE; [|apply ok_ub]. apply ok_one. split; [reflexivity|]. right. exists p. auto.
  - apply ok_say; reflexivity.
Qed.

Lemma ok_pong g d a n s : only (fun c => k_term (s_conn s d) = false /\
   ((c = d /\ find_by (ident hash (s_conn s c) (k_addr (s_conn s c))) (s_known s) = None) \/
    exists p, find_by (ident hash (s_conn s d) (k_addr (s_conn s d))) (s_known s) = Some p /\ p_state (s_peer s p) = Disconnected /\ (p_out (s_peer s p) = Some c \/ c = d)))
  (pong_task hash g d a n s).
Proof.
  unfold pong_task. destruct (k_term (s_conn s d)) eqn:T; [apply ok_say; reflexivity|]. destruct (a =? 0)%N; [oks|]. destruct (k_mode (s_conn s d)); [|apply ok_say; reflexivity].
  destruct (find_by (ident hash (s_conn s d) (k_addr (s_conn s d))) (s_known s)) as [p|] eqn:F; [|apply ok_one; auto].
  unfold check, seq at 1. destruct (s_halt s); [exact (ok_check _ _ s)|].
  match goal with |- only ?P (let '(x, y) := ?X in _) => assert (H : only P X) end.
  2:{ match type of H with only _ ?X => destruct X as [x y] end. intros c I. cbn in I. apply in_app_or in I. destruct I as [I|I]; [|exact (H c I)]. destruct (_ && _); [destruct I|destruct I as [I|[]]; discriminate I]. }
  destruct (p_state (s_peer s p)) eqn:ST; try (apply ok_say; reflexivity). destruct (negb _); [apply ok_say; reflexivity|]. apply ok_seq.
  - destruct (p_out (s_peer s p)) as [o|] eqn:PE; [|apply ok_say; reflexivity]. destruct (o =? d); [apply ok_say; reflexivity|]. apply ok_seq; [apply (ok_check _ _ s)|intros s2; apply ok_one]. split; [reflexivity|]. right. exists p. auto.
  - intros s2. cbv zeta. destruct (get_nonce g p _) as [[s3 mine]|]; [|apply ok_say; reflexivity]. destruct (_ <? _)%N; [apply ok_fin|apply ok_one]. split; [reflexivity|]. right. exists p. auto.
Qed.

Lemma kill_step e s s' o' c : step hash e s = Some (s', o') -> In (OKill c) o' -> kills s e c.
Proof.
  unfold step. destruct (s_halt s); [discriminate|]. destruct e as [t|g| |a k|a k|d g|d|d|p g|p]; intros E K.
  - destruct (postable s t); [|discriminate]. injection E as <- <-. destruct K.
  - destruct (s_q s) as [|t q] eqn:Q; [discriminate|]. do 3 right. exists g, t. split; [reflexivity|]. split; [exists q; exact Q|].
    destruct (task hash g t (w_q q s)) as [s1 o1] eqn:T. injection E as <- <-. destruct K as [K|K]; [discriminate K|].
    destruct t as [id i|id i|id i a|id i n|i|i|d|id i m|id l m|d a n|d a n]; cbn [task] in T; try change (s_known (w_q q s)) with (s_known s) in T; try change (s_peer (w_q q s)) with (s_peer s) in T; try change (s_conn (w_q q s)) with (s_conn s) in T.
    + destruct (find_by i (s_known s)); injection T as <- <-; cbn in K; intuition discriminate.
    + destruct (find_by i (s_known s)) as [p|] eqn:F; [|injection T as <- <-; cbn in K; intuition discriminate]. left. exists id, i, p. split; [reflexivity|]. split; [exact F|].
      destruct (p_conn (s_peer s p)) as [d|]; [|injection T as <- <-; cbn in K; intuition discriminate]. cbv zeta in T. injection T as <- <-. destruct K as [K|K]; [left; congruence|].
      apply in_app_or in K. destruct K as [K|K]; [right; left|right; right]; [destruct (p_in (s_peer s p))|destruct (p_out (s_peer s p))]; cbn in K; (destruct K as [K|[]] || destruct K); congruence.
    + destruct (find_by i (s_known s)); injection T as <- <-; cbn in K; intuition discriminate.
    + destruct (find_by i (s_known s)) as [p|] eqn:F; [|injection T as <- <-; cbn in K; intuition discriminate]. right. left. exists id, i, n, p. split; [reflexivity|]. split; [exact F|].
      destruct (p_addr (s_peer s p) =? 0)%N; [injection T as <- <-; cbn in K; intuition discriminate|]. cbv zeta in T. cbn [onp w_peer s_peer w_q] in T. rewrite upd_same in T. cbn in T.
      destruct (p_state (s_peer s p)); [injection T as <- <-; cbn in K; intuition discriminate| |injection T as <- <-; cbn in K; intuition discriminate].
      destruct (p_conn (s_peer s p)) as [d|]; injection T as <- <-; cbn in K; intuition congruence.
    + injection T as <- <-. cbn in K. intuition discriminate.
    + destruct (find_by i (s_known s)); injection T as <- <-; cbn in K; intuition discriminate.
    + destruct (k_peer _); [destruct (p_live _)|]; injection T as <- <-; cbn in K; intuition discriminate.
    + destruct (find_by i (s_known s)); [|injection T as <- <-; cbn in K; intuition discriminate]. destruct (p_conn _); [destruct (g_write _ _)|]; injection T as <- <-; cbn in K; intuition discriminate.
    + exfalso. assert (NM : forall l, ~ In (OKill c) (fst (multi g l m (w_q q s)))).
      { clear. induction l as [|i l IH]; cbn; [auto|]. destruct (find_by i (s_known s)); [|auto]. destruct (p_conn _); [|cbn; intuition discriminate]. destruct (multi g l m (w_q q s)) as [o1 r]. cbn in *. intros I. apply in_app_or in I. destruct I as [I|I]; [|auto]. destruct (g_write _ _); cbn in I; intuition discriminate. }
      specialize (NM l). destruct (multi g l m (w_q q s)) as [o2 r]. injection T as <- <-. apply in_app_or in K. destruct K as [K|K]; [auto|]. destruct r as [[]|]; cbn in K; intuition discriminate.
    + destruct d as [d|]; [|injection T as <- <-; cbn in K; intuition discriminate]. pose proof (ok_ping g d a n (w_q q s) c) as X. rewrite T in X. specialize (X K). cbn [s_conn s_known s_peer w_q] in X.
      destruct X as (X0 & [(-> & X)|(p & X1 & X2)]); do 2 right; [left; exists a, n; auto|right; left; exists d, a, n, p; auto].
    + pose proof (ok_pong g d a n (w_q q s) c) as X. rewrite T in X. specialize (X K). cbn [s_conn s_known s_peer w_q] in X.
      destruct X as (X0 & [(-> & X)|(p & X1 & X2)]); do 4 right; [left; exists a, n; auto|right; exists d, a, n, p; auto].
  - destruct (s_uq s) as [|[p d b|p d a n i|a d] q]; [discriminate| | |]; injection E as <- <-; cbn in K; intuition discriminate.
  - injection E as <- <-. destruct K.
  - injection E as <- <-. destruct K.
  - destruct (_ && _) eqn:G; [|discriminate]. rewrite !andb_true_iff, !negb_true_iff in G. destruct G as ((G1 & G2) & G3). injection E as E. unfold setup in E. cbn [s_conn onc w_conn s_known] in E. rewrite upd_same in E. cbn [k_mode k_flags k_addr k_manual] in E. destruct (k_mode (s_conn s d)).
    + assert (c = d); [|subst; left; eauto]. destruct (find_by _ _); [destruct (get_nonce _ _ _) as [[? ?]|]|destruct (k_manual _)]; injection E as <- <-; cbn in K; intuition congruence.
    + unfold replace_pending_conn in E. cbn [s_conn onc w_conn s_pend] in E. rewrite upd_same in E. cbn [k_addr k_flags] in E. destruct (find_by (k_addr (s_conn s d)) (s_pend s)) as [o|] eqn:F; [|injection E as <- <-; destruct K].
      destruct (o =? d); injection E as <- <-; [destruct K|]. destruct K as [K|[]]. injection K as ->. right. left. eauto.
  - destruct (_ && _); [|discriminate]. injection E as <- <-. destruct K.
  - exfalso. destruct (_ && _); [|discriminate]. injection E as E. assert (N : only (fun _ => False) (teardown d (onc d (k_flags true (k_set (s_conn s d)) true) s))) by (unfold teardown; oks). rewrite E in N. exact (N c K).
  - destruct (_ && _) eqn:G; [|discriminate]. rewrite !andb_true_iff in G. destruct G as ((G1 & G2) & G3). do 2 right. left. exists p, g. split; [reflexivity|]. split; [exact G1|].
    cbv zeta in E. unfold start_active_conn in E. destruct (g_ok g); [|injection E as <- <-; cbn in K; intuition discriminate].
    match type of E with Some (seq ?A ?F) = _ => assert (N : only (fun c => p_out (s_peer s p) = Some c) A) end.
    { unfold check at 1, seq at 1. destruct (s_halt _); [exact (ok_check _ _ s)|]. cbn [say].
      match goal with |- only ?P (let '(x, y) := ?X in _) => assert (H : only P X) end.
      2:{ match type of H with only _ ?X => destruct X as [x y] end. intros d I. cbn in I. apply in_app_or in I. destruct I as [I|I]; [|exact (H d I)]. destruct (negb _); [destruct I|destruct I as [I|[]]; discriminate I]. }
      apply ok_seq; [|intros; apply ok_check]. intros d I. cbn [snd s_peer onp w_peer] in I. rewrite upd_same in I. destruct I as [I|I]; [discriminate I|]. cbn in I. destruct (p_out (s_peer s p)); [|destruct I]. destruct I as [I|[]]. congruence. }
    injection E as E. match type of E with seq ?A ?F = _ => assert (M : only (fun c => p_out (s_peer s p) = Some c) (seq A F)) by (apply ok_seq; [exact N|intros; apply ok_say; reflexivity]) end. rewrite E in M. exact (M c K).
  - exfalso. destruct (_ && _); [|discriminate]. destruct (p_pmok _) as [[]|]; injection E as E.
    + assert (N : only (fun _ => False) (send_ping p (reset_ping_timer p (onp p (fun x => p_sethb false (Some true) (p_pmok x) x) s)))) by apply ok_send. rewrite E in N. exact (N c K).
    + subst o'. destruct K.
    + subst o'. cbn in K. intuition discriminate.
Qed.

(** *** A connected peer is not being dialled *)

Definition restful (x : peer) : Prop := p_state x = Connected -> p_ton x = false /\ p_out x = None.
Definition rest (s : st) : Prop := forall p, restful (s_peer s p).

Lemma rest_onp p f s s0 : rest s -> s_peer s0 = s_peer s -> (restful (s_peer s p) -> restful (f (s_peer s p))) -> rest (onp p f s0).
Proof. intros V E H q. sel. rewrite E. unfold upd. destruct (Nat.eqb_spec q p); [subst|apply V]. apply H. apply V. Qed.

Lemma rest_nonce g p s s1 n : rest s -> get_nonce g p s = Some (s1, n) -> rest s1.
Proof. intros V G. apply get_nonce_spec in G. destruct G as (-> & _). destruct (_ =? 0)%N; [|exact V]. apply rest_onp with (s := s); auto. Qed.

Ltac rst := first [assumption | eapply rest_onp; [eassumption|reflexivity|]; unfold restful; cbn; first [tauto|intuition (discriminate || congruence)]].
Lemma rest_leaf e s s' o' : WF s -> rest s -> s_halt s' = false -> leaf hash e s s' o' -> rest s'.
Proof.
  intros W V HH L. destruct L.
  all: try (rst; fail).
  - match goal with G : get_nonce _ _ _ = _ |- _ => eapply rest_nonce; [|exact G] end. exact V.
  - refine (rest_onp _ (fun x => x_unpre (x_end x)) s _ V eq_refl _). unfold restful, x_unpre, x_end. destruct (p_state (s_peer s p)) eqn:ST; cbn; rewrite ?ST; discriminate.
  - refine (rest_onp _ (fun x => x_lost (x_end x)) s _ V eq_refl _). unfold restful, x_lost, x_end. destruct (p_state (s_peer s p)) eqn:ST; cbn; destruct (_ =? 0)%Z; cbn; rewrite ?ST; discriminate.
  - intros r. sel. unfold upd. destruct (r =? s_np s); [|apply V]. unfold restful. cbn. discriminate.
  - assert (P : forall r, s_peer (st_del i p c (w_q q s)) r = if r =? p then p_dead (s_peer s p) else s_peer s r).
    { intros r. unfold st_del, clear_peer_of. cbn [s_peer w_q onc w_conn]. destruct (p_out (s_peer s p)), (p_in (s_peer s p)); cbn; unfold upd; reflexivity. }
    intros r. rewrite P. destruct (r =? p); [|apply V]. unfold restful. cbn. intros ST. split; [reflexivity|]. apply (V p ST).
  - refine (rest_onp _ (fun x => if (n =? 0)%Z then x_conn n x else x_arm (x_conn n x)) s _ V eq_refl _). unfold restful. destruct (n =? 0)%Z; cbn; congruence.
  - match goal with G : get_nonce _ _ ?w = Some (?a, _) |- _ => assert (V1 : rest a) by (refine (rest_nonce _ _ w _ _ _ G); exact V) end. eapply rest_onp; [eassumption|reflexivity|]. unfold restful. cbn. auto.
  - match goal with G : get_nonce _ _ ?w = Some (?a, _) |- _ => assert (V1 : rest a) by (refine (rest_nonce _ _ w _ _ _ G); exact V) end. match goal with F : finished _ _ _ _ _ |- _ => destruct F as [F1 F2 F3 F4 F5 F6 F7 F8 F9] end.
    intros r. rewrite F2. destruct (Nat.eqb_spec r p); [unfold restful; cbn; auto|]. unfold reset_ping_timer; sel. rewrite ?upd_other by assumption. apply V1.
  - match goal with G : get_nonce _ _ _ = _ |- _ => eapply rest_nonce; [|exact G] end. eapply rest_onp; [exact V|reflexivity|]. unfold restful. cbn. congruence.
  - match goal with G : get_nonce _ _ _ = Some (?a, _) |- _ => assert (V1 : rest a); [eapply rest_nonce; [|exact G]; eapply rest_onp; [exact V|reflexivity|]; unfold restful; cbn; congruence|] end.
    match goal with F : finished _ _ _ _ _ |- _ => destruct F as [F1 F2 F3 F4 F5 F6 F7 F8 F9] end.
    intros r. rewrite F2. destruct (Nat.eqb_spec r p); [unfold restful; cbn; auto|]. unfold reset_ping_timer; sel. rewrite ?upd_other by assumption. apply V1.
Qed.

Lemma calm_run es s o : run hash es st0 = Some (s, o) -> s_halt s = false -> forall p, p_live (s_peer s p) = true -> p_state (s_peer s p) = Connected -> p_ton (s_peer s p) = false /\ p_out (s_peer s p) = None.
Proof.
  intros R HH p _ ST. assert (V : s_halt s = false -> rest s); [|exact (V HH p ST)]. revert R. clear HH ST.
  refine (run_inv hash (fun s _ => s_halt s = false -> rest s) _ _ _ es s o).
  - intros _ q. unfold restful. cbn. discriminate.
  - intros e t o1 t' o' W HH V L H'. eapply rest_leaf; eauto.
  - intros t t' o1 Q V HH q. rewrite <- (q_peer _ _ Q). apply V. rewrite (q_halt _ _ Q). exact HH.
Qed.

(** *** The invariant *)

Record END (s : st) (o : list obs) : Prop := mkEND {
  n_msgs : msgs_set s;
  n_in : forall p c, p_live (s_peer s p) = true -> p_in (s_peer s p) = Some c -> k_cert (s_conn s c) = Some (p_id (s_peer s p));
  n_out : forall p c, p_live (s_peer s p) = true -> p_out (s_peer s p) = Some c -> k_cert (s_conn s c) = Some (p_id (s_peer s p)) \/ exists a, In (ODial (p_id (s_peer s p)) c a) o;
  n_pend : forall a c, In (a, c) (s_pend s) -> a = k_addr (s_conn s c) /\ c < s_nc s;
  n_up : forall p c, p_live (s_peer s p) = true -> p_state (s_peer s p) = Connected -> p_conn (s_peer s p) = Some c -> k_set (s_conn s c) = true /\ forall a, ~ In (a, c) (s_pend s) }.

Lemma END_leaf e s s' o o' : WF s -> INV2 s o -> END s o -> s_halt s' = false -> leaf hash e s s' o' -> END s' (o ++ o').
Proof.
  intros W V2 V HH L. pose proof (still_leaf _ _ _ _ _ W L) as T. pose proof (lk_leaf _ _ _ _ W HH L) as K. clear L.
  pose proof (t_nc _ _ _ T) as NC. destruct (n_msgs _ _ V) as (M1 & M2 & M3).
  assert (AT : forall c, c < s_nc s -> k_cert (s_conn s' c) = k_cert (s_conn s c) /\ k_addr (s_conn s' c) = k_addr (s_conn s c)).
  { intros c L. pose proof (t_at _ _ _ T c L) as X. unfold attr in X. injection X as _ X1 X2 _. auto. }
  assert (ID : forall p, p_live (s_peer s p) = true -> p_id (s_peer s' p) = p_id (s_peer s p)).
  { intros p L. apply (t_id _ _ _ T). apply (w_live _ W p L). }
  assert (IC : forall c a i, c < s_nc s -> k_term (s_conn s c) = false -> ident hash (s_conn s c) a = i -> k_cert (s_conn s c) = Some i).
  { intros c a i L E F. unfold ident in F. destruct (k_cert (s_conn s c)) eqn:C; [congruence|]. destruct (j_none _ _ V2 _ L C) as (_ & X & _). congruence. }
  assert (SR : forall t c, In t (s_q s) -> source t = Some c -> c < s_nc s /\ k_set (s_conn s c) = true).
  { intros t c I E. split; [|exact (M1 _ _ I E)]. pose proof (w_task _ W _ I) as X. destruct t as [ | | | | | | | | |[d|]|]; cbn in E, X; try discriminate E; injection E as <-; exact X. }
  assert (IN : forall q c, p_live (s_peer s q) = true -> p_in (s_peer s q) = Some c -> c < s_nc s).
  { intros q c E I. destruct (w_live _ W q E) as (_ & _ & OK). exact (ok_in _ _ OK _ I). }
  constructor.
  - split; [|split].
    + intros t c I E. destruct (l_q _ _ _ K _ _ I E) as [X|[(X1 & X2)|(p & d & a & n & X)]].
      * destruct (SR _ _ X E). apply (l_set _ _ _ K); auto.
      * apply (l_set _ _ _ K); auto.
      * apply (l_set _ _ _ K); [exact (w_ut _ W _ X)|]. eapply M2. exact X.
    + intros p d a n c I. destruct (l_u _ _ _ K _ _ _ _ _ I) as [X|(X1 & X2)].
      * apply (l_set _ _ _ K); [exact (w_ut _ W _ X)|]. eapply M2. exact X.
      * apply (l_set _ _ _ K); [eapply IN; eassumption|]. eapply M3; eassumption.
    + intros p c E I. destruct (l_live _ _ _ K _ E) as [X|(_ & X & _)]; [|congruence].
      destruct (l_in _ _ _ K _ _ E I) as [Y|(_ & (t & Y1 & Y2) & _)].
      * apply (l_set _ _ _ K); [eapply IN; eassumption|]. eapply M3; eassumption.
      * destruct (SR _ _ Y1 Y2). apply (l_set _ _ _ K); auto.
  - intros p c E I. destruct (l_live _ _ _ K _ E) as [X|(_ & X & _)]; [|congruence]. rewrite (ID _ X).
    destruct (l_in _ _ _ K _ _ E I) as [Y|(Y0 & (t & Y1 & Y2) & a & Y3)].
    + destruct (AT c) as (-> & _); [eapply IN; eassumption|]. apply (n_in _ _ V); auto.
    + destruct (SR _ _ Y1 Y2) as (Z & _). destruct (AT c Z) as (-> & _). eapply IC; eassumption.
  - intros p c E I. destruct (l_live _ _ _ K _ E) as [X|(_ & _ & X & _)]; [|congruence]. rewrite (ID _ X).
    destruct (l_out _ _ _ K _ _ E I) as [Y|[(Y0 & Y1 & a & Y3)|(a & Y)]].
    + assert (Z : c < s_nc s). { destruct (w_live _ W p X) as (_ & _ & OK). exact (ok_out _ _ OK _ Y). }
      destruct (AT c Z) as (-> & _). destruct (n_out _ _ V _ _ X Y) as [B|(a & B)]; [auto|]. right. exists a. apply in_or_app. auto.
    + left. destruct (AT c Y1) as (-> & _). eapply IC; eassumption.
    + right. exists a. apply in_or_app. auto.
  - intros a c I. destruct (l_pend _ _ _ K _ _ I) as [X|(X1 & X2 & X3)].
    + destruct (n_pend _ _ V _ _ X) as (Y1 & Y2). destruct (AT c Y2) as (_ & ->). split; [exact Y1|lia].
    + destruct (AT c X1) as (_ & ->). split; [exact X3|lia].
  - intros p c E1 E2 E3. destruct (l_up _ _ _ K _ _ E1 E2 E3) as [(X1 & X2 & X3)|((t & X1 & X2) & X3)].
    + destruct (n_up _ _ V _ _ X1 X2 X3) as (Y1 & Y2).
      assert (Z : c < s_nc s). { destruct (w_live _ W p X1) as (_ & _ & OK). destruct (ok_conn _ _ OK) as (d & D & Z). congruence. }
      split; [apply (l_set _ _ _ K); auto|]. intros a I. destruct (l_pend _ _ _ K _ _ I) as [X|(_ & X & _)]; [exact (Y2 _ X)|congruence].
    + destruct (SR _ _ X1 X2) as (Y1 & Y2). split; [apply (l_set _ _ _ K); auto|]. intros a I. rewrite X3 in I. apply in_drop in I. destruct I as (I & N). destruct (n_pend _ _ V _ _ I). contradiction.
Qed.

Lemma END_eqv s s' o : eqv s s' -> END s o -> END s' o.
Proof.
  intros Q [(M1 & M2 & M3) V2 V3 V4 V5]. constructor; [split; [|split]| | | |].
  - intros t c. rewrite <- (q_q _ _ Q), <- (q_conn _ _ Q). apply M1.
  - intros p d a n c. rewrite <- (q_uq _ _ Q), <- (q_conn _ _ Q). apply M2.
  - intros p c. rewrite <- (q_peer _ _ Q), <- (q_conn _ _ Q). apply M3.
  - intros p c. rewrite <- (q_peer _ _ Q), <- (q_conn _ _ Q). apply V2.
  - intros p c. rewrite <- (q_peer _ _ Q), <- (q_conn _ _ Q). apply V3.
  - intros a c. rewrite <- (q_pend _ _ Q), <- (q_conn _ _ Q), <- (q_nc _ _ Q). apply V4.
  - intros p c. rewrite <- (q_peer _ _ Q), <- (q_conn _ _ Q), <- (q_pend _ _ Q). apply V5.
Qed.

Lemma END_run es s o : run hash es st0 = Some (s, o) -> Forall certified es -> s_halt s = false -> END s o.
Proof.
  revert s o. induction es as [|e es IH] using rev_ind; intros s o E F HH.
  - cbn in E. injection E as <- <-. constructor; [split; [|split]| | | |]; cbn; try (intros; contradiction); intros; discriminate.
  - apply Forall_app in F. destruct F as (F1 & F2).
    assert (X : exists s1 o1 o2, run hash es st0 = Some (s1, o1) /\ step hash e s1 = Some (s, o2) /\ o = o1 ++ o2).
    { clear - E. revert E. generalize st0. revert o. induction es as [|x es IH]; intros o s0 E; cbn [run app] in *.
      - destruct (step hash e s0) as [[s1 o1]|] eqn:SE; [|discriminate E]. injection E as <- <-. exists s0, [], o1. rewrite app_nil_r. split; [reflexivity|]. split; [assumption|reflexivity].
      - destruct (step hash x s0) as [[s1 o1]|]; [|discriminate E]. destruct (run hash (es ++ [e]) s1) as [[s2 o2]|] eqn:R; [|discriminate E]. injection E as <- <-.
        destruct (IH _ _ R) as (s3 & o3 & o4 & A & B & ->). rewrite A. exists s3, (o1 ++ o3), o4. rewrite app_assoc. auto. }
    destruct X as (s1 & o1 & o2 & R & S & ->). pose proof (wf_run _ _ _ _ R) as W. destruct (step_leaf _ _ _ _ _ W S) as (H1 & s2 & L & EQ).
    eapply END_eqv; [exact EQ|]. eapply END_leaf; eauto; [eapply INV2_run; eauto|]. rewrite (q_halt _ _ EQ). exact HH.
Qed.
End P.

(** ** C136 *)

(** Peer i is connected, over c. *)
Definition connected (s : st) (i : pid) (c : nat) : Prop :=
  exists p, In (i, p) (s_known s) /\ p_state (s_peer s p) = Connected /\ p_conn (s_peer s p) = Some c.

(** The user asks for it, or the peer itself, by its certificate, dials anew. *)
Definition asked (s : st) (i : pid) (o' : list obs) : Prop :=
  (exists id, In (OExec (TDel id i)) o') \/ (exists id n, In (OExec (TConn id i n)) o') \/
  exists d a n, In (OExec (TPing (Some d) a n)) o' /\ k_cert (s_conn s d) = Some i.

(** What is claimed: the network ends the connection of a connected peer only
    when the user or that peer asks. *)
Definition C136_reason_full : Prop := forall hash es s o e s' o' i c, run hash es st0 = Some (s, o) -> Forall certified es -> connected s i c ->
  step hash e s = Some (s', o') -> In (OKill c) o' -> asked s i o'.

(** So it is, unless the connection had been dialled for another peer, j. *)
Theorem C136_reason_partial : forall hash es s o e s' o' i c, run hash es st0 = Some (s, o) -> Forall certified es -> connected s i c ->
  step hash e s = Some (s', o') -> In (OKill c) o' -> asked s i o' \/ exists j a, j <> i /\ In (ODial j c a) o /\ k_cert (s_conn s c) = Some i.
Proof.
  intros hash es s o e s' o' i c R F (p & KN & ST & PC) S K. pose proof (wf_run _ _ _ _ R) as W.
  assert (HH : s_halt s = false) by (unfold step in S; destruct (s_halt s); [discriminate S|reflexivity]).
  pose proof (END_run _ _ _ _ R F HH) as V. destruct (w_kn _ W _ _ KN) as (LV & ID).
  destruct (n_up _ _ V _ _ LV ST PC) as (KS & NP).
  assert (CE : k_cert (s_conn s c) = Some i).
  { pose proof (INV2_run _ _ _ _ R F) as V2. destruct (j_pc _ _ V2 _ _ PC) as [X|X]; [|congruence]. exfalso.
    destruct (w_live _ W p LV) as (_ & _ & OK). destruct (ok_conn _ _ OK) as (d & D1 & D2). assert (d = c) by congruence. subst d. destruct (j_none _ _ V2 _ D2 X) as ((Y & _) & _). congruence. }
  assert (ONE : forall j q, find_by j (s_known s) = Some q -> k_cert (s_conn s c) = Some j -> j = i /\ q = p).
  { intros j q E X. assert (j = i) by congruence. subst j. split; [reflexivity|]. pose proof (find_by_In _ _ _ E) as Y. pose proof (In_find_by _ _ _ (w_keys _ W) KN). congruence. }
  assert (IDE : forall a, ident hash (s_conn s c) a = i) by (intros a; unfold ident; rewrite CE; reflexivity).
  assert (FI : find_by i (s_known s) = Some p) by (apply In_find_by; [apply (w_keys _ W)|exact KN]).
  assert (EX : forall g t, e = EDisp g -> next s t -> In (OExec t) o').
  { intros g t -> (q & Q). unfold step in S. rewrite HH, Q in S. destruct (task hash g t (w_q q s)) as [s2 o2]. injection S as _ <-. left. reflexivity. }
  assert (OUT : forall j q, find_by j (s_known s) = Some q -> p_out (s_peer s q) = Some c -> j = i \/ exists a, j <> i /\ In (ODial j c a) o).
  { intros j q E X. destruct (known_live _ _ _ W E) as (A & B & _). destruct (n_out _ _ V _ _ A X) as [Y|(a & Y)]; [left; congruence|]. destruct (N.eq_dec j i); [auto|]. right. exists a. rewrite B in Y. auto. }
  assert (IN : forall j q, find_by j (s_known s) = Some q -> p_in (s_peer s q) = Some c -> j = i).
  { intros j q E X. destruct (known_live _ _ _ W E) as (A & B & _). pose proof (n_in _ _ V _ _ A X) as Y. congruence. }
  assert (CN : forall j q, find_by j (s_known s) = Some q -> p_conn (s_peer s q) = Some c -> j = i).
  { intros j q E X. destruct (known_live _ _ _ W E) as (A & B & _). pose proof (INV2_run _ _ _ _ R F) as V2. destruct (j_pc _ _ V2 _ _ X) as [Y|Y]; congruence. }
  destruct (kill_step _ _ _ _ _ _ S K) as [(g & -> & X)|[(d & g & -> & X)|[(q & g & -> & X1 & X2)|(g & t & E & NX & X)]]].
  - congruence.
  - exfalso. apply find_by_In in X. exact (NP _ X).
  - destruct (w_live _ W q X1) as (_ & Y & _). assert (FQ : find_by (p_id (s_peer s q)) (s_known s) = Some q) by (apply In_find_by; [apply (w_keys _ W)|exact Y]).
    destruct (OUT _ _ FQ X2) as [Z|(a & Z1 & Z2)]; [|right; eauto]. assert (q = p) by congruence. subst q.
    destruct (calm_run _ _ _ _ R HH _ LV ST) as (_ & Y2). congruence.
  - specialize (EX _ _ E NX). destruct X as [(id & j & q & -> & X1 & X2)|[(id & j & n & q & -> & X1 & X2)|[(a & n & -> & X1 & X2)|[(d & a & n & q & -> & X1 & X2 & X3)|[(a & n & -> & X1 & X2)|(d & a & n & q & -> & X1 & X2 & X3 & X4)]]]]].
    + destruct X2 as [X2|[X2|X2]].
      * rewrite (CN _ _ X1 X2) in EX. left. left. eauto.
      * rewrite (IN _ _ X1 X2) in EX. left. left. eauto.
      * destruct (OUT _ _ X1 X2) as [Z|(b & Z1 & Z2)]; [|right; eauto]. rewrite Z in EX. left. left. eauto.
    + rewrite (CN _ _ X1 X2) in EX. left. right. left. eauto.
    + exfalso. rewrite IDE in X2. congruence.
    + assert (j : ident hash (s_conn s d) a = i \/ (c = d /\ p_state (s_peer s q) = Disconnected)).
      { destruct X3 as [X3|(X3 & [X4|X4])]; [left; exact (CN _ _ X2 X3)|left; exact (IN _ _ X2 X4)|right; auto]. }
      destruct j as [j|(<- & j)].
      * left. right. right. exists d, a, n. split; [exact EX|]. destruct NX as (l & NX). assert (D : d < s_nc s) by (apply (w_task _ W (TPing (Some d) a n)); rewrite NX; left; reflexivity).
        unfold ident in j. destruct (k_cert (s_conn s d)) eqn:CD; [congruence|]. destruct (j_none _ _ (INV2_run _ _ _ _ R F) _ D CD) as (_ & Y & _). congruence.
      * exfalso. rewrite IDE in X2. assert (q = p) by congruence. subst q. congruence.
    + exfalso. rewrite IDE in X2. congruence.
    + destruct X4 as [X4|<-].
      * destruct (OUT _ _ X2 X4) as [Z|(b & Z1 & Z2)]; [|right; eauto]. exfalso. rewrite Z in X2. assert (q = p) by congruence. subst q. congruence.
      * exfalso. rewrite IDE in X2. assert (q = p) by congruence. subst q. congruence.
Qed.
Print Assumptions C136_reason_partial.

(** It is so for every peer when whoever answers a dial is who was dialled. *)
Theorem C136_reason_answered : forall hash es s o e s' o' i c, run hash es st0 = Some (s, o) -> Forall certified es -> connected s i c ->
  (forall j d a, In (ODial j d a) o -> k_cert (s_conn s d) = Some j) -> step hash e s = Some (s', o') -> In (OKill c) o' -> asked s i o'.
Proof.
  intros hash es s o e s' o' i c R F C A S K. destruct (C136_reason_partial _ _ _ _ _ _ _ _ _ R F C S K) as [X|(j & a & N & D & E)]; [exact X|]. rewrite (A _ _ _ D) in E. congruence.
Qed.
Print Assumptions C136_reason_answered.

(** Two peers, 5 and 7, registered at one address, as when a machine has been
    given a new certificate; the user dials both.  The connection dialled for 5 is answered by 7, and
    7 is connected over it; nobody asks for anything more, and when the timer of 5
    fires the next time, the connection of 7 is ended. *)
Definition c136_bad : list ev :=
  [EPost (TAdd 0 5); EPost (TAdd 1 7); EPost (TSetAddr 2 5 100); EPost (TSetAddr 3 7 100); EPost (TConn 4 5 (-1)%Z); EPost (TConn 5 7 (-1)%Z); EDisp (c135_g None); EDisp (c135_g None); EDisp (c135_g None); EDisp (c135_g None); EDisp (c135_g None); EDisp (c135_g None);
   ERetry 0%nat (c135_g (Some 7%N)); ESetup 2%nat (c135_g None); EPost (TPong 2%nat 100 65535); EDisp (c135_g None); EUser]%N.
Theorem C136_reason_refuted : exists es s o e s' o' i c, run (fun a => a) es st0 = Some (s, o) /\ Forall certified es /\ ~ In OAssert o /\ connected s i c /\
  step (fun a => a) e s = Some (s', o') /\ In (OKill c) o' /\ ~ asked s i o'.
Proof.
  destruct (run (fun a => a) c136_bad st0) as [[s o]|] eqn:E; [|vm_compute in E; discriminate E].
  destruct (step (fun a => a) (ERetry 0 (c135_g (Some 7%N))) s) as [[s' o']|] eqn:S.
  2:{ exfalso. vm_compute in E. injection E as <- <-. vm_compute in S. discriminate S. }
  exists c136_bad, s, o, (ERetry 0 (c135_g (Some 7%N))), s', o', 7%N, 2. split; [exact E|]. split; [repeat constructor; discriminate|].
  vm_compute in E. injection E as <- <-. vm_compute in S. injection S as <- <-.
  split; [cbn; intuition discriminate|]. split; [exists 1; split; [left; reflexivity|split; reflexivity]|].
  split; [reflexivity|]. split; [cbn; intuition|]. unfold asked. cbn. intros [(id & X)|[(id & n & X)|(d & a & n & X & _)]]; intuition discriminate.
Qed.
Print Assumptions C136_reason_refuted.

(** Peer 5 is connected over 1, dialled and answered by 5; 5 dials anew, and
    1 is ended. *)
Definition c136_es : list ev :=
  [EPost (TAdd 0 5); EPost (TSetAddr 2 5 100); EPost (TConn 3 5 (-1)%Z); EDisp (c135_g None); EDisp (c135_g None); EDisp (c135_g None);
   ERetry 0%nat (c135_g (Some 5%N)); ESetup 1%nat (c135_g None); EPost (TPong 1%nat 100 65535); EDisp (c135_g None); EUser;
   EAccept 200 (Some 5%N); ESetup 2%nat (c135_g None); EPost (TPing (Some 2%nat) 100 65535)]%N.
Example C136_nonvacuous : exists s o s' o', run (fun a => a) c136_es st0 = Some (s, o) /\ Forall certified c136_es /\ connected s 5%N 1 /\
  (forall j d a, In (ODial j d a) o -> k_cert (s_conn s d) = Some j) /\ In (ODial 5%N 1 100%N) o /\ step (fun a => a) (EDisp (c135_g None)) s = Some (s', o') /\ In (OKill 1) o'.
Proof.
  destruct (run (fun a => a) c136_es st0) as [[s o]|] eqn:E; [|vm_compute in E; discriminate E].
  destruct (step (fun a => a) (EDisp (c135_g None)) s) as [[s' o']|] eqn:S.
  2:{ exfalso. vm_compute in E. injection E as <- <-. vm_compute in S. discriminate S. }
  exists s, o, s', o'. split; [reflexivity|]. split; [repeat constructor; discriminate|].
  vm_compute in E. injection E as <- <-. vm_compute in S. injection S as <- <-.
  split; [exists 0; split; [left; reflexivity|split; reflexivity]|]. split; [|split; [cbn; intuition|split; [reflexivity|cbn; intuition]]].
  intros j d a I. cbn in I. repeat (destruct I as [I|I]; [try discriminate I; injection I as <- <- <-; reflexivity|]). destruct I.
Qed.

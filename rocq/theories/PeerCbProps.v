(** C75: what the peer callback reports. *)
From Coq Require Import Arith NArith ZArith List Bool Lia.
From Verif Require Import PeerModel PeerInv PeerStep PeerRegProps PeerRetryProps PeerCalmProps.
Import ListNotations.

(** ** Specification *)

(** The calls of peer_cb about the peer with record p: connection and flag. *)
Definition told (p : nat) (o : list obs) : list (nat * bool) :=
  flat_map (fun x => match x with OCb q c b => if q =? p then [(c, b)] else [] | _ => [] end) o.
(** Those waiting in the user's loop. *)
Definition to_tell (p : nat) (l : list utask) : list (nat * bool) :=
  flat_map (fun x => match x with UCb q c b => if q =? p then [(c, b)] else [] | UPre q c _ _ _ => if q =? p then [(c, false)] else [] | _ => [] end) l.
(** The connection last reported up and not down since. *)
Definition last_up (l : list (nat * bool)) : option nat := match rev l with (c, true) :: _ => Some c | _ => None end.

Definition connected (s : st) (p : nat) : Prop := p_state (s_peer s p) <> Disconnected.

(** ** Proofs *)

Lemma told_app p a b : told p (a ++ b) = told p a ++ told p b.
Proof. apply flat_map_app. Qed.
Lemma to_tell_app p a b : to_tell p (a ++ b) = to_tell p a ++ to_tell p b.
Proof. apply flat_map_app. Qed.
Lemma told_mild p o : mild o -> told p o = [].
Proof.
  induction o as [|x o IH]; intros M; [reflexivity|]. unfold told. cbn [flat_map]. fold (told p o).
  rewrite IH by (intros y I; apply M; right; exact I). specialize (M x (or_introl eq_refl)). destruct x; try contradiction; reflexivity.
Qed.
Lemma last_up_snoc l c b : last_up (l ++ [(c, b)]) = if b then Some c else None.
Proof. unfold last_up. rewrite rev_unit. destruct b; reflexivity. Qed.

Section C.
Variable hash : addr -> pid.

(** All callbacks caused so far. *)
Definition story (s : st) (o : list obs) (p : nat) : list (nat * bool) := told p o ++ to_tell p (s_uq s).

Definition two_up (l : list (nat * bool)) : Prop := exists a c d b, l = a ++ (c, true) :: (d, true) :: b.

Lemma two_up_snoc l c b : two_up (l ++ [(c, b)]) -> two_up l \/ (b = true /\ last_up l <> None).
Proof.
  intros (x & u & v & y & E). destruct (exists_last (l := (u, true) :: (v, true) :: y) ltac:(discriminate)) as (z & w & Z).
  rewrite Z, app_assoc in E. apply app_inj_tail in E. destruct E as (E & <-).
  destruct y as [|y0 y]; [|left].
  - change [(u, true); (v, true)] with ([(u, true)] ++ [(v, true)]) in Z. apply app_inj_tail in Z. destruct Z as (<- & Z). injection Z as <- <-. right. split; [reflexivity|].
    rewrite E, last_up_snoc. discriminate.
  - destruct (exists_last (l := y0 :: y) ltac:(discriminate)) as (y' & w & Y). rewrite Y in Z.
    change ((u, true) :: (v, true) :: y' ++ [w]) with (((u, true) :: (v, true) :: y') ++ [w]) in Z. apply app_inj_tail in Z. destruct Z as (<- & _). exists x, u, v, y'. exact E.
Qed.

Definition kept (s s' : st) (p : nat) : Prop := (connected s' p <-> connected s p) /\ p_conn (s_peer s' p) = p_conn (s_peer s p).
Definition sc (x : peer) := (p_state x, p_conn x).

(** How a step changes the story of a peer. *)
Inductive change (s s' : st) (l l' : list (nat * bool)) (p : nat) : Prop :=
| ch_same : l' = l -> kept s s' p -> change s s' l l' p
| ch_new : l' = l -> s_np s <= p -> ~ connected s' p -> change s s' l l' p
| ch_up c : l' = l ++ [(c, true)] -> ~ connected s p -> connected s' p -> p_conn (s_peer s' p) = Some c -> p_ptok (s_peer s' p) = Some false -> p < s_np s -> change s s' l l' p
| ch_down c : l' = l ++ [(c, false)] -> ~ connected s' p -> k_peer (s_conn s c) = Some p -> k_torn (s_conn s c) = false -> p_live (s_peer s p) = true -> p < s_np s -> change s s' l l' p.

Lemma conn_upd f p v r s s' : s_peer s = f -> s_peer s' = upd f p v -> sc v = sc (f p) -> kept s s' r.
Proof. intros E E' S. unfold kept, connected. rewrite E, E'. unfold upd. injection S as S1 S2. destruct (Nat.eqb_spec r p); [subst r; rewrite S1|]; tauto. Qed.
Lemma conn_eq r s s' : sc (s_peer s' r) = sc (s_peer s r) -> kept s s' r.
Proof. intros E. injection E as E1 E2. unfold kept, connected. rewrite E1. tauto. Qed.

Lemma story_same s s' o o' p : s_uq s' = s_uq s -> told p o' = [] -> story s' (o ++ o') p = story s o p.
Proof. intros E T. unfold story. rewrite E, told_app, T, app_nil_r. reflexivity. Qed.

Lemma nonce_state g p s s' n : get_nonce g p s = Some (s', n) -> s_uq s' = s_uq s /\ s_conn s' = s_conn s /\ forall r, sc (s_peer s' r) = sc (s_peer s r).
Proof.
  intros E. apply get_nonce_spec in E. destruct E as (-> & _). destruct (p_nonce (s_peer s p) =? 0)%N; [|auto]. split; [reflexivity|]. split; [reflexivity|]. intros r. sel. unfold upd. destruct (Nat.eqb_spec r p); [subst|]; auto.
Qed.

Lemma told_kill p c : told p (out_kill c) = [].
Proof. destruct c; reflexivity. Qed.

Lemma fb_np s i p : WF s -> find_by i (s_known s) = Some p -> p < s_np s.
Proof. intros W F. destruct (known_live _ _ _ W F) as (L & _). apply (w_live _ W _ L). Qed.

Lemma change_fin s s0 s' o o' p c u r : finished p c u s0 s' -> p_state (s_peer s p) = Disconnected -> s_uq s0 = s_uq s -> (forall q, q <> p -> sc (s_peer s0 q) = sc (s_peer s q)) -> p < s_np s -> told r o' = [] ->
  change s s' (story s o r) (story s' (o ++ o') r) r.
Proof.
  intros F D U P NP T. assert (Q : s_uq s' = s_uq s ++ [UCb p c true]) by (rewrite (f_uq _ _ _ _ _ F), U; reflexivity).
  destruct (Nat.eq_dec r p) as [->|N].
  - apply (ch_up _ _ _ _ _ c).
    + unfold story. rewrite Q, to_tell_app, told_app, T, app_nil_r, app_assoc. f_equal. unfold to_tell. cbn [flat_map]. rewrite Nat.eqb_refl. reflexivity.
    + unfold connected. rewrite D. intros X. apply X. reflexivity.
    + unfold connected. rewrite (f_peer _ _ _ _ _ F), Nat.eqb_refl. discriminate.
    + rewrite (f_peer _ _ _ _ _ F), Nat.eqb_refl. reflexivity.
    + rewrite (f_peer _ _ _ _ _ F), Nat.eqb_refl. reflexivity.
    + exact NP.
  - apply ch_same.
    + unfold story. rewrite Q, to_tell_app, told_app, T, app_nil_r, app_assoc. unfold to_tell at 2. cbn [flat_map]. apply Nat.eqb_neq in N. rewrite Nat.eqb_sym, N, app_nil_r. reflexivity.
    + apply conn_eq. rewrite (f_peer _ _ _ _ _ F). rewrite <- (P r N). apply Nat.eqb_neq in N. rewrite N. reflexivity.
Qed.

Lemma told_fin p u c (b : bool) : told p (OPing c None :: (if b then [] else [OAssert]) ++ [OMove u c]) = [].
Proof. destruct b; reflexivity. Qed.

Lemma change_leaf e s s' o o' p : WF s -> leaf hash e s s' o' -> change s s' (story s o p) (story s' (o ++ o') p) p.
Proof.
  intros W L. inversion L; subst.
  - (* post *) apply ch_same; [apply story_same; reflexivity|apply conn_eq; reflexivity].
  - apply ch_same; [apply story_same; reflexivity|apply conn_eq; reflexivity].
  - apply ch_same; [apply story_same; reflexivity|apply conn_eq; reflexivity].
  - apply ch_same; [apply story_same; reflexivity|apply conn_eq; reflexivity].
  - (* user loop *) apply ch_same; [|apply conn_eq; reflexivity]. unfold story. sel. rewrite H, told_app, <- app_assoc. unfold told at 2. unfold to_tell. cbn [flat_map]. rewrite app_nil_r. reflexivity.
  - apply ch_same; [|apply conn_eq; reflexivity]. unfold story. sel. rewrite H, told_app, <- app_assoc. unfold told at 2. unfold to_tell. cbn [flat_map]. rewrite app_nil_r. reflexivity.
  - apply ch_same; [|apply conn_eq; reflexivity]. unfold story. sel. rewrite H, told_app, <- app_assoc. reflexivity.
  - (* set-up *) apply ch_same; [apply story_same; [reflexivity|apply told_mild; assumption]|apply conn_eq; reflexivity].
  - destruct (nonce_state _ _ _ _ _ H4) as (E1 & E2 & E3). apply ch_same; [apply story_same; [exact E1|reflexivity]|apply conn_eq; apply E3].
  - apply ch_same; [apply story_same; [reflexivity|apply told_mild; assumption]|apply conn_eq; reflexivity].
  - (* tear-down *) apply ch_same; [apply story_same; reflexivity|apply conn_eq; reflexivity].
  - apply ch_same; [apply story_same; reflexivity|apply conn_eq; reflexivity].
  - destruct (Nat.eq_dec p p0) as [->|N].
    + apply (ch_down _ _ _ _ _ c); auto; try (apply (w_pc _ W c); assumption).
      * unfold story. sel. rewrite to_tell_app, told_app, (told_mild _ _ H6), app_nil_r, app_assoc. f_equal. unfold to_tell. cbn [flat_map]. rewrite Nat.eqb_refl. reflexivity.
      * unfold connected. sel. rewrite upd_same. unfold x_unpre, x_end. destruct (p_state (s_peer s p0)) eqn:E; cbn; rewrite ?E; intros X; apply X; reflexivity.
    + apply ch_same.
      * unfold story. sel. rewrite to_tell_app, told_app, (told_mild _ _ H6), app_nil_r, app_assoc. unfold to_tell at 2. cbn [flat_map]. apply Nat.eqb_neq in N. rewrite Nat.eqb_sym, N, app_nil_r. reflexivity.
      * apply conn_eq. sel. rewrite upd_other by exact N. reflexivity.
  - destruct (Nat.eq_dec p p0) as [->|N].
    + apply (ch_down _ _ _ _ _ c); auto; try (apply (w_pc _ W c); assumption).
      * unfold story. sel. rewrite to_tell_app, told_app, (told_mild _ _ H6), app_nil_r, app_assoc. f_equal. unfold to_tell. cbn [flat_map]. rewrite Nat.eqb_refl. reflexivity.
      * unfold connected. sel. rewrite upd_same. unfold x_lost, x_end. destruct (p_state (s_peer s p0)) eqn:E; cbn; repeat match goal with |- context [if ?b then _ else _] => destruct b end; cbn; rewrite ?E; intros X; apply X; reflexivity.
    + apply ch_same.
      * unfold story. sel. rewrite to_tell_app, told_app, (told_mild _ _ H6), app_nil_r, app_assoc. unfold to_tell at 2. cbn [flat_map]. apply Nat.eqb_neq in N. rewrite Nat.eqb_sym, N, app_nil_r. reflexivity.
      * apply conn_eq. sel. rewrite upd_other by exact N. reflexivity.
  - (* timers *) apply ch_same; [apply story_same; reflexivity|]. eapply conn_upd; [reflexivity|sel; reflexivity|reflexivity].
  - apply ch_same; [apply story_same; [reflexivity|]|eapply conn_upd; [reflexivity|sel; reflexivity|reflexivity]].
    rewrite told_app. change (told p (ODial (p_id (s_peer s p0)) (s_nc s) (p_addr (s_peer s p0)) :: o0)) with (told p o0). rewrite (told_mild _ _ H3). destruct (_ =? _)%N; reflexivity.
  - apply ch_same; [apply story_same; reflexivity|]. eapply conn_upd; [reflexivity|sel; reflexivity|reflexivity].
  - apply ch_same; [apply story_same; reflexivity|]. eapply conn_upd; [reflexivity|sel; reflexivity|reflexivity].
  - (* tasks *) apply ch_same; [apply story_same; [reflexivity|]|apply conn_eq; reflexivity]. change (told p o0 = []). apply told_mild. assumption.
  - (* add *) destruct (Nat.eq_dec p (s_np s)) as [->|N].
    + apply ch_new; [apply story_same; reflexivity|lia|]. unfold connected. sel. rewrite upd_same. cbn. intros X. apply X. reflexivity.
    + apply ch_same; [apply story_same; reflexivity|apply conn_eq]. sel. rewrite upd_other by exact N. reflexivity.
  - (* del *) apply ch_same; [apply story_same|].
    + unfold st_del. sel. unfold clear_peer_of. destruct (p_out (s_peer s p0)), (p_in (s_peer s p0)); reflexivity.
    + unfold told. cbn [flat_map app]. rewrite flat_map_app. fold (told p (out_kill (p_in (s_peer s p0)))). fold (told p (out_kill (p_out (s_peer s p0)))). rewrite !told_kill. reflexivity.
    + apply conn_eq. unfold st_del. sel. assert (E : s_peer (clear_peer_of (p_out (s_peer s p0)) (clear_peer_of (p_in (s_peer s p0)) (onc c (k_setpeer None) (w_q q s)))) = s_peer s).
      { unfold clear_peer_of. destruct (p_out (s_peer s p0)), (p_in (s_peer s p0)); reflexivity. }
      sel. unfold w_known. sel. rewrite E. unfold upd. destruct (Nat.eqb_spec p p0); [subst|]; reflexivity.
  - apply ch_same; [apply story_same; reflexivity|]. eapply conn_upd; [reflexivity|sel; reflexivity|reflexivity].
  - apply ch_same; [apply story_same; reflexivity|]. eapply conn_upd; [reflexivity|sel; reflexivity|sel; destruct (n =? 0)%Z; reflexivity].
  - apply ch_same; [apply story_same; reflexivity|]. unfold kept, connected. sel. unfold upd. destruct (Nat.eqb_spec p p0) as [->|_]; [|tauto]. cbn. rewrite H2. split; [split; discriminate|reflexivity].
  - apply ch_same; [apply story_same; reflexivity|]. eapply conn_upd; [reflexivity|sel; reflexivity|reflexivity].
  - apply ch_same; [apply story_same; reflexivity|apply conn_eq; reflexivity].
  - apply ch_same; [apply story_same; reflexivity|apply conn_eq; reflexivity].
  - (* unknown *) apply ch_same; [|apply conn_eq; reflexivity]. unfold story. sel. rewrite to_tell_app, told_app. cbn. rewrite !app_nil_r. reflexivity.
  - (* preempt *) apply ch_same; [apply story_same; reflexivity|]. eapply conn_upd; [reflexivity|sel; reflexivity|reflexivity].
  - apply ch_same; [apply story_same; reflexivity|apply conn_eq; reflexivity].
  - (* ping refused *) destruct (nonce_state _ _ _ _ _ H7) as (E1 & E2 & E3). apply ch_same; [apply story_same; [exact E1|]|].
    + change (told p (o0 ++ [OKill c]) = []). rewrite told_app, (told_mild _ _ H10). reflexivity.
    + apply conn_eq. sel. unfold upd. destruct (Nat.eqb_spec p p0); [subst; cbn|]; apply E3.
  - (* ping finished *) destruct (nonce_state _ _ _ _ _ H7) as (E1 & E2 & E3). eapply change_fin; [eassumption|assumption|exact E1| |eauto using fb_np|].
    + intros r N. sel. rewrite !upd_other by exact N. apply E3.
    + change (told p (o0 ++ OPing c None :: (if k_term (s_conn s u) then [] else [OAssert]) ++ [OMove u c]) = []). rewrite told_app, (told_mild p o0) by assumption. apply told_fin.
  - apply ch_same; [apply story_same; reflexivity|apply conn_eq; reflexivity].
  - apply ch_same; [apply story_same; reflexivity|]. eapply conn_upd; [reflexivity|sel; reflexivity|reflexivity].
  - apply ch_same; [apply story_same; reflexivity|]. eapply conn_upd; [reflexivity|sel; reflexivity|reflexivity].
  - apply ch_same; [apply story_same; reflexivity|]. eapply conn_upd; [reflexivity|sel; reflexivity|reflexivity].
  - apply ch_same; [apply story_same; [reflexivity|]|]. { change (told p (o0 ++ [OFatal]) = []). rewrite told_app, told_mild by assumption. reflexivity. }
    eapply conn_upd; [reflexivity|sel; reflexivity|reflexivity].
  - (* pong refused *) destruct (nonce_state _ _ _ _ _ H7) as (E1 & E2 & E3). apply ch_same; [apply story_same; [exact E1|]|].
    + change (told p (o0 ++ [OKill c]) = []). rewrite told_app, (told_mild _ _ H9). reflexivity.
    + apply conn_eq. rewrite (E3 p). sel. unfold upd. destruct (Nat.eqb_spec p p0); [subst|]; reflexivity.
  - (* pong finished *) destruct (nonce_state _ _ _ _ _ H7) as (E1 & E2 & E3). eapply change_fin; [eassumption|assumption|exact E1| |eauto using fb_np|].
    + intros r N. unfold reset_ping_timer. sel. rewrite !upd_other by exact N. rewrite (E3 r). sel. rewrite upd_other by exact N. reflexivity.
    + change (told p (o0 ++ OPing c None :: (if k_term (s_conn s u) then [] else [OAssert]) ++ [OMove u c]) = []). rewrite told_app, (told_mild p o0) by assumption. apply told_fin.
Qed.

(** *** Every history *)

Record K (s : st) (o : list obs) (p : nat) : Prop := mkK {
  k_new : s_np s <= p -> story s o p = [];
  k_up : connected s p <-> last_up (story s o p) <> None;
  k_which : forall c, last_up (story s o p) = Some c -> p_conn (s_peer s p) = Some c;
  k_two : ~ two_up (story s o p) }.

Lemma np_leaf e s s' o : leaf hash e s s' o -> s_np s <= s_np s'.
Proof.
  intros L. inversion L; subst; try (apply Nat.le_refl); try (match goal with H : get_nonce _ _ _ = Some _ |- _ => apply get_nonce_spec in H; destruct H as (-> & _); destruct (_ =? 0)%N; apply Nat.le_refl end);
    try (match goal with H : get_nonce _ _ _ = Some _, F : finished _ _ _ _ _ |- _ => rewrite (f_np _ _ _ _ _ F); apply get_nonce_spec in H; destruct H as (-> & _); unfold reset_ping_timer; destruct (_ =? 0)%N; apply Nat.le_refl end).
  - cbn. lia.
  - unfold st_del, clear_peer_of. sel. destruct (p_out _), (p_in _); apply Nat.le_refl.
Qed.

Lemma last_up_none l : last_up l <> None -> exists c, last_up l = Some c.
Proof. destruct (last_up l) as [c|]; [eauto|intros X; contradiction X; reflexivity]. Qed.

Lemma K_leaf e s o s' o' p : WF s -> K s o p -> leaf hash e s s' o' -> K s' (o ++ o') p.
Proof.
  intros W [K1 K2 K3 K4] L. pose proof (np_leaf _ _ _ _ L) as NP. destruct (change_leaf _ _ _ o _ p W L) as [E (C & C')|E N C|c E C C' C'' PT N|c E C T1 T2 LV N]; (constructor; rewrite E).
  - intros G. apply K1. lia.
  - rewrite C. exact K2.
  - rewrite C'. exact K3.
  - exact K4.
  - intros G. apply K1. lia.
  - rewrite (K1 N). split; [intros X; contradiction|intros X; contradiction X; reflexivity].
  - rewrite (K1 N). discriminate.
  - exact K4.
  - intros G. exfalso. lia.
  - rewrite last_up_snoc. split; [discriminate|intros _; exact C'].
  - intros d. rewrite last_up_snoc. intros X. injection X as <-. exact C''.
  - intros T. apply two_up_snoc in T. destruct T as [T|(_ & T)]; [exact (K4 T)|]. apply C. apply K2. exact T.
  - intros G. exfalso. lia.
  - rewrite last_up_snoc. split; [intros X; contradiction|intros X; contradiction X; reflexivity].
  - intros d. rewrite last_up_snoc. discriminate.
  - intros T. apply two_up_snoc in T. destruct T as [T|(T & _)]; [exact (K4 T)|discriminate T].
Qed.

Lemma story_eqv s s' o p : eqv s s' -> story s' o p = story s o p.
Proof. intros Q. unfold story. rewrite (q_uq _ _ Q). reflexivity. Qed.

Lemma K_run es s o p : run hash es st0 = Some (s, o) -> K s o p.
Proof.
  apply (run_inv hash (fun s o => K s o p)).
  - constructor; cbn; try discriminate; auto.
    + split; intros X; contradiction X; reflexivity.
    + intros (a & ? & ? & b & E). destruct a; discriminate E.
  - intros e s1 o1 s2 o2 W _ X L. exact (K_leaf _ _ _ _ _ _ W X L).
  - intros s1 s2 o1 Q [K1 K2 K3 K4]. constructor; rewrite (story_eqv _ _ _ _ Q); auto.
    + rewrite <- (q_np _ _ Q). exact K1.
    + unfold connected. rewrite <- (q_peer _ _ Q). exact K2.
    + rewrite <- (q_peer _ _ Q). exact K3.
Qed.

Theorem C75_no_double_partial : forall es s o p, run hash es st0 = Some (s, o) -> ~ two_up (told p o).
Proof.
  intros es s o p E (a & c & d & b & T). apply (k_two _ _ _ (K_run _ _ _ p E)). unfold story. rewrite T. exists a, c, d, (b ++ to_tell p (s_uq s)). rewrite <- app_assoc. reflexivity.
Qed.

Theorem C75_truthful_partial : forall es s o p, run hash es st0 = Some (s, o) -> to_tell p (s_uq s) = [] ->
  (p_state (s_peer s p) <> Disconnected <-> last_up (told p o) <> None) /\
  (forall c, last_up (told p o) = Some c -> p_conn (s_peer s p) = Some c).
Proof.
  intros es s o p E T. destruct (K_run _ _ _ p E) as [_ K2 K3 _]. unfold story in *. rewrite T, app_nil_r in *. split; [exact K2|exact K3].
Qed.

(** *** Calm histories *)

(** A report of loss directly after a report of a connection is about that connection. *)
Definition matched (l : list (nat * bool)) : Prop := forall a c d b, l = a ++ (d, true) :: (c, false) :: b -> c = d.

Lemma matched_snoc l c b : matched l -> (b = false -> forall d, last_up l = Some d -> c = d) -> matched (l ++ [(c, b)]).
Proof.
  intros M H x u v y E. destruct (exists_last (l := (v, true) :: (u, false) :: y) ltac:(discriminate)) as (z & w & Z).
  rewrite Z, app_assoc in E. apply app_inj_tail in E. destruct E as (E & <-).
  destruct y as [|y0 y].
  - change [(v, true); (u, false)] with ([(v, true)] ++ [(u, false)]) in Z. apply app_inj_tail in Z. destruct Z as (<- & Z). injection Z as <- <-. apply H; [reflexivity|].
    rewrite E, last_up_snoc. reflexivity.
  - destruct (exists_last (l := y0 :: y) ltac:(discriminate)) as (y' & w & Y). rewrite Y in Z.
    change ((v, true) :: (u, false) :: y' ++ [w]) with (((v, true) :: (u, false) :: y') ++ [w]) in Z. apply app_inj_tail in Z. destruct Z as (<- & _). apply (M x u v y'). exact E.
Qed.

Lemma matched_run es s o p : run hash es st0 = Some (s, o) -> along hash (calm hash) es st0 -> matched (story s o p).
Proof.
  intros E A. refine (proj1 (along_inv hash (calm hash) (fun s o => matched (story s o p) /\ K s o p /\ (s_halt s = true \/ J (s_conn s) (s_peer s))) _ _ _ es s o E A)).
  - split; [|split; [exact (K_run [] st0 [] p eq_refl)|]].
    + intros a c d b X. destruct a; discriminate X.
    + right. constructor; cbn; try discriminate; auto.
  - intros e s1 o1 s2 o2 W HH (M & KK & HJ) Q L. split; [|split; [exact (K_leaf _ _ _ _ _ _ W KK L)|]].
    + destruct HJ as [T|HJ]; [congruence|]. destruct KK as [K1 K2 K3 K4].
      destruct (change_leaf _ _ _ o1 _ p W L) as [X (C & C')|X N C|c X C C' C'' PT N|c X C T1 T2 LV N]; rewrite X; auto.
      * apply matched_snoc; [exact M|discriminate].
      * apply matched_snoc; [exact M|]. intros _ d D. assert (CN : connected s1 p) by (apply K2; rewrite D; discriminate).
        pose proof (own_up _ _ _ _ HJ T1 T2 CN) as O. rewrite (K3 _ D) in O. injection O as <-. reflexivity.
    + exact (calm_leaf hash e s1 o1 s2 o2 W HH HJ Q L).
  - intros s1 s2 o1 Q (M & [K1 K2 K3 K4] & HJ). split; [rewrite (story_eqv _ _ _ _ Q); exact M|]. split.
    + constructor; rewrite (story_eqv _ _ _ _ Q); auto.
      * rewrite <- (q_np _ _ Q). exact K1.
      * unfold connected. rewrite <- (q_peer _ _ Q). exact K2.
      * rewrite <- (q_peer _ _ Q). exact K3.
    + destruct HJ as [T|T]; [left; rewrite <- (q_halt _ _ Q); exact T|]. right. apply (J_ext _ _ _ _ T); intros; symmetry; apply Q.
Qed.

Theorem C75_calm_partial : forall es s o p, run hash es st0 = Some (s, o) -> along hash (calm hash) es st0 ->
  (forall a c d b, told p o = a ++ (d, true) :: (c, false) :: b -> c = d) /\
  (s_halt s = false -> p_live (s_peer s p) = true -> to_tell p (s_uq s) = [] -> forall c, last_up (told p o) = Some c ->
     k_peer (s_conn s c) = Some p /\ k_torn (s_conn s c) = false).
Proof.
  intros es s o p E A. split.
  - intros a c d b T. apply (matched_run _ _ _ p E A a c d (b ++ to_tell p (s_uq s))). unfold story. rewrite T, <- app_assoc. reflexivity.
  - intros HH L T c U. destruct (C75_truthful_partial _ _ _ p E T) as (P1 & P2). destruct (calm_run _ _ _ _ E A) as [X|X]; [congruence|].
    assert (CN : p_state (s_peer s p) <> Disconnected) by (apply P1; rewrite U; discriminate).
    destruct (j_up _ _ X p L CN) as (c' & C1 & C2 & C3). rewrite (P2 _ U) in C1. injection C1 as <-. split; assumption.
Qed.
End C.
Print Assumptions C75_no_double_partial.
Print Assumptions C75_truthful_partial.
Print Assumptions C75_calm_partial.

(** ** Witnesses *)

(** An attempt that fails is reported as a loss, with no connection reported before. *)
Theorem C75_alternates_refuted : exists es s o, run h5 es st0 = Some (s, o) /\ along h5 (calm h5) es st0 /\ told 0 o = [(1, false)].
Proof.
  set (es := call (-1) ++ [ERetry 0 g0; ETerm 1; ETear 1; EUser]). exists es.
  destruct (run h5 es st0) as [[s o]|] eqn:E; [|exfalso; vm_compute in E; discriminate E]. exists s, o. split; [reflexivity|]. split.
  - apply (alongb_ok h5 (calmb h5)); [exact (calmb_ok h5)|exact wf0|vm_compute; reflexivity].
  - assert (K : option_map (fun x => told 0 (snd x)) (run h5 es st0) = Some [(1, false)]) by (vm_compute; reflexivity). rewrite E in K. cbn [option_map snd] in K. injection K as K. exact K.
Qed.

(** A connection reported is closed by del_peer and torn down: no loss is reported. *)
Theorem C75_deleted_refuted : exists es s o, run h5 es st0 = Some (s, o) /\ along h5 (calm h5) es st0 /\ s_q s = [] /\ s_uq s = [] /\
  told 0 o = [(1, true)] /\ k_torn (s_conn s 1) = true /\ find_by 5%N (s_known s) = None.
Proof.
  set (es := call (-1) ++ [ERetry 0 g0; ESetup 1 g0; EPost (TPong 1 9%N passive_nonce); EDisp g0; EUser; EPost (TDel 3 5%N); EDisp g0; ETerm 1; ETear 1]). exists es.
  destruct (run h5 es st0) as [[s o]|] eqn:E; [|exfalso; vm_compute in E; discriminate E]. exists s, o. split; [reflexivity|]. split.
  - apply (alongb_ok h5 (calmb h5)); [exact (calmb_ok h5)|exact wf0|vm_compute; reflexivity].
  - assert (K : option_map (fun x => let s := fst x in (s_q s, s_uq s, told 0 (snd x), k_torn (s_conn s 1), find_by 5%N (s_known s))) (run h5 es st0) = Some ([], [], [(1, true)], true, None)) by (vm_compute; reflexivity).
    rewrite E in K. cbn [option_map fst snd] in K. injection K as K1 K2 K3 K4 K5. auto.
Qed.

(** An earlier attempt ends after a later one was established: a loss is reported
    though the connection reported before is still up. *)
Theorem C75_other_refuted : exists es s o, run h5 es st0 = Some (s, o) /\ s_uq s = [] /\ told 0 o = [(2, true); (1, false)] /\ k_peer (s_conn s 2) = Some 0 /\ k_term (s_conn s 2) = false.
Proof.
  set (es := stale ++ [ETerm 1; ETear 1; EUser]). exists es.
  destruct (run h5 es st0) as [[s o]|] eqn:E; [|exfalso; vm_compute in E; discriminate E]. exists s, o. split; [reflexivity|].
  assert (K : option_map (fun x => let s := fst x in (s_uq s, told 0 (snd x), k_peer (s_conn s 2), k_term (s_conn s 2))) (run h5 es st0) = Some ([], [(2, true); (1, false)], Some 0, false)) by (vm_compute; reflexivity).
  rewrite E in K. cbn [option_map fst snd] in K. injection K as K1 K2 K3 K4. auto.
Qed.
Print Assumptions C75_alternates_refuted.
Print Assumptions C75_deleted_refuted.
Print Assumptions C75_other_refuted.

(** Non-vacuous: a calm history with two connections reported, lost and replaced. *)
Definition cb_ex : list ev := calm_ex ++ [EAccept 20%N None; ESetup 3 g0; EPost (TPing (Some 3) 9%N 1%N); EDisp g0; ETerm 2; ETear 2; EUser; EDisp g0; EUser].
Example C75_nonvacuous : exists s o, run h5 cb_ex st0 = Some (s, o) /\ along h5 (calm h5) cb_ex st0 /\ s_halt s = false /\ p_live (s_peer s 0) = true /\ to_tell 0 (s_uq s) = [] /\
  told 0 o = [(1, false); (2, true); (2, false); (3, true)] /\ last_up (told 0 o) = Some 3.
Proof.
  destruct (run h5 cb_ex st0) as [[s o]|] eqn:E; [|exfalso; vm_compute in E; discriminate E]. exists s, o. split; [reflexivity|]. split.
  - apply (alongb_ok h5 (calmb h5)); [exact (calmb_ok h5)|exact wf0|vm_compute; reflexivity].
  - assert (K : option_map (fun x => let s := fst x in (s_halt s, p_live (s_peer s 0), to_tell 0 (s_uq s), told 0 (snd x), last_up (told 0 (snd x)))) (run h5 cb_ex st0) = Some (false, true, [], [(1, false); (2, true); (2, false); (3, true)], Some 3)) by (vm_compute; reflexivity).
    rewrite E in K. cbn [option_map fst snd] in K. injection K as K1 K2 K3 K4 K5. auto 10.
Qed.

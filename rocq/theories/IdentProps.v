(** C135: a peer is who it says it is. *)
From Coq Require Import Arith NArith ZArith List Bool Lia.
From Verif Require Import PeerModel PeerInv PeerStep PeerRegProps IdentInv.
Import ListNotations.

(** ** Specification *)

(** [shows] and [mute] are in IdentInv.v. *)

(** Ids come from certificates: every connection made has one. *)
Definition certified (e : ev) : Prop :=
  match e with EAccept _ k | EDial _ k => k <> None | ERetry _ g => g_cert g <> None | _ => True end.

(** Whom a task sends a message to. *)
Definition addressees (t : dtask) : list pid := match t with TSend _ i _ => [i] | TMulti _ l _ => l | _ => [] end.

(** Where the messages given to send_msg and multicast_msg are: each with the
    connection in whose queue it last was put, and those it is meant for. *)
Definition item := (nat * list pid * N)%type.
Definition carry (x : list pid * list item) (y : obs) : list pid * list item :=
  match y with
  | OExec t => (addressees t, snd x)
  | OQueue c m => (fst x, snd x ++ [(c, fst x, m)])
  | OMove u c => (fst x, map (fun z => if fst (fst z) =? u then (c, snd (fst z), snd z) else z) (snd x))
  | _ => x
  end.
Definition carried (o : list obs) : list item := snd (fold_left carry o ([], [])).

(** The id of the other end of a connection whose address is a. *)
Definition id_of (hash : addr -> pid) (k : conn) (a : addr) : pid := match k_cert k with Some i => i | None => hash a end.

(** What get_peer_id should say of a connection that is set up and not ended. *)
Definition C135_get_peer_id_full : Prop := forall hash es s o g q c s' o' i, run hash es st0 = Some (s, o) -> s_q s = TPeer c :: q -> step hash (EDisp g) s = Some (s', o') ->
  k_set (s_conn s c) = true -> k_term (s_conn s c) = false -> In (OId c (Some i)) o' -> shows hash s o c i.

(** ** Proofs *)

Section P.
Variable hash : addr -> pid.

Record INV (s : st) (o : list obs) : Prop := mkINV {
  i_cb : forall p c, reported s o p c -> p < s_np s /\ c < s_nc s /\ shows hash s o c (p_id (s_peer s p));
  i_pc : forall p c, p_conn (s_peer s p) = Some c -> p < s_np s /\ c < s_nc s /\ (mute s c \/ shows hash s o c (p_id (s_peer s p)));
  i_kp : forall c p, k_peer (s_conn s c) = Some p -> mute s c \/ shows hash s o c (p_id (s_peer s p)) \/
    (k_mode (s_conn s c) = Active /\ k_manual (s_conn s c) = false /\ (forall q, ~ reported s o q c) /\ In (ODial (p_id (s_peer s p)) c (k_addr (s_conn s c))) o) }.

Lemma shows_mono s s' o o' c i i' : still s s' o' -> c < s_nc s -> i' = i -> shows hash s o c i -> shows hash s' (o ++ o') c i'.
Proof.
  intros T L -> S. unfold shows in *. pose proof (t_at _ _ _ T c L) as A. unfold attr in A. injection A as -> -> -> _.
  destruct (k_cert (s_conn s c)); [exact S|]. destruct (k_mode (s_conn s c)); [exact S|]. destruct S as (a & n & I & S). exists a, n. split; [apply in_or_app; left; exact I|exact S].
Qed.

Lemma rep_back s s' o o' p c : no_new s s' o' -> reported s' (o ++ o') p c -> reported s o p c.
Proof.
  intros N [I|I]; [apply in_app_or in I; destruct I as [I|I]; [left; exact I|]|]; right; apply N; auto.
Qed.

Lemma INV_step s s' o o' : WF s -> WF s' -> still s s' o' -> kind hash s s' o' -> INV s o -> INV s' (o ++ o').
Proof.
  intros W W' T K V. pose proof (t_nc _ _ _ T) as NC. pose proof (t_np _ _ _ T) as NP.
  assert (CB : forall p c, reported s o p c -> p < s_np s' /\ c < s_nc s' /\ shows hash s' (o ++ o') c (p_id (s_peer s' p))).
  { intros p c R. destruct (i_cb _ _ V _ _ R) as (A & B & C). split; [lia|]. split; [lia|]. apply (shows_mono s s' o o' c (p_id (s_peer s p))); auto. apply (t_id _ _ _ T). exact A. }
  assert (PC : forall p c, p_conn (s_peer s p) = Some c -> p < s_np s' /\ c < s_nc s' /\ (mute s' c \/ shows hash s' (o ++ o') c (p_id (s_peer s' p)))).
  { intros p c R. destruct (i_pc _ _ V _ _ R) as (A & B & C). split; [lia|]. split; [lia|]. destruct C as [C|C]; [left; apply (t_mute _ _ _ T); auto|right]. apply (shows_mono s s' o o' c (p_id (s_peer s p))); auto. apply (t_id _ _ _ T). exact A. }
  assert (KP : forall c p, k_peer (s_conn s c) = Some p -> (forall q, reported s' (o ++ o') q c -> reported s o q c) -> mute s' c \/ shows hash s' (o ++ o') c (p_id (s_peer s' p)) \/
     (k_mode (s_conn s' c) = Active /\ k_manual (s_conn s' c) = false /\ (forall q, ~ reported s' (o ++ o') q c) /\ In (ODial (p_id (s_peer s' p)) c (k_addr (s_conn s' c))) (o ++ o'))).
  { intros c p E R. destruct (w_pc _ W _ _ E) as (A & B). destruct (i_kp _ _ V _ _ E) as [C|[C|(C1 & C2 & C3 & C4)]].
    - left. apply (t_mute _ _ _ T); auto.
    - right. left. apply (shows_mono s s' o o' c (p_id (s_peer s p))); auto. apply (t_id _ _ _ T). exact A.
    - right. right. pose proof (t_at _ _ _ T c B) as X. unfold attr in X. injection X as -> -> _ ->. rewrite (t_id _ _ _ T p A).
      split; [exact C1|]. split; [exact C2|]. split; [intros q Y; exact (C3 _ (R _ Y))|]. apply in_or_app. left. exact C4. }
  destruct K as [SC FW NN NM|SC SK NN NW E1 NM|SC EA SK MU CE NN E1 E2 NM|p c u L1 L2 EU EC SC FW KC SH RP UC MV E1 KT].
  - constructor.
    + intros p c R. apply CB. exact (rep_back _ _ _ _ _ _ NN R).
    + intros p c E. rewrite SC in E. auto.
    + intros c p E. destruct (FW c) as [X|X]; [|congruence]. rewrite X in E. apply KP; auto. intros q. apply rep_back. exact NN.
  - constructor.
    + intros p c R. apply CB. exact (rep_back _ _ _ _ _ _ NN R).
    + intros p c E. rewrite SC in E. auto.
    + intros c p E. destruct (Nat.lt_trichotomy c (s_nc s)) as [X|[X|X]].
      * rewrite (SK _ X) in E. apply KP; auto. intros q. apply rep_back. exact NN.
      * subst c. destruct (NW _ E) as (A & B & D & D2). right. right. split; [exact A|]. split; [exact B|]. split.
        -- intros q R. apply (rep_back _ _ _ _ _ _ NN) in R. destruct (i_cb _ _ V _ _ R) as (_ & R1 & _). lia.
        -- apply in_or_app. right. rewrite (t_id _ _ _ T p); [exact D|exact D2].
      * destruct (w_pc _ W' _ _ E) as (_ & Y). lia.
  - constructor.
    + intros p c R. apply CB. exact (rep_back _ _ _ _ _ _ NN R).
    + intros p c E. destruct (Nat.eq_dec p (s_np s)) as [->|X]; [|rewrite (SC _ X) in E; auto]. assert (c = s_nc s) by congruence. subst c. split; [lia|]. split; [lia|]. left. exact MU.
    + intros c p E. destruct (Nat.eq_dec c (s_nc s)) as [->|X]; [left; exact MU|]. rewrite (SK _ X) in E. apply KP; auto. intros q. apply rep_back. exact NN.
  - constructor.
    + intros q d R. assert (X : reported s o q d \/ (q = p /\ d = c)).
      { destruct R as [I|I]; [apply in_app_or in I; destruct I as [I|I]; [left; left; exact I|]|]; destruct (RP q d ltac:(auto)) as [Y|Y]; auto; left; right; exact Y. }
      destruct X as [X|(-> & ->)]; [auto|]. split; [lia|]. split; [lia|]. apply SH.
    + intros q d E. destruct (Nat.eq_dec q p) as [->|X]; [|rewrite (SC _ X) in E; auto]. assert (d = c) by congruence. subst d. split; [lia|]. split; [lia|]. right. apply SH.
    + intros d q E. destruct (Nat.eq_dec d c) as [->|X].
      * assert (q = p) by congruence. subst q. right. left. apply SH.
      * destruct (FW d X) as [Y|Y]; [|congruence]. rewrite Y in E. apply KP; auto. intros r [I|I]; [apply in_app_or in I; destruct I as [I|I]; [left; exact I|]|]; destruct (RP r d ltac:(auto)) as [Z|(_ & Z)]; try congruence; right; exact Z.
Qed.

Lemma shows_eqv s s' o c i : eqv s s' -> shows hash s o c i -> shows hash s' o c i.
Proof. intros Q. unfold shows. rewrite (q_conn _ _ Q). auto. Qed.

Lemma INV_eqv t t' o1 : eqv t t' -> INV t o1 -> INV t' o1.
Proof.
  intros Q V. destruct V as [V1 V2 V3].
  assert (R : forall p c, reported t' o1 p c -> reported t o1 p c) by (intros p c; unfold reported; rewrite (q_uq _ _ Q); auto).
  constructor.
  + intros p c X. destruct (V1 _ _ (R _ _ X)) as (A & B & C). rewrite <- (q_np _ _ Q), <- (q_nc _ _ Q), <- (q_peer _ _ Q). split; [exact A|]. split; [exact B|]. eapply shows_eqv; eauto.
  + intros p c X. rewrite <- (q_peer _ _ Q) in X. destruct (V2 _ _ X) as (A & B & C). rewrite <- (q_np _ _ Q), <- (q_nc _ _ Q), <- (q_peer _ _ Q). split; [exact A|]. split; [exact B|].
    destruct C as [C|C]; [left; unfold mute; rewrite <- (q_conn _ _ Q); exact C|right; eapply shows_eqv; eauto].
  + intros c p X. rewrite <- (q_conn _ _ Q) in X. rewrite <- (q_peer _ _ Q). destruct (V3 _ _ X) as [C|[C|(C1 & C2 & C3 & C4)]]; [left; unfold mute; rewrite <- (q_conn _ _ Q); exact C|right; left; eapply shows_eqv; eauto|].
    right. right. rewrite <- (q_conn _ _ Q). split; [exact C1|]. split; [exact C2|]. split; [intros q Y; exact (C3 _ (R _ _ Y))|exact C4].
Qed.

Lemma INV_run es s o : run hash es st0 = Some (s, o) -> INV s o.
Proof.
  apply (run_inv hash INV).
  - constructor; [intros p c [[]|[]]|intros p c E; discriminate E|intros c p E; discriminate E].
  - intros e t o1 t' o' W HH V L. eapply INV_step; eauto; [eapply wf_leaf; eauto|eapply still_leaf; eauto|eapply kind_leaf; eauto].
  - intros t t' o1. apply INV_eqv.
Qed.

(** *** Messages *)

Definition noq (o : list obs) : Prop := forall c m, ~ In (OQueue c m) o.
Definition quietq (x : out) : Prop := noq (snd x).
Lemma nq_seq x f : quietq x -> (forall s, quietq (f s)) -> quietq (x ;; f).
Proof.
  unfold quietq, seq. destruct x as [s o]. cbn. intros A B. destruct (s_halt s); [exact A|]. specialize (B s). destruct (f s) as [s2 o2]. cbn in *.
  intros c m I. apply in_app_or in I. destruct I as [I|I]; [exact (A _ _ I)|exact (B _ _ I)].
Qed.
Lemma nq_say l s : forallb (fun y => match y with OQueue _ _ => false | _ => true end) l = true -> quietq (say l s).
Proof. intros H c m I. rewrite forallb_forall in H. specialize (H _ I). discriminate H. Qed.
Lemma nq_check b s : quietq (check b s).
Proof. intros c m I. cbn in I. destruct b; [destruct I|]. destruct I as [I|[]]. discriminate I. Qed.
Lemma nq_ub w s : quietq (ub w s).
Proof. intros c m [I|[]]. discriminate I. Qed.
Lemma nq_send p s : quietq (send_ping p s).
Proof. unfold send_ping. destruct (p_chosen _); [|apply nq_ub]. intros c m [I|[]]. discriminate I. Qed.
Ltac nqs := repeat first
  [ apply nq_check | apply nq_ub | apply nq_send
  | apply nq_say; reflexivity
  | apply nq_seq; [|intro]
  | match goal with |- quietq (match ?x with _ => _ end) => destruct x end
  | progress cbv zeta ].
Lemma nq_fin p s : quietq (finish_handshake p s).
Proof. unfold finish_handshake. nqs. Qed.
Ltac nqs2 := repeat first
  [ apply nq_check | apply nq_ub | apply nq_send | apply nq_fin
  | apply nq_say; reflexivity
  | apply nq_seq; [|intro]
  | match goal with |- quietq (match ?x with _ => _ end) => destruct x end
  | progress cbv zeta ].

Lemma nq_task g t s : addressees t = [] -> (forall id i m, t <> TSend id i m) -> (forall id l m, t <> TMulti id l m) -> quietq (task hash g t s).
Proof.
  intros A B C. destruct t; try (exfalso; eapply B; reflexivity); try (exfalso; eapply C; reflexivity); cbn [task].
  all: try (nqs2; fail).
  - destruct (find_by i (s_known s)); [|nqs2]. destruct (p_conn _); [|nqs2]. cbv zeta. apply nq_say. cbn. rewrite forallb_app. destruct (p_in _), (p_out _); reflexivity.
  - unfold ping_task. nqs2.
  - unfold pong_task. nqs2.
Qed.

Lemma nq_start g p s r : start_active_conn g p s = Some r -> quietq r.
Proof.
  unfold start_active_conn. destruct (g_ok g); [|discriminate]. intros E. match type of E with Some ?x = Some r => assert (X : r = x) by congruence; rewrite X; clear X E end. apply nq_seq; [apply nq_check|intros s1]. cbv zeta. apply nq_seq; [|intros s2; apply nq_check].
  apply nq_say. cbn. destruct (p_out _); reflexivity.
Qed.

(** The tasks that send messages. *)
Definition sends (t : dtask) : bool := match t with TSend _ _ _ | TMulti _ _ _ => true | _ => false end.

Lemma nq_step e s s' o' : step hash e s = Some (s', o') -> noq o' \/ exists g t q, e = EDisp g /\ s_q s = t :: q /\ sends t = true.
Proof.
  unfold step. destruct (s_halt s); [discriminate|]. destruct e as [t|g| |a k|a k|c g|c|c|p g|p]; intros E.
  - left. destruct (postable s t); [|discriminate]. injection E as <- <-. intros c m [].
  - destruct (s_q s) as [|t q] eqn:Q; [discriminate|]. destruct (sends t) eqn:ST; [right; eauto 10|left].
    pose proof (nq_task g t (w_q q s)) as N. destruct (task hash g t (w_q q s)) as [s1 o1]. injection E as <- <-. intros c m [I|I]; [discriminate I|].
    refine (N _ _ _ c m I); [destruct t; try discriminate ST; reflexivity|intros; intros ->; discriminate ST|intros; intros ->; discriminate ST].
  - left. destruct (s_uq s) as [|[p c b|p c a n i|a c] q]; [discriminate| | |]; injection E as <- <-; intros d m [I|[]]; discriminate I.
  - left. injection E as <- <-. intros c m [].
  - left. injection E as <- <-. intros c m [].
  - left. destruct (_ && _); [|discriminate]. injection E as E.
    assert (N : quietq (setup hash g c (onc c (k_flags (k_term (s_conn s c)) true (k_torn (s_conn s c))) s))) by (unfold setup, replace_pending_conn; nqs2). rewrite E in N. exact N.
  - left. destruct (_ && _); [|discriminate]. injection E as <- <-. intros d m [].
  - left. destruct (_ && _); [|discriminate]. injection E as E. assert (N : quietq (teardown c (onc c (k_flags true (k_set (s_conn s c)) true) s))) by (unfold teardown; nqs2). rewrite E in N. exact N.
  - left. destruct (_ && _); [|discriminate]. cbv zeta in E. destruct (start_active_conn g p (onp p (p_settimer true false) s)) as [r|] eqn:R; [|injection E as <- <-; intros c m [I|[]]; discriminate I].
    injection E as E. assert (N : quietq (r ;; fun s0 => say [] (onp p (p_settimer true true) s0))) by (apply nq_seq; [exact (nq_start _ _ _ _ R)|intros; apply nq_say; reflexivity]). rewrite E in N. exact N.
  - left. destruct (_ && _); [|discriminate]. destruct (p_pmok _) as [[]|]; injection E as E.
    + assert (N : quietq (send_ping p (reset_ping_timer p (onp p (fun x => p_sethb false (Some true) (p_pmok x) x) s)))) by apply nq_send. rewrite E in N. exact N.
    + subst o'. intros c m [].
    + subst o'. intros c m [I|[]]. discriminate I.
Qed.

(** What a sending task does. *)
Lemma send_step g t q s s' o' : WF s -> s_q s = t :: q -> sends t = true -> step hash (EDisp g) s = Some (s', o') -> s' = w_q q s /\ exists o1, o' = OExec t :: o1 /\
  forall x, In x o1 -> match x with OQueue c m => exists i, In i (addressees t) /\ is_conn s i c | OErr _ _ => True | _ => False end.
Proof.
  intros W Q ST E. unfold step in E. destruct (s_halt s); [discriminate|]. rewrite Q in E.
  destruct t as [id i|id i|id i a|id i n|i|i|c|id i m|id l m|c a n|c a n]; try discriminate ST; cbn [task] in E.
  - change (s_known (w_q q s)) with (s_known s) in E. destruct (find_by i (s_known s)) as [p|] eqn:F.
    + destruct (known_live _ _ _ W F) as (_ & _ & OK & _). destruct (ok_conn _ _ OK) as (u & EU & _). change (s_peer (w_q q s)) with (s_peer s) in E. rewrite EU in E. injection E as <- <-. split; [reflexivity|]. eexists. split; [reflexivity|].
      intros x I. destruct (g_write g u); destruct I as [<-|[]]; [|exact Logic.I]. exists i. split; [left; reflexivity|]. exists p. split; [apply find_by_In; exact F|exact EU].
    + injection E as <- <-. split; [reflexivity|]. eexists. split; [reflexivity|]. intros x [<-|[]]. exact Logic.I.
  - pose proof (multi_spec g l m (w_q q s) (wf_wq _ _ _ W Q)) as M. destruct (multi g l m (w_q q s)) as [o1 r]. destruct M as (M & _). injection E as <- <-. split; [reflexivity|]. eexists. split; [reflexivity|].
    intros x I. apply in_app_or in I. destruct I as [I|I].
    + destruct (M _ I) as (i & c & A & B & ->). exists i. split; [exact A|exact B].
    + destruct r as [[]|]; cbn in I; try (destruct I as [<-|[]]; exact Logic.I). destruct I.
Qed.

Record INV2 (s : st) (o : list obs) : Prop := mkINV2 {
  j_none : forall c, c < s_nc s -> k_cert (s_conn s c) = None -> mute s c /\ k_term (s_conn s c) = true /\ forall p q, p_conn (s_peer s p) = Some c -> p_conn (s_peer s q) = Some c -> p = q;
  j_pc : forall p c, p_conn (s_peer s p) = Some c -> k_cert (s_conn s c) = None \/ k_cert (s_conn s c) = Some (p_id (s_peer s p));
  j_it : forall c l m, In (c, l, m) (carried o) -> c < s_nc s /\ ((exists i, In i l /\ k_cert (s_conn s c) = Some i) \/ (k_cert (s_conn s c) = None /\ exists p, p_conn (s_peer s p) = Some c /\ In (p_id (s_peer s p)) l)) }.

Lemma carry_noq o x : noq o -> nomove o -> snd (fold_left carry o x) = snd x.
Proof.
  revert x. induction o as [|y o IH]; intros x N M; [reflexivity|]. cbn [fold_left]. rewrite IH; [|intros c m I; exact (N c m (or_intror I))|intros u c I; exact (M u c (or_intror I))].
  destruct y; try reflexivity; [exfalso; exact (N _ _ (or_introl eq_refl))|exfalso; exact (M _ _ (or_introl eq_refl))].
Qed.
Lemma carried_app o o' : carried (o ++ o') = snd (fold_left carry o' (fold_left carry o ([], []))).
Proof. unfold carried. rewrite fold_left_app. reflexivity. Qed.
Lemma carried_noq o o' : noq o' -> nomove o' -> carried (o ++ o') = carried o.
Proof. intros N M. rewrite carried_app. apply carry_noq; assumption. Qed.
Lemma carried_move o o1 u c : noq o1 -> nomove o1 -> carried (o ++ o1 ++ [OMove u c]) = map (fun z => if fst (fst z) =? u then (c, snd (fst z), snd z) else z) (carried o).
Proof. intros N M. rewrite carried_app, fold_left_app. cbn. rewrite (carry_noq o1 _ N M). reflexivity. Qed.
Lemma carried_send o t o1 : (forall x, In x o1 -> match x with OQueue _ _ | OErr _ _ => True | _ => False end) ->
  forall c l m, In (c, l, m) (carried (o ++ OExec t :: o1)) -> In (c, l, m) (carried o) \/ (l = addressees t /\ In (OQueue c m) o1).
Proof.
  intros H c l m. rewrite carried_app. cbn [fold_left]. fold (carried o).
  assert (G : forall x, In (c, l, m) (snd (fold_left carry o1 x)) -> In (c, l, m) (snd x) \/ (l = fst x /\ In (OQueue c m) o1)).
  { induction o1 as [|y o1 IH]; intros x I; [left; exact I|]. cbn [fold_left] in I. apply IH in I; [|intros z Z; apply H; right; exact Z].
    pose proof (H y (or_introl eq_refl)) as Y. destruct y; try contradiction; cbn in I.
    - destruct I as [I|(A & B)]; [left; exact I|right; split; [exact A|right; exact B]].
    - destruct I as [I|(A & B)]; [|right; split; [exact A|right; exact B]]. apply in_app_or in I. destruct I as [I|[I|[]]]; [left; exact I|]. injection I as <- <- <-. right. split; [reflexivity|left; reflexivity]. }
  intros I. apply G in I. exact I.
Qed.

(** The new connection, if any, has a certificate. *)
Lemma new_cert e s s' o' : leaf hash e s s' o' -> certified e -> (forall c, s_nc s <= c -> c < s_nc s' -> k_cert (s_conn s' c) <> None) \/ s_np s' = S (s_np s).
Proof.
  intros L C. destruct L;
    try match goal with G : get_nonce _ _ _ = Some _ |- _ => destruct (nonce_all _ _ _ _ _ G) as (G1 & G2 & G3 & G4 & G5); cbn [s_nc s_np s_conn s_uq s_peer onc onp w_conn w_q w_peer] in G1, G2, G3, G4 end.
  all: try (left; let x := fresh in intros x D1 D2; sel; cbn in D2; lia).
  all: try (right; reflexivity).
  - left. intros d D1 D2. cbn in D2. assert (d = s_nc s) by lia. subst d. sel. rewrite upd_same. exact C.
  - left. intros d D1 D2. cbn in D2. assert (d = s_nc s) by lia. subst d. sel. rewrite upd_same. exact C.
  - left. intros d D1 D2. cbn in D2. assert (d = s_nc s) by lia. subst d. sel. rewrite upd_same. exact C.
  - left. intros d D1 D2. unfold st_del, clear_peer_of in D2. destruct (p_out _), (p_in _); cbn in D2; lia.
  - left. intros d D1 D2. match goal with F : finished _ _ _ _ _ |- _ => destruct F as [F1 F2 F3 F4 F5 F6 F7 F8 F9] end. cbn in F3. lia.
  - left. intros d D1 D2. match goal with F : finished _ _ _ _ _ |- _ => destruct F as [F1 F2 F3 F4 F5 F6 F7 F8 F9] end. cbn in F3. lia.
Qed.

Lemma add_term e s s' o' : leaf hash e s s' o' -> s_np s' = S (s_np s) -> k_term (s_conn s' (s_nc s)) = true /\ True.
Proof.
  intros L. destruct L;
    try match goal with G : get_nonce _ _ _ = Some _ |- _ => destruct (nonce_all _ _ _ _ _ G) as (G1 & G2 & G3 & G4 & G5); cbn [s_nc s_np s_conn s_uq s_peer onc onp w_conn w_q w_peer] in G1, G2, G3, G4 end.
  all: try (let E := fresh in intros E; cbn in E; lia).
  all: try (match goal with F : finished _ _ _ _ _ |- _ => destruct F as [F1 F2 F3 F4 F5 F6 F7 F8 F9] end; cbn in F4; lia).
  - intros _. sel. rewrite upd_same. split; [reflexivity|exact I].
  - intros E. unfold st_del, clear_peer_of in E. destruct (p_out _), (p_in _); cbn in E; lia.
Qed.

Lemma INV2_leaf e s s' o o' : WF s -> INV s o -> INV2 s o -> leaf hash e s s' o' -> certified e -> noq o' -> INV2 s' (o ++ o').
Proof.
  intros W V V2 L C NQ. pose proof (still_leaf _ _ _ _ _ W L) as T. pose proof (kind_leaf _ _ _ _ _ W L) as K. pose proof (new_cert _ _ _ _ L C) as NCE.
  pose proof (t_nc _ _ _ T) as LNC. pose proof (t_np _ _ _ T) as LNP.
  assert (CE : forall c, c < s_nc s -> k_cert (s_conn s' c) = k_cert (s_conn s c)) by (intros c X; pose proof (t_at _ _ _ T c X) as Y; unfold attr in Y; congruence).
  assert (PCL : forall p c, p_conn (s_peer s p) = Some c -> p < s_np s /\ c < s_nc s) by (intros p c X; destruct (i_pc _ _ V _ _ X) as (A & B & _); auto).
  assert (ID : forall p c, p_conn (s_peer s p) = Some c -> p_id (s_peer s' p) = p_id (s_peer s p)) by (intros p c X; apply (t_id _ _ _ T); apply (PCL _ _ X)).
  assert (IT : same_conns s s' -> nomove o' -> forall c l m, In (c, l, m) (carried (o ++ o')) -> c < s_nc s' /\ ((exists i, In i l /\ k_cert (s_conn s' c) = Some i) \/ (k_cert (s_conn s' c) = None /\ exists p, p_conn (s_peer s' p) = Some c /\ In (p_id (s_peer s' p)) l))).
  { intros SC NM c l m I. rewrite (carried_noq _ _ NQ NM) in I. destruct (j_it _ _ V2 _ _ _ I) as (A & B). split; [lia|]. rewrite (CE _ A). destruct B as [B|(B1 & p & B2 & B3)]; [left; exact B|right]. split; [exact B1|]. exists p. rewrite SC, (ID _ _ B2). auto. }
  assert (JP : forall p c, p_conn (s_peer s p) = Some c -> k_cert (s_conn s' c) = None \/ k_cert (s_conn s' c) = Some (p_id (s_peer s' p))).
  { intros p c X. rewrite (CE c) by apply (PCL _ _ X). rewrite (ID _ _ X). apply (j_pc _ _ V2 _ _ X). }
  assert (JN : forall c, c < s_nc s -> k_cert (s_conn s' c) = None -> mute s' c /\ k_term (s_conn s' c) = true /\ forall p q, p_conn (s_peer s p) = Some c -> p_conn (s_peer s q) = Some c -> p = q).
  { intros c X Y. rewrite (CE _ X) in Y. destruct (j_none _ _ V2 _ X Y) as (A & B & D). split; [apply (t_mute _ _ _ T); auto|]. split; [apply (t_term _ _ _ T); auto|exact D]. }
  destruct K as [SC FW NW E1 NM|SC SK NW NWC E1 E2 NM|SC EA SK MU CEN NW E1 E2 NM|p c u L1 L2 EU EC SC FW KC SH RP UC (o1 & MV & NM) E1 KT].
  - constructor; [|intros p c X; rewrite SC in X; auto|exact (IT SC NM)]. intros c X Y. rewrite E1 in X. destruct (JN _ X Y) as (A & B & D). split; [exact A|]. split; [exact B|]. intros p q. rewrite !SC. apply D.
  - constructor; [|intros p c X; rewrite SC in X; auto|exact (IT SC NM)]. destruct NCE as [NCE|X]; [|lia].
    intros c X Y. destruct (Nat.lt_ge_cases c (s_nc s)) as [Z|Z]; [|exfalso; exact (NCE _ Z X Y)]. destruct (JN _ Z Y) as (A & B & D). split; [exact A|]. split; [exact B|]. intros p q. rewrite !SC. apply D.
  - assert (TM : k_term (s_conn s' (s_nc s)) = true) by (destruct (add_term _ _ _ _ L E1); assumption).
    constructor.
    + intros c X Y. destruct (Nat.eq_dec c (s_nc s)) as [->|N].
      * split; [exact MU|]. split; [exact TM|]. intros p q P Q.
        assert (Z : forall r, p_conn (s_peer s' r) = Some (s_nc s) -> r = s_np s). { intros r R. destruct (Nat.eq_dec r (s_np s)) as [->|N]; [reflexivity|]. rewrite (SC _ N) in R. destruct (PCL _ _ R). lia. }
        rewrite (Z _ P), (Z _ Q). reflexivity.
      * assert (Z : c < s_nc s) by lia. destruct (JN _ Z Y) as (A & B & D). split; [exact A|]. split; [exact B|]. intros p q P Q.
        destruct (Nat.eq_dec p (s_np s)) as [->|N1]; [congruence|]. destruct (Nat.eq_dec q (s_np s)) as [->|N2]; [congruence|]. rewrite (SC _ N1) in P. rewrite (SC _ N2) in Q. auto.
    + intros p c X. destruct (Nat.eq_dec p (s_np s)) as [->|N]; [left; congruence|]. rewrite (SC _ N) in X. auto.
    + intros c l m I. rewrite (carried_noq _ _ NQ NM) in I. destruct (j_it _ _ V2 _ _ _ I) as (A & B). split; [lia|]. rewrite (CE _ A). destruct B as [B|(B1 & p & B2 & B3)]; [left; exact B|right]. split; [exact B1|]. exists p. rewrite (ID _ _ B2). split; [|exact B3].
      rewrite SC; [exact B2|]. destruct (PCL _ _ B2). lia.
  - destruct (i_pc _ _ V _ _ EU) as (_ & LU & _).
    assert (CC : k_cert (s_conn s' c) = Some (p_id (s_peer s' p))).
    { specialize (SH o). unfold shows in SH. destruct (k_cert (s_conn s' c)) as [j|] eqn:Z; [congruence|]. rewrite (CE _ L2) in Z. destruct (j_none _ _ V2 _ L2 Z) as (_ & Y & _). congruence. }
    constructor.
    + intros d X Y. rewrite E1 in X. destruct (JN _ X Y) as (A & B & D). split; [exact A|]. split; [exact B|]. intros q r P Q.
      destruct (Nat.eq_dec q p) as [->|N1]; [congruence|]. destruct (Nat.eq_dec r p) as [->|N2]; [congruence|]. rewrite (SC _ N1) in P. rewrite (SC _ N2) in Q. auto.
    + intros q d X. destruct (Nat.eq_dec q p) as [->|N]; [right; congruence|]. rewrite (SC _ N) in X. auto.
    + intros d l m I. assert (NQ1 : noq o1) by (intros x y I1; apply (NQ x y); rewrite MV; apply in_or_app; left; exact I1). rewrite MV, (carried_move _ _ _ _ NQ1 NM) in I.
      apply in_map_iff in I. destruct I as ([[d0 l0] m0] & I1 & I2). cbn [fst snd] in I1. destruct (j_it _ _ V2 _ _ _ I2) as (A & B). destruct (Nat.eqb_spec d0 u) as [->|N].
      * injection I1 as <- <- <-. split; [lia|]. left. exists (p_id (s_peer s' p)). split; [|exact CC]. rewrite (ID _ _ EU).
        destruct B as [(i & B1 & B2)|(B1 & r & B2 & B3)].
        -- destruct (j_pc _ _ V2 _ _ EU) as [Z|Z]; congruence.
        -- destruct (j_none _ _ V2 _ A B1) as (_ & _ & Z). rewrite (Z _ _ EU B2). exact B3.
      * injection I1 as <- <- <-. split; [lia|]. rewrite (CE _ A). destruct B as [B|(B1 & r & B2 & B3)]; [left; exact B|right]. split; [exact B1|]. exists r. rewrite (ID _ _ B2). split; [|exact B3].
        rewrite SC; [exact B2|]. intros ->. congruence.
Qed.

Lemma INV2_eqv s s' o : eqv s s' -> INV2 s o -> INV2 s' o.
Proof.
  intros Q [V1 V2 V3]. constructor.
  - intros c. rewrite <- (q_nc _ _ Q), <- (q_conn _ _ Q). unfold mute. rewrite <- (q_conn _ _ Q). intros X Y. destruct (V1 _ X Y) as (A & B & D). split; [exact A|]. split; [exact B|]. intros p q. rewrite <- !(q_peer _ _ Q). apply D.
  - intros p c. rewrite <- (q_peer _ _ Q), <- (q_conn _ _ Q). apply V2.
  - intros c l m I. destruct (V3 _ _ _ I) as (A & B). rewrite <- (q_nc _ _ Q), <- (q_conn _ _ Q). split; [exact A|]. destruct B as [B|(B1 & r & B2 & B3)]; [left; exact B|right]. split; [exact B1|]. exists r. rewrite <- (q_peer _ _ Q). auto.
Qed.

Lemma INV2_step e s s' o o' : WF s -> INV s o -> INV2 s o -> step hash e s = Some (s', o') -> certified e -> INV2 s' (o ++ o').
Proof.
  intros W V V2 E C. destruct (nq_step _ _ _ _ E) as [NQ|(g & t & q & -> & Q & ST)].
  - destruct (step_leaf _ _ _ _ _ W E) as (_ & s1 & L & EQ). eapply INV2_eqv; [exact EQ|]. eapply INV2_leaf; eauto.
  - destruct (send_step _ _ _ _ _ _ W Q ST E) as (-> & o1 & -> & H). constructor.
    + exact (j_none _ _ V2).
    + exact (j_pc _ _ V2).
    + intros c l m I. apply carried_send in I; [|intros x X; specialize (H x X); destruct x; auto]. destruct I as [I|(-> & I)]; [exact (j_it _ _ V2 _ _ _ I)|].
      destruct (H _ I) as (i & A & p & B & D). destruct (w_kn _ W _ _ B) as (_ & F). destruct (i_pc _ _ V _ _ D) as (_ & G & _). split; [exact G|].
      change (s_conn (w_q q s)) with (s_conn s). change (s_peer (w_q q s)) with (s_peer s). destruct (j_pc _ _ V2 _ _ D) as [X|X]; [right|left].
      * split; [exact X|]. exists p. rewrite F. auto.
      * exists i. rewrite X, F. auto.
Qed.

Lemma INV2_run es s o : run hash es st0 = Some (s, o) -> Forall certified es -> INV2 s o.
Proof.
  assert (G : forall es s0 o0, WF s0 -> INV s0 o0 -> INV2 s0 o0 -> forall s o, run hash es s0 = Some (s, o) -> Forall certified es -> INV2 s (o0 ++ o)).
  { intros es1. induction es1 as [|e es1 IH]; intros s0 o0 W V V2 s1 o1 E F; cbn [run] in E; [injection E as <- <-; rewrite app_nil_r; exact V2|].
    destruct (step hash e s0) as [[s2 o2]|] eqn:E1; [|discriminate E]. destruct (run hash es1 s2) as [[s3 o3]|] eqn:E2; [|discriminate E]. injection E as <- <-.
    apply Forall_cons_iff in F. destruct F as (F1 & F2). rewrite app_assoc. apply (IH s2); auto.
    - exact (wf_step _ _ _ _ _ W E1).
    - destruct (step_leaf _ _ _ _ _ W E1) as (_ & s4 & L & EQ). eapply INV_eqv; [exact EQ|]. eapply INV_step; eauto; [eapply wf_leaf; eauto|eapply still_leaf; eauto|eapply kind_leaf; eauto].
    - eapply INV2_step; eauto. }
  intros E F. apply (G es st0 [] wf0); auto.
  - constructor; [intros p c [[]|[]]|intros p c X; discriminate X|intros c p X; discriminate X].
  - constructor; [intros c X; cbn in X; lia|intros p c X; discriminate X|intros c l m []].
Qed.
End P.

(** ** C135 *)

(** A peer is reported connected, by peer_cb(conn, true), only over a connection
    whose other end has shown the id of that peer. *)
Theorem C135_connected_as_itself : forall hash es s o p c, run hash es st0 = Some (s, o) -> In (OCb p c true) o -> shows hash s o c (p_id (s_peer s p)).
Proof. intros hash es s o p c E I. apply (i_cb _ _ _ (INV_run _ _ _ _ E) p c). left. exact I. Qed.
Print Assumptions C135_connected_as_itself.

(** get_peer_conn gives such a connection, or the placeholder of a peer that
    was not connected yet. *)
Theorem C135_conn_of_peer : forall hash es s o g i c q s' o', run hash es st0 = Some (s, o) -> s_q s = TGetConn i :: q -> step hash (EDisp g) s = Some (s', o') ->
  In (OConn i (Some c)) o' -> mute s c \/ shows hash s o c i.
Proof.
  intros hash es s o g i c q s' o' E Q S I. pose proof (wf_run _ _ _ _ E) as W. unfold step in S. destruct (s_halt s); [discriminate|]. rewrite Q in S. cbn [task] in S. change (s_known (w_q q s)) with (s_known s) in S. change (s_peer (w_q q s)) with (s_peer s) in S.
  destruct (find_by i (s_known s)) as [p|] eqn:F; injection S as <- <-; destruct I as [I|[I|[]]]; try discriminate I. injection I as I.
  destruct (known_live _ _ _ W F) as (_ & ID & _). destruct (i_pc _ _ _ (INV_run _ _ _ _ E) _ _ I) as (_ & _ & X). rewrite ID in X. exact X.
Qed.
Print Assumptions C135_conn_of_peer.

(** With certificates, a message given to send_msg or multicast_msg for some
    peers is only ever put in the queue of a connection whose certificate is of
    one of them, also when it waits for a reconnection, except that it may wait
    in the queue of a placeholder, from which nothing is sent. *)
Theorem C135_messages_to_addressee : forall hash es s o c l m, run hash es st0 = Some (s, o) -> Forall certified es -> In (c, l, m) (carried o) ->
  mute s c \/ exists i, In i l /\ k_cert (s_conn s c) = Some i.
Proof.
  intros hash es s o c l m E F I. pose proof (INV2_run _ _ _ _ E F) as V. destruct (j_it _ _ V _ _ _ I) as (A & [B|(B & _)]); [right; exact B|left]. apply (j_none _ _ V _ A B).
Qed.
Print Assumptions C135_messages_to_addressee.

(** A connection the network made itself to an end whose id is not registered is
    refused: the error is reported, it is ended and nothing is sent on it. *)
Theorem C135_stranger_dialled : forall hash es s o c g s' o', run hash es st0 = Some (s, o) -> k_mode (s_conn s c) = Active -> k_manual (s_conn s c) = false ->
  member (id_of hash (s_conn s c) (k_addr (s_conn s c))) (execs o) = false -> step hash (ESetup c g) s = Some (s', o') -> o' = [OErr None NotMatch; OKill c].
Proof.
  intros hash es s o c g s' o' E M N X S. pose proof (known_member _ _ _ _ (id_of hash (s_conn s c) (k_addr (s_conn s c))) E) as K.
  unfold step in S. destruct (s_halt s); [discriminate|]. destruct (_ && _); [|discriminate]. injection S as S. unfold setup in S. cbn [s_conn onc w_conn s_known] in S. rewrite upd_same in S. cbn [k_mode k_flags k_addr k_manual] in S. rewrite M in S.
  change (ident hash (k_flags (k_term (s_conn s c)) true (k_torn (s_conn s c)) (s_conn s c)) (k_addr (s_conn s c))) with (id_of hash (s_conn s c) (k_addr (s_conn s c))) in S.
  destruct (find_by (id_of hash (s_conn s c) (k_addr (s_conn s c))) (s_known s)); [destruct K; congruence|]. rewrite N in S. injection S as _ <-. reflexivity.
Qed.
Print Assumptions C135_stranger_dialled.

(** An accepted connection whose other end, in its ping, is someone not
    registered is ended, and reported to the unknown-peer callback. *)
Theorem C135_stranger_accepted : forall hash es s o c a n q g s' o', run hash es st0 = Some (s, o) -> s_q s = TPing (Some c) a n :: q -> k_mode (s_conn s c) = Passive -> k_term (s_conn s c) = false -> a <> 0%N ->
  member (id_of hash (s_conn s c) a) (execs o) = false -> step hash (EDisp g) s = Some (s', o') -> o' = [OExec (TPing (Some c) a n); OKill c] /\ s_uq s' = s_uq s ++ [UUnknown a c] /\ s_peer s' = s_peer s.
Proof.
  intros hash es s o c a n q g s' o' E Q M KT A X S. pose proof (known_member _ _ _ _ (id_of hash (s_conn s c) a) E) as K.
  unfold step in S. destruct (s_halt s); [discriminate|]. rewrite Q in S. cbn [task] in S. unfold ping_task in S. cbn [s_conn w_q s_known] in S. apply N.eqb_neq in A. rewrite KT, A, M in S.
  change (ident hash (s_conn s c) a) with (id_of hash (s_conn s c) a) in S. destruct (find_by (id_of hash (s_conn s c) a) (s_known s)); [destruct K; congruence|]. injection S as <- <-. auto.
Qed.
Print Assumptions C135_stranger_accepted.

(** So is a connection the network made itself, if the peer was removed before
    the answer to the ping is handled. *)
Theorem C135_stranger_answers : forall hash es s o c a n q g s' o', run hash es st0 = Some (s, o) -> s_q s = TPong c a n :: q -> k_mode (s_conn s c) = Active -> k_term (s_conn s c) = false -> a <> 0%N ->
  member (id_of hash (s_conn s c) (k_addr (s_conn s c))) (execs o) = false -> step hash (EDisp g) s = Some (s', o') -> o' = [OExec (TPong c a n); OKill c] /\ s_uq s' = s_uq s /\ s_peer s' = s_peer s.
Proof.
  intros hash es s o c a n q g s' o' E Q M KT A X S. pose proof (known_member _ _ _ _ (id_of hash (s_conn s c) (k_addr (s_conn s c))) E) as K.
  unfold step in S. destruct (s_halt s); [discriminate|]. rewrite Q in S. cbn [task] in S. unfold pong_task in S. cbn [s_conn w_q s_known] in S. apply N.eqb_neq in A. rewrite KT, A, M in S.
  change (ident hash (s_conn s c) (k_addr (s_conn s c))) with (id_of hash (s_conn s c) (k_addr (s_conn s c))) in S. destruct (find_by (id_of hash (s_conn s c) (k_addr (s_conn s c))) (s_known s)); [destruct K; congruence|]. injection S as <- <-. auto.
Qed.
Print Assumptions C135_stranger_answers.

(** del_peer of peer 5 while its answer is on the way. *)
Definition c135_late : list ev :=
  [EPost (TAdd 0 5); EPost (TSetAddr 2 5 100); EPost (TConn 3 5 (-1)%Z); EDisp (mkEnv (Some 9) true None (fun _ => true)); EDisp (mkEnv (Some 9) true None (fun _ => true)); EDisp (mkEnv (Some 9) true None (fun _ => true));
   ERetry 0%nat (mkEnv (Some 9) true (Some 5) (fun _ => true)); ESetup 1%nat (mkEnv (Some 9) true None (fun _ => true)); EPost (TDel 4 5); EPost (TPong 1%nat 100 65535); EDisp (mkEnv (Some 9) true None (fun _ => true))]%N.
Example C135_stranger_answers_nonvacuous : exists s o, run (fun a => a) c135_late st0 = Some (s, o) /\ s_q s = [TPong 1 100%N 65535%N] /\ k_mode (s_conn s 1) = Active /\ k_term (s_conn s 1) = false /\
  member (id_of (fun a => a) (s_conn s 1) (k_addr (s_conn s 1))) (execs o) = false /\ step (fun a => a) (EDisp (mkEnv None true None (fun _ => true))) s <> None.
Proof.
  destruct (run (fun a => a) c135_late st0) as [[s o]|] eqn:E; [|vm_compute in E; discriminate E]. exists s, o. split; [reflexivity|].
  vm_compute in E. injection E as <- <-. repeat split; vm_compute; congruence.
Qed.

(** get_peer_id of a connection: the id it has shown, once the peer was reported
    connected over it, and always if it was accepted.  A connection the network
    made itself, before that, is given the id of the peer it was dialled for. *)
Theorem C135_get_peer_id_partial : forall hash es s o g q c s' o' i, run hash es st0 = Some (s, o) -> s_q s = TPeer c :: q -> step hash (EDisp g) s = Some (s', o') -> In (OId c (Some i)) o' ->
  mute s c \/ shows hash s o c i \/ (k_mode (s_conn s c) = Active /\ In (ODial i c (k_addr (s_conn s c))) o /\ forall p, ~ In (OCb p c true) o).
Proof.
  intros hash es s o g q c s' o' i E Q S I. unfold step in S. destruct (s_halt s); [discriminate|]. rewrite Q in S. cbn [task] in S. change (s_conn (w_q q s)) with (s_conn s) in S. change (s_peer (w_q q s)) with (s_peer s) in S.
  destruct (k_peer (s_conn s c)) as [p|] eqn:F; [|injection S as <- <-; destruct I as [I|[I|[]]]; discriminate I].
  destruct (p_live (s_peer s p)); injection S as <- <-; destruct I as [I|[I|[]]]; try discriminate I. injection I as <-.
  destruct (i_kp _ _ _ (INV_run _ _ _ _ E) _ _ F) as [X|[X|(X1 & X2 & X3 & X4)]]; [auto|auto|]. right. right. split; [exact X1|]. split; [exact X4|]. intros r R. exact (X3 r (or_introl R)).
Qed.
Print Assumptions C135_get_peer_id_partial.

(** Two registered peers, 5 at address 100 and 7; the connection dialled for 5
    is answered by 7, with its own certificate.  It is set up, and get_peer_id
    says 5. *)
Definition c135_g (k : option pid) : env := mkEnv (Some 9%N) true k (fun _ => true).
Definition c135_bad : list ev :=
  [EPost (TAdd 0 5); EPost (TAdd 1 7); EPost (TSetAddr 2 5 100); EPost (TConn 3 5 (-1)%Z); EDisp (c135_g None); EDisp (c135_g None); EDisp (c135_g None); EDisp (c135_g None);
   ERetry 0%nat (c135_g (Some 7%N)); ESetup 2%nat (c135_g None); EPost (TPeer 2%nat)]%N.
Theorem C135_get_peer_id_refuted : exists es s o g q c s' o' i j, run (fun a => a) es st0 = Some (s, o) /\ Forall certified es /\ s_q s = TPeer c :: q /\ step (fun a => a) (EDisp g) s = Some (s', o') /\
  k_set (s_conn s c) = true /\ k_term (s_conn s c) = false /\ ~ In (OKill c) o /\ In (OId c (Some i)) o' /\ k_cert (s_conn s c) = Some j /\ i <> j.
Proof.
  destruct (run (fun a => a) c135_bad st0) as [[s o]|] eqn:E; [|vm_compute in E; discriminate E].
  destruct (step (fun a => a) (EDisp (c135_g None)) s) as [[s' o']|] eqn:S.
  2:{ exfalso. vm_compute in E. injection E as <- <-. vm_compute in S. discriminate S. }
  exists c135_bad, s, o, (c135_g None), [], 2, s', o', 5%N, 7%N. split; [exact E|]. split; [repeat constructor; discriminate|].
  vm_compute in E. injection E as <- <-. vm_compute in S. injection S as <- <-.
  split; [reflexivity|]. split; [reflexivity|]. split; [reflexivity|]. split; [reflexivity|]. split; [cbn; intuition discriminate|]. split; [right; left; reflexivity|]. split; [reflexivity|discriminate].
Qed.
Print Assumptions C135_get_peer_id_refuted.

(** The same node, answered by 5: a message sent before goes to the placeholder and then to
    the connection that has shown 5; an accepted stranger, 9, is refused. *)
Definition c135_es : list ev :=
  [EPost (TAdd 0 5); EPost (TSetAddr 2 5 100); EPost (TConn 3 5 (-1)%Z); EPost (TSend 4 5 33); EDisp (c135_g None); EDisp (c135_g None); EDisp (c135_g None); EDisp (c135_g None);
   ERetry 0%nat (c135_g (Some 5%N)); ESetup 1%nat (c135_g None); EPost (TPong 1%nat 100 65535); EDisp (c135_g None); EUser; EPost (TSend 5 5 34); EDisp (c135_g None);
   EAccept 200 (Some 9%N); ESetup 2%nat (c135_g None); EPost (TPing (Some 2%nat) 300 4); EDisp (c135_g None); EUser]%N.
Example C135_nonvacuous : exists s o, run (fun a => a) c135_es st0 = Some (s, o) /\ Forall certified c135_es /\ In (OCb 0 1 true) o /\ carried o = [(1%nat, [5], 33); (1%nat, [5], 34)]%N /\
  k_cert (s_conn s 1) = Some 5%N /\ In (OUnknown 300%N 2) o /\ In (OKill 2) o /\ ~ In (OKill 1) o.
Proof.
  destruct (run (fun a => a) c135_es st0) as [[s o]|] eqn:E; [|vm_compute in E; discriminate E]. exists s, o. split; [reflexivity|]. split; [repeat constructor; discriminate|].
  vm_compute in E. injection E as <- <-. split; [cbn; intuition|]. split; [reflexivity|]. split; [reflexivity|]. split; [cbn; intuition|]. split; [cbn; intuition|]. cbn; intuition discriminate.
Qed.

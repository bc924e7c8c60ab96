(** When peers are dialled (C138). *)
From Coq Require Import Arith NArith ZArith List Bool Lia.
From Verif Require Import PeerModel PeerInv PeerStep PeerRegProps PeerRetryProps RetryModel.
Import ListNotations.

(** ** Specification *)

(** The retry delay of the last conn_peer of i that did not fail (compare [order]). *)
Definition delay_step (D : N -> nat) (i : pid) (x : (addr * bool) * nat) (t : dtask) : (addr * bool) * nat :=
  let '(ab, d) := x in
  (addr_step i ab t,
   match t with
   | TConn id j _ => if (j =? i)%N && snd ab && negb (fst ab =? 0)%N then D id else d
   | TDel _ j => if (j =? i)%N then 0 else d
   | _ => d
   end).
Definition delay (D : N -> nat) (i : pid) (ts : list dtask) : nat := snd (fold_left (delay_step D i) ts ((0%N, false), 0)).

(** The time of the last dial of i, None if conn_peer or del_peer of i was executed after it. *)
Definition since_step (i : pid) (x : option nat) (y : nat * obs) : option nat :=
  match snd y with
  | ODial j _ _ => if (j =? i)%N then Some (fst y) else x
  | OExec (TConn _ j _) | OExec (TDel _ j) => if (j =? i)%N then None else x
  | _ => x
  end.
Definition since (i : pid) (o : list (nat * obs)) : option nat := fold_left (since_step i) o None.

(** The dispatcher is at most L behind: no timer is due for longer. *)
Definition prompt (L : nat) (T : tst) : Prop := forall p t, t_dl T p = Some t -> t_now T <= t + L.

(** Nothing happens to i that starts or stops attempts: no attempt, no call of
    conn_peer or del_peer executed, no connection of it ends. *)
Definition calm (i : pid) (p : nat) (v : tev) (T : tst) : Prop :=
  match v with
  | Do (ERetry q _) _ _ => q <> p
  | Do (ETear c) _ _ => k_peer (s_conn (t_s T) c) <> Some p
  | Do (EDisp _) _ _ => match s_q (t_s T) with TConn _ j _ :: _ | TDel _ j :: _ => j <> i | _ => True end
  | _ => True
  end.

(** The events without the times. *)
Definition untime (vs : list tev) : list ev := flat_map (fun v => match v with Do e _ _ => [e] | Tick _ => [] end) vs.

(** ** Proofs *)

Lemma delay_fst D i ts : fst (fold_left (delay_step D i) ts ((0%N, false), 0)) = both i ts.
Proof.
  induction ts as [|t ts IH] using rev_ind; [reflexivity|]. rewrite fold_left_app. cbn [fold_left]. rewrite both_snoc, <- IH.
  destruct (fold_left _ ts _) as [ab n]. reflexivity.
Qed.
Lemma delay_snoc D i ts t : delay D i (ts ++ [t]) = snd (delay_step D i (both i ts, delay D i ts) t).
Proof.
  unfold delay at 1. rewrite fold_left_app. cbn [fold_left]. f_equal. rewrite <- (delay_fst D). unfold delay. destruct (fold_left _ ts _); reflexivity.
Qed.

Section R.
Variable hash : addr -> pid.
Variable D : N -> nat.
Variable G : nat.

Notation tstep := (tstep hash D G).
Notation trun := (trun hash D G).
Notation talong := (talong hash D G).

Lemma step_inv e x y T T' o' : tstep (Do e x y) T = Some (T', o') -> exists ob,
  step hash e (t_s T) = Some (t_s T', ob) /\ o' = map (pair (t_now T)) ob /\ t_now T' = t_now T /\ t_pace T' = paces D e (t_s T) (t_pace T) /\
  (forall p g, e = ERetry p g -> exists t, t_dl T p = Some t /\ t <= t_now T) /\
  (forall q, p_ton (s_peer (t_s T') q) = false -> t_dl T' q = None) /\
  (forall q, p_ton (s_peer (t_s T') q) = true -> (forall b, starts e (t_s T) (t_s T') <> Some (q, b)) -> t_dl T' q = t_dl T q) /\
  (forall q, p_ton (s_peer (t_s T') q) = true -> starts e (t_s T) (t_s T') = Some (q, false) -> t_dl T' q = Some (t_now T)) /\
  (forall q, p_ton (s_peer (t_s T') q) = true -> starts e (t_s T) (t_s T') = Some (q, true) ->
     t_pace T' q <= x <= t_pace T' q + t_pace T' q / 2 /\ y <= G /\ t_dl T' q = Some (t_now T + x - y)).
Proof.
  cbn [RetryModel.tstep]. intros E. destruct (match e with ERetry p _ => _ | _ => true end) eqn:GU; [|discriminate E].
  destruct (step hash e (t_s T)) as [[s' ob]|] eqn:S; [|discriminate E].
  assert (A : exists dl, T' = mkT s' (t_now T) (fun q => if p_ton (s_peer s' q) then dl q else None) (paces D e (t_s T) (t_pace T)) /\ o' = map (pair (t_now T)) ob /\
    match starts e (t_s T) s' with None => dl = t_dl T | Some (p, false) => dl = upd (t_dl T) p (Some (t_now T))
    | Some (p, true) => dl = upd (t_dl T) p (Some (t_now T + x - y)) /\ drawn (paces D e (t_s T) (t_pace T) p) x = true /\ y <= G end).
  { destruct (starts e (t_s T) s') as [[p []]|] eqn:ST.
    - destruct (drawn _ x) eqn:DR; [|discriminate E]. destruct (y <=? G) eqn:Y; [|discriminate E]. cbn [andb] in E. injection E as <- <-. eexists; split; [reflexivity|]. split; [reflexivity|]. apply Nat.leb_le in Y. auto.
    - injection E as <- <-. eauto.
    - injection E as <- <-. eauto. }
  clear E. destruct A as (dl & -> & -> & A). exists ob. cbn [t_s t_now t_dl t_pace]. split; [reflexivity|]. split; [reflexivity|]. split; [reflexivity|]. split; [reflexivity|]. split; [|split; [|split; [|split]]].
  - intros p g ->. destruct (t_dl T p) as [t|]; [|discriminate GU]. apply Nat.leb_le in GU. eauto.
  - intros q ->. reflexivity.
  - intros q -> N. destruct (starts e (t_s T) s') as [[p b]|]; [|subst; reflexivity]. assert (q <> p) by (intros ->; exact (N b eq_refl)).
    destruct b; [destruct A as (-> & _)|subst dl]; apply upd_other; assumption.
  - intros q -> ST. rewrite ST in A. subst dl. apply upd_same.
  - intros q -> ST. rewrite ST in A. destruct A as (-> & DR & Y). unfold drawn in DR. apply andb_prop in DR. destruct DR as (D1 & D2). apply Nat.leb_le in D1, D2. rewrite upd_same. auto.
Qed.

Lemma trun_app vs1 vs2 T : trun (vs1 ++ vs2) T = match trun vs1 T with None => None | Some (T1, o1) => match trun vs2 T1 with None => None | Some (T2, o2) => Some (T2, o1 ++ o2) end end.
Proof.
  revert T. induction vs1 as [|v vs IH]; intros T; cbn [app RetryModel.trun].
  - destruct (trun vs2 T) as [[? ?]|]; reflexivity.
  - destruct (tstep v T) as [[T1 o1]|]; [|reflexivity]. rewrite IH. destruct (trun vs T1) as [[T2 o2]|]; [|reflexivity].
    destruct (trun vs2 T2) as [[T3 o3]|]; [|reflexivity]. rewrite app_assoc. reflexivity.
Qed.

Lemma map_pair {A} (n : nat) (l : list A) : map snd (map (pair n) l) = l.
Proof. rewrite map_map. apply map_id. Qed.

(** A timed run is a run. *)
Lemma trun_run vs T T' o : trun vs T = Some (T', o) -> run hash (untime vs) (t_s T) = Some (t_s T', map snd o).
Proof.
  revert T o. induction vs as [|v vs IH]; intros T o E; cbn [RetryModel.trun] in E; [injection E as <- <-; reflexivity|].
  destruct (tstep v T) as [[T1 o1]|] eqn:S; [|discriminate E]. destruct (trun vs T1) as [[T2 o2]|] eqn:R; [|discriminate E]. injection E as <- <-. specialize (IH _ _ R).
  destruct v as [k|e x y].
  - cbn in S. injection S as <- <-. exact IH.
  - apply step_inv in S. destruct S as (ob & S & -> & _). cbn [untime flat_map app run]. rewrite S. fold (untime vs). rewrite IH, map_app, map_pair. reflexivity.
Qed.

Lemma trun_inv (P : tst -> list (nat * obs) -> Prop) : P tst0 [] ->
  (forall T o k, P T o -> P (mkT (t_s T) (t_now T + k) (t_dl T) (t_pace T)) o) ->
  (forall es T o e x y T' o', run hash es st0 = Some (t_s T, map snd o) -> P T o -> tstep (Do e x y) T = Some (T', o') -> P T' (o ++ o')) ->
  forall vs T o, trun vs tst0 = Some (T, o) -> P T o.
Proof.
  intros H0 HT HS vs. induction vs as [|v vs IH] using rev_ind; intros T o E; [injection E as <- <-; exact H0|].
  rewrite trun_app in E. destruct (trun vs tst0) as [[T1 o1]|] eqn:E1; [|discriminate E]. cbn [RetryModel.trun] in E.
  destruct (tstep v T1) as [[T2 o2]|] eqn:S; [|discriminate E]. injection E as <- <-. rewrite app_nil_r. specialize (IH _ _ eq_refl).
  destruct v as [k|e x y].
  - cbn in S. injection S as <- <-. rewrite app_nil_r. apply HT. exact IH.
  - eapply HS; [exact (trun_run _ _ _ _ E1)|exact IH|exact S].
Qed.

(** *** What starts and stops timers *)

Lemma ton_nonce g p s s' n q : get_nonce g p s = Some (s', n) -> p_ton (s_peer s' q) = p_ton (s_peer s q) /\ p_state (s_peer s' q) = p_state (s_peer s q).
Proof.
  intros E. apply get_nonce_spec in E. destruct E as (-> & _). destruct (p_nonce (s_peer s p) =? 0)%N; [|auto]. sel. unfold upd. destruct (Nat.eqb_spec q p); [subst|]; auto.
Qed.
Lemma ton_fin p c u s s' q : finished p c u s s' -> (p_ton (s_peer s' q) = true -> q <> p /\ p_ton (s_peer s q) = true) /\ (q <> p -> s_peer s' q = s_peer s q) /\ p_state (s_peer s' p) = Connected.
Proof. intros F. rewrite !(f_peer _ _ _ _ _ F), Nat.eqb_refl. destruct (Nat.eqb_spec q p); [subst; cbn; split; [discriminate|]; split; [congruence|reflexivity]|auto]. Qed.

Lemma st_del_peer i p c s q : q <> p -> s_peer (st_del i p c s) q = s_peer s q.
Proof. intros NE. unfold st_del. sel. rewrite upd_other by exact NE. destruct (p_out (s_peer s p)), (p_in (s_peer s p)); reflexivity. Qed.

Ltac upds := unfold upd; match goal with |- context [?a =? ?b] => destruct (Nat.eqb_spec a b); subst end.

(** A timer that runs was running or has been started. *)
Lemma ton_leaf e s s' o q : WF s -> leaf hash e s s' o -> p_ton (s_peer s' q) = true -> p_ton (s_peer s q) = true \/ exists b, starts e s s' = Some (q, b).
Proof.
  intros W L. destruct L; cbn [starts]; try solve [sel; auto]; try solve [sel; upds; cbn; auto].
  - (* setup nonce *) rewrite (proj1 (ton_nonce _ _ _ _ _ q H4)). auto.
  - (* pre *) sel. upds; [|auto]. unfold x_unpre, x_end. destruct (p_state (s_peer s p)); cbn; auto.
  - (* lost *) rewrite H2, H4, H5. replace (match k_mode (s_conn s c) with Active => true | Passive => false end && k_manual (s_conn s c)) with false
      by (destruct (k_mode (s_conn s c)), (k_manual (s_conn s c)); auto; exfalso; apply H3; auto).
    sel. upds; [|auto]. rewrite Nat.eqb_refl. unfold x_lost. cbn [p_cur]. set (z := x_cur _). destruct (z =? 0)%Z eqn:Z; cbn [orb negb].
    + intros T. left. unfold x_end in T. destruct (p_state (s_peer s p)); exact T.
    + intros _. right. cbn. rewrite Z. eauto.
  - (* add *) sel. upds; [discriminate|auto].
  - (* del *) destruct (Nat.eq_dec q p) as [->|NE]; [unfold st_del; sel; rewrite upd_same; discriminate|]. rewrite st_del_peer by exact NE. auto.
  - (* conn *) rewrite H, H0. sel. upds; [|auto]. destruct (N.eqb_spec (p_addr (s_peer s p)) 0); [congruence|]. destruct (n =? 0)%Z; [discriminate|]. unfold isdisc. rewrite H2. intros _. right. eexists; reflexivity.
  - sel. upds; [discriminate|auto].
  - sel. upds; [discriminate|auto].
  - (* ping refused *) sel. pose proof (ton_nonce _ _ _ _ _ q H7) as (A & _). upds; [|rewrite A; auto]. cbn. rewrite A. auto.
  - intros T. apply (ton_fin _ _ _ _ _ q H11) in T. destruct T as (NE & T). revert T. sel. rewrite !upd_other by exact NE. rewrite (proj1 (ton_nonce _ _ _ _ _ q H7)). auto.
  - sel. rewrite (proj1 (ton_nonce _ _ _ _ _ q H7)). sel. upds; cbn; auto.
  - intros T. apply (ton_fin _ _ _ _ _ q H11) in T. destruct T as (NE & T). revert T. unfold reset_ping_timer. sel. rewrite !upd_other by exact NE. rewrite (proj1 (ton_nonce _ _ _ _ _ q H7)). sel. rewrite upd_other by exact NE. auto.
Qed.

(** If nothing happens to i, its timer goes on unless it is connected. *)
Lemma calm_starts e s s' i p x y T b : WF s -> find_by i (s_known s) = Some p -> t_s T = s -> calm i p (Do e x y) T -> starts e s s' <> Some (p, b).
Proof.
  intros W F TE Q. unfold calm in Q. rewrite TE in Q. clear T TE. destruct e; cbn [starts]; try discriminate.
  - destruct (s_q s) as [|[] l]; try discriminate. destruct (find_by i0 (s_known s)) as [r|] eqn:F2; [|discriminate]. destruct (_ || _); [discriminate|]. intros E. injection E as -> <-.
    apply Q. rewrite <- (proj1 (proj2 (known_live _ _ _ W F))), <- (proj1 (proj2 (known_live _ _ _ W F2))). reflexivity.
  - destruct (k_peer (s_conn s c)); [|discriminate]. destruct (_ || _); congruence.
  - destruct (g_ok g); congruence.
Qed.

Lemma other s i j p q : WF s -> find_by i (s_known s) = Some p -> find_by j (s_known s) = Some q -> j <> i -> p <> q.
Proof. intros W F1 F2 NE ->. apply NE. rewrite <- (proj1 (proj2 (known_live _ _ _ W F1))), <- (proj1 (proj2 (known_live _ _ _ W F2))). reflexivity. Qed.

Definition goes (s s' : st) (i : pid) (p : nat) : Prop :=
  find_by i (s_known s') = Some p /\ (p_state (s_peer s p) <> Disconnected -> p_state (s_peer s' p) <> Disconnected) /\
  (p_ton (s_peer s p) = true -> p_ton (s_peer s' p) = true \/ p_state (s_peer s' p) <> Disconnected).
Lemma goes_same s s' i p : find_by i (s_known s) = Some p -> s_known s' = s_known s -> p_state (s_peer s' p) = p_state (s_peer s p) -> p_ton (s_peer s' p) = p_ton (s_peer s p) -> goes s s' i p.
Proof. intros F A B C. unfold goes. rewrite A, B, C. auto. Qed.

Lemma calm_leaf e s s' o i p x y T : WF s -> leaf hash e s s' o -> find_by i (s_known s) = Some p -> t_s T = s -> calm i p (Do e x y) T -> goes s s' i p.
Proof.
  intros W L F TE Q. unfold calm in Q. rewrite TE in Q. clear T TE.
  destruct L; try solve [apply goes_same; [exact F|reflexivity|reflexivity|reflexivity]];
   try solve [apply goes_same; [exact F|reflexivity|sel; upds; [reflexivity|reflexivity]|sel; upds; [reflexivity|reflexivity]]].
  - apply goes_same; [exact F|exact (proj1 (nonce_keep _ _ _ _ _ H4))|exact (proj2 (ton_nonce _ _ _ _ _ p H4))|exact (proj1 (ton_nonce _ _ _ _ _ p H4))].
  - assert (p <> p0) by congruence. apply goes_same; [exact F|reflexivity| |]; sel; rewrite upd_other by assumption; reflexivity.
  - assert (p <> p0) by congruence. apply goes_same; [exact F|reflexivity| |]; sel; rewrite upd_other by assumption; reflexivity.
  - apply goes_same; [exact F|reflexivity| |]; sel; rewrite upd_other by auto; reflexivity.
  - apply goes_same; [exact F|reflexivity| |]; sel; rewrite upd_other by auto; reflexivity.
  - (* add *) pose proof (known_live _ _ _ W F) as (_ & _ & _ & LT). unfold goes. sel. rewrite !upd_other by lia. split; [|auto].
    unfold find_by. cbn [find fst]. destruct (N.eqb_spec i0 i) as [->|_]; [congruence|exact F].
  - (* del *) rewrite H in Q. assert (NE : p <> p0) by (apply (other s i i0); assumption). unfold goes. rewrite st_del_peer by exact NE. split; [|auto].
    assert (KN : s_known (st_del i0 p0 c (w_q q s)) = drop_by i0 (s_known s)) by (unfold st_del; sel; reflexivity). rewrite KN.
    apply In_find_by; [apply drop_by_NoDup; exact (w_keys _ W)|]. apply drop_by_In. split; [apply find_by_In; exact F|congruence].
  - rewrite H in Q. assert (NE : p <> p0) by (apply (other s i i0); assumption). apply goes_same; [exact F|reflexivity| |]; sel; rewrite upd_other by exact NE; reflexivity.
  - rewrite H in Q. assert (NE : p <> p0) by (apply (other s i i0); assumption). apply goes_same; [exact F|reflexivity| |]; sel; rewrite upd_other by exact NE; reflexivity.
  - rewrite H in Q. assert (NE : p <> p0) by (apply (other s i i0); assumption). apply goes_same; [exact F|reflexivity| |]; sel; rewrite upd_other by exact NE; reflexivity.
  - pose proof (ton_nonce _ _ _ _ _ p H7) as (A & B). apply goes_same; [exact F|exact (proj1 (nonce_keep _ _ _ _ _ H7))| |]; sel; upds; cbn; assumption.
  - pose proof (ton_nonce _ _ _ _ _ p H7) as (A & B). destruct (ton_fin _ _ _ _ _ p H11) as (_ & X & Y). 
    unfold goes. rewrite (f_known _ _ _ _ _ H11). split; [sel; rewrite (proj1 (nonce_keep _ _ _ _ _ H7)); exact F|].
    destruct (Nat.eq_dec p p0) as [->|NE]; [rewrite Y; split; [discriminate|]; right; discriminate|]. rewrite (X NE). sel. rewrite !upd_other by exact NE. rewrite A, B. auto.
  - pose proof (ton_nonce _ _ _ _ _ p H7) as (A & B). apply goes_same; [exact F|rewrite (proj1 (nonce_keep _ _ _ _ _ H7)); reflexivity|rewrite B|rewrite A]; sel; upds; reflexivity.
  - pose proof (ton_nonce _ _ _ _ _ p H7) as (A & B). destruct (ton_fin _ _ _ _ _ p H11) as (_ & X & Y).
    unfold goes. rewrite (f_known _ _ _ _ _ H11). split; [unfold reset_ping_timer; sel; rewrite (proj1 (nonce_keep _ _ _ _ _ H7)); exact F|].
    destruct (Nat.eq_dec p p0) as [->|NE]; [rewrite Y; split; [discriminate|]; right; discriminate|]. rewrite (X NE). unfold reset_ping_timer. sel. rewrite !upd_other by exact NE. rewrite A, B. sel. rewrite upd_other by exact NE. auto.
Qed.

Lemma calm_step e x y T T' o i p : WF (t_s T) -> tstep (Do e x y) T = Some (T', o) -> find_by i (s_known (t_s T)) = Some p -> calm i p (Do e x y) T ->
  goes (t_s T) (t_s T') i p /\ (p_ton (s_peer (t_s T') p) = true -> t_dl T' p = t_dl T p).
Proof.
  intros W E F Q. apply step_inv in E. destruct E as (ob & S & _ & _ & _ & _ & _ & K & _). destruct (step_leaf _ _ _ _ _ W S) as (_ & s1 & L & EQ). split.
  - destruct (calm_leaf _ _ _ _ _ _ x y T W L F eq_refl Q) as (A & B & C). unfold goes. rewrite <- (q_known _ _ EQ), <- (q_peer _ _ EQ). auto.
  - intros TN. apply K; [exact TN|]. intros b. exact (calm_starts _ _ _ _ _ _ _ T b W F eq_refl Q).
Qed.

(** A started timer is met, if the dispatcher is prompt. *)
Lemma held i p t L vs : forall T T' o, WF (t_s T) -> trun vs T = Some (T', o) -> talong (calm i p) vs T -> find_by i (s_known (t_s T)) = Some p ->
  (p_ton (s_peer (t_s T) p) = true /\ t_dl T p = Some t \/ p_state (s_peer (t_s T) p) <> Disconnected) -> prompt L T' ->
  p_state (s_peer (t_s T') p) <> Disconnected \/ t_now T' <= t + L.
Proof.
  induction vs as [|v vs IH]; intros T T' o W E A F H P; cbn [RetryModel.trun] in E.
  - injection E as <- <-. destruct H as [(_ & H)|H]; [right; exact (P _ _ H)|left; exact H].
  - destruct (tstep v T) as [[T1 o1]|] eqn:S; [|discriminate E]. destruct (trun vs T1) as [[T2 o2]|] eqn:R; [|discriminate E]. injection E as <- <-.
    cbn [RetryModel.talong] in A. rewrite S in A. destruct A as (Q & A). destruct v as [k|e x y].
    + cbn in S. injection S as <- <-. refine (IH _ _ _ _ R A _ _ P); assumption.
    + destruct (calm_step _ _ _ _ _ _ _ _ W S F Q) as ((F1 & B & C) & K). refine (IH _ _ _ _ R A F1 _ P).
      * apply step_inv in S. destruct S as (ob & S & _). exact (wf_step _ _ _ _ _ W S).
      * destruct H as [(TN & DL)|H]; [|right; auto]. destruct (C TN) as [TN1|ND]; [left|right; exact ND]. split; [exact TN1|]. rewrite K; assumption.
Qed.

(** *** The delays *)

Definition paced (f : nat -> nat) (s : st) (o : list obs) : Prop :=
  (forall q, s_np s <= q -> f q = 0) /\ (forall i, entry s i = both i (execs o)) /\
  forall i, match find_by i (s_known s) with Some p => f p = delay D i (execs o) | None => delay D i (execs o) = 0 end.

Lemma quiet_delay i ts us : quiet_exec us -> delay D i (ts ++ us) = delay D i ts.
Proof. intros [->|(t & -> & H)]; [rewrite app_nil_r; reflexivity|]. rewrite delay_snoc. destruct t; try reflexivity; destruct H. Qed.

Lemma paced_frame f f' s s' o o' : paced f s o -> (forall i, entry s' i = both i (execs (o ++ o'))) -> quiet_exec (execs o') -> s_known s' = s_known s -> s_np s' = s_np s -> f' = f -> paced f' s' (o ++ o').
Proof.
  intros (P1 & _ & P2) E QE KN NP ->. split; [rewrite NP; exact P1|]. split; [exact E|]. intros i. rewrite KN, execs_app, (quiet_delay _ _ _ QE). apply P2.
Qed.

Lemma nonce_np g p s s' n : get_nonce g p s = Some (s', n) -> s_np s' = s_np s.
Proof. intros E. apply get_nonce_spec in E. destruct E as (-> & _). destruct (_ =? _)%N; reflexivity. Qed.

Lemma paced_conn f s o q id i n p h o' : WF s -> paced f s o -> find_by i (s_known s) = Some p -> p_addr (s_peer s p) <> 0%N ->
  (forall j, entry (onp p h (w_q q s)) j = both j (execs (o ++ OExec (TConn id i n) :: o'))) -> execs o' = [] ->
  paced (upd f p (D id)) (onp p h (w_q q s)) (o ++ OExec (TConn id i n) :: o').
Proof.
  intros W (P1 & P2 & P3) F A EN M. pose proof (known_live _ _ _ W F) as (_ & _ & _ & LT). split; [|split; [exact EN|]].
  - sel. intros r R. rewrite upd_other by lia. apply P1. exact R.
  - intros j. sel. specialize (P3 j). pose proof (P2 j) as OE. rewrite execs_app. change (execs (OExec (TConn id i n) :: o')) with (TConn id i n :: execs o'). rewrite M, delay_snoc, <- OE.
    cbn [delay_step snd]. destruct (N.eqb_spec i j) as [->|NE]; cbn [andb].
    + unfold entry. rewrite F. cbn [fst snd andb]. destruct (N.eqb_spec (p_addr (s_peer s p)) 0); [congruence|]. cbn [negb]. apply upd_same.
    + destruct (find_by j (s_known s)) as [r|] eqn:F3; [|exact P3]. rewrite upd_other; [exact P3|]. exact (other _ _ _ _ _ W F3 F NE).
Qed.

Ltac quietx := first [left; reflexivity | left; apply execs_mild; assumption | right; eexists; split; [reflexivity|exact I]
   | right; eexists; split; [cbn; f_equal; change (execs _ = []); repeat (rewrite execs_app); rewrite ?execs_mild by assumption; reflexivity|exact I] ].

Lemma paced_leaf f e s s' o o' : WF s -> paced f s o -> leaf hash e s s' o' -> paced (paces D e s f) s' (o ++ o').
Proof.
  intros W P L. pose proof (entry_next _ _ _ _ _ _ W L (proj1 (proj2 P))) as EN.
  destruct L; cbn [paces]; try solve [refine (paced_frame f _ s _ _ _ P EN _ _ _ _); [quietx|reflexivity|reflexivity|rewrite ?H; reflexivity]].
  - refine (paced_frame f _ s _ _ _ P EN _ _ _ _); [quietx|exact (proj1 (nonce_keep _ _ _ _ _ H4))|rewrite (nonce_np _ _ _ _ _ H4); reflexivity|reflexivity].
  - (* retry *) refine (paced_frame f _ s _ _ _ P EN _ _ _ _); [|reflexivity|reflexivity|reflexivity].
    left. rewrite execs_app. replace (execs (if (p_addr (s_peer s p) =? 0)%N then [OAssert] else [])) with (@nil dtask) by (destruct (p_addr (s_peer s p) =? 0)%N; reflexivity). change (execs o0 = []). apply execs_mild. assumption.
  - (* same *) rewrite H. destruct P as (P1 & P2 & P3). split; [|split; [exact EN|]].
    + destruct t; try exact P1. cbn [idle] in H1. destruct (find_by i (s_known s)); [rewrite H1|]; exact P1.
    + intros i. specialize (P3 i). pose proof (P2 i) as OE. rewrite execs_app. change (execs (OExec t :: o0)) with (t :: execs o0). rewrite (execs_mild _ H2). rewrite delay_snoc, <- OE.
      change (s_known (w_q q s)) with (s_known s). change (s_peer (w_q q s)) with (s_peer s).
      destruct t; cbn [delay_step snd]; try exact P3; cbn [idle] in H1.
      * destruct (N.eqb_spec i0 i) as [->|_]; [rewrite H1 in *; reflexivity|exact P3].
      * assert (FE : (match find_by i0 (s_known s) with Some p => if (p_addr (s_peer s p) =? 0)%N then f else upd f p (D id) | None => f end) = f) by (destruct (find_by i0 (s_known s)); [rewrite H1|]; reflexivity).
        rewrite FE. destruct (N.eqb_spec i0 i) as [->|_]; cbn [andb]; [|exact P3]. unfold entry. destruct (find_by i (s_known s)) as [p|]; cbn [fst snd andb]; [rewrite H1|]; exact P3.
  - (* add *) rewrite H. destruct P as (P1 & P2 & P3). split; [sel; intros r R; apply P1; lia|split; [exact EN|]]. intros j. specialize (P3 j). rewrite execs_app. change (execs [OExec (TAdd id i)]) with [TAdd id i]. rewrite delay_snoc. cbn [delay_step snd]. sel.
    unfold find_by. cbn [find fst]. destruct (N.eqb_spec i j) as [->|NE]; [rewrite H0 in P3; rewrite P3; apply P1; lia|exact P3].
  - (* del *) rewrite H. destruct P as (P1 & P2 & P3). split; [|split; [exact EN|]].
    + unfold st_del. sel. destruct (p_out (s_peer s p)), (p_in (s_peer s p)); exact P1.
    + intros j. specialize (P3 j). rewrite execs_app. replace (execs (OExec (TDel id i) :: OKill c :: out_kill (p_in (s_peer s p)) ++ out_kill (p_out (s_peer s p)))) with [TDel id i] by (cbn; f_equal; symmetry; change (execs (out_kill (p_in (s_peer s p)) ++ out_kill (p_out (s_peer s p))) = []); rewrite execs_app, !execs_kill; reflexivity).
      rewrite delay_snoc. cbn [delay_step snd].
      assert (KN : s_known (st_del i p c (w_q q s)) = drop_by i (s_known s)) by (unfold st_del; sel; reflexivity). rewrite KN.
      destruct (N.eqb_spec i j) as [->|NE].
      * destruct (find_by j (drop_by j (s_known s))) as [r|] eqn:F; [|reflexivity]. apply find_by_In, drop_by_In in F. destruct F as (_ & F). congruence.
      * assert (FE : find_by j (drop_by i (s_known s)) = find_by j (s_known s)).
        { destruct (find_by j (s_known s)) as [r|] eqn:F.
          - apply In_find_by; [apply drop_by_NoDup; exact (w_keys _ W)|]. apply drop_by_In. split; [apply find_by_In; exact F|congruence].
          - destruct (find_by j (drop_by i (s_known s))) as [r|] eqn:F2; [|reflexivity]. apply find_by_In, drop_by_In in F2. exfalso. exact (find_by_None _ _ F _ (proj1 F2)). }
        rewrite FE. exact P3.
  - (* conn *) rewrite H, H0. destruct (N.eqb_spec (p_addr (s_peer s p)) 0); [congruence|]. eapply paced_conn; eauto.
  - rewrite H, H0. destruct (N.eqb_spec (p_addr (s_peer s p)) 0); [congruence|]. eapply paced_conn; eauto.
  - rewrite H, H0. destruct (N.eqb_spec (p_addr (s_peer s p)) 0); [congruence|]. eapply paced_conn; eauto.
  - (* ping refused *) destruct (nonce_keep _ _ _ _ _ H7) as (A & _). refine (paced_frame f _ s _ _ _ P EN _ _ _ _); [apply quiet_one; [exact I|]; change (execs (o0 ++ [OKill c]) = []); rewrite execs_app, execs_mild by assumption; reflexivity|exact A|sel; rewrite (nonce_np _ _ _ _ _ H7); reflexivity|rewrite H; reflexivity].
  - destruct (nonce_keep _ _ _ _ _ H7) as (A & _). destruct (fin_keep _ _ _ _ _ H11) as (A2 & _). refine (paced_frame f _ s _ _ _ P EN _ _ _ _); [|rewrite A2; exact A|rewrite (f_np _ _ _ _ _ H11); sel; rewrite (nonce_np _ _ _ _ _ H7); reflexivity|rewrite H; reflexivity].
    apply quiet_one; [exact I|]. change (execs (o0 ++ o') = []). rewrite execs_app, execs_mild by assumption. rewrite H12. destruct (k_term (s_conn s u)); reflexivity.
  - refine (paced_frame f _ s _ _ _ P EN _ _ _ _); [|reflexivity|reflexivity|rewrite H; reflexivity].
    apply quiet_one; [exact I|]. change (execs (o0 ++ [OFatal]) = []). rewrite execs_app, execs_mild by assumption. reflexivity.
  - destruct (nonce_keep _ _ _ _ _ H7) as (A & _). refine (paced_frame f _ s _ _ _ P EN _ _ _ _); [apply quiet_one; [exact I|]; change (execs (o0 ++ [OKill c]) = []); rewrite execs_app, execs_mild by assumption; reflexivity|exact A|rewrite (nonce_np _ _ _ _ _ H7); reflexivity|rewrite H; reflexivity].
  - destruct (nonce_keep _ _ _ _ _ H7) as (A & _). destruct (fin_keep _ _ _ _ _ H11) as (A2 & _). refine (paced_frame f _ s _ _ _ P EN _ _ _ _); [|rewrite A2; exact A|rewrite (f_np _ _ _ _ _ H11); unfold reset_ping_timer; sel; rewrite (nonce_np _ _ _ _ _ H7); reflexivity|rewrite H; reflexivity].
    apply quiet_one; [exact I|]. change (execs (o0 ++ o') = []). rewrite execs_app, execs_mild by assumption. rewrite H12. destruct (k_term (s_conn s u)); reflexivity.
Qed.

(** *** Deadlines *)

Record TI (T : tst) (o : list (nat * obs)) : Prop := mkTI {
  ti_pace : paced (t_pace T) (t_s T) (map snd o);
  ti_on : forall q, p_ton (s_peer (t_s T) q) = true -> exists t, t_dl T q = Some t /\ t <= t_now T + t_pace T q + t_pace T q / 2;
  ti_past : forall t, In t (map fst o) -> t <= t_now T;
  ti_since : forall i p t t1, find_by i (s_known (t_s T)) = Some p -> t_dl T p = Some t -> since i o = Some t1 -> t1 + t_pace T p <= t + G }.

Lemma since_app i o n ob t1 : since i (o ++ map (pair n) ob) = Some t1 ->
  (exists c a, In (ODial i c a) ob /\ t1 = n) \/ (since i o = Some t1 /\ forall t, In t (execs ob) -> match t with TConn _ j _ | TDel _ j => j <> i | _ => True end).
Proof.
  induction ob as [|x ob IH] using rev_ind; intros E.
  - rewrite app_nil_r in E. right. split; [exact E|]. intros t [].
  - rewrite map_app, app_assoc in E. unfold since in E. rewrite fold_left_app in E. cbn [map fold_left] in E. fold (since i (o ++ map (pair n) ob)) in E. unfold since_step in E. cbn [snd fst] in E.
    assert (K : since i (o ++ map (pair n) ob) = Some t1 -> (forall t, In t (execs [x]) -> match t with TConn _ j _ | TDel _ j => j <> i | _ => True end) ->
      (exists c a, In (ODial i c a) (ob ++ [x]) /\ t1 = n) \/ (since i o = Some t1 /\ forall t, In t (execs (ob ++ [x])) -> match t with TConn _ j _ | TDel _ j => j <> i | _ => True end)).
    { intros E1 X. destruct (IH E1) as [(c & a & I & ->)|(A & B)]; [left; exists c, a; split; [apply in_or_app; auto|reflexivity]|]. right. split; [exact A|].
      intros t I. rewrite execs_app in I. apply in_app_or in I. destruct I as [I|I]; [exact (B _ I)|exact (X _ I)]. }
    destruct x; try solve [apply (K E); intros ? []].
    + destruct t; try solve [apply (K E); intros ? [<-|[]]; exact I];
        (destruct (N.eqb_spec i0 i) as [|NE]; [discriminate E|apply (K E); intros ? [<-|[]]; exact NE]).
    + destruct (N.eqb_spec i0 i) as [->|NE]; [|apply (K E); intros ? []]. injection E as <-. left. exists c, a. split; [apply in_or_app; right; left; reflexivity|reflexivity].
Qed.

Lemma since_in i o t1 : since i o = Some t1 -> In t1 (map fst o).
Proof.
  induction o as [|[n x] o IH] using rev_ind; [discriminate|]. unfold since. rewrite fold_left_app. cbn [fold_left]. fold (since i o). intros E. rewrite map_app. apply in_or_app.
  unfold since_step in E. cbn [fst snd] in E. destruct x; auto.
  - destruct t; auto; destruct (_ =? _)%N; [discriminate E|auto|discriminate E|auto].
  - destruct (_ =? _)%N; [|auto]. injection E as <-. right. left. reflexivity.
Qed.

Lemma known_ton e s s' ob i p : WF s -> leaf hash e s s' ob -> find_by i (s_known s') = Some p -> p_ton (s_peer s' p) = true -> find_by i (s_known s) = Some p.
Proof.
  intros W L. destruct L; try solve [sel; auto].
  - rewrite (proj1 (nonce_keep _ _ _ _ _ H4)). auto.
  - (* add *) sel. unfold find_by at 1. cbn [find fst]. destruct (N.eqb_spec i0 i) as [->|NE]; [|auto]. intros E. injection E as <-. rewrite upd_same. discriminate.
  - (* del *) assert (KN : s_known (st_del i0 p0 c (w_q q s)) = drop_by i0 (s_known s)) by (unfold st_del; sel; reflexivity). rewrite KN. intros F _. apply find_by_In, drop_by_In in F. apply In_find_by; [exact (w_keys _ W)|exact (proj1 F)].
  - sel. rewrite (proj1 (nonce_keep _ _ _ _ _ H7)). auto.
  - rewrite (f_known _ _ _ _ _ H11). sel. rewrite (proj1 (nonce_keep _ _ _ _ _ H7)). auto.
  - rewrite (proj1 (nonce_keep _ _ _ _ _ H7)). auto.
  - rewrite (f_known _ _ _ _ _ H11). unfold reset_ping_timer. sel. rewrite (proj1 (nonce_keep _ _ _ _ _ H7)). auto.
Qed.

Lemma pace_leaf f e s s' ob q : leaf hash e s s' ob -> p_ton (s_peer s' q) = true -> (forall b, starts e s s' <> Some (q, b)) -> paces D e s f q = f q.
Proof.
  intros L. destruct L; cbn [paces starts]; try reflexivity; rewrite H; try reflexivity.
  - destruct t; try reflexivity. cbn [idle] in H1. destruct (find_by i (s_known s)); [rewrite H1|]; reflexivity.
  - rewrite H0. destruct (N.eqb_spec (p_addr (s_peer s p)) 0); [congruence|]. sel. unfold upd. destruct (Nat.eqb_spec q p); [subst|reflexivity].
    cbn [orb]. unfold isdisc. rewrite H2. destruct (n =? 0)%Z; [discriminate|]. intros _ K. destruct (K false eq_refl).
  - rewrite H0. destruct (N.eqb_spec (p_addr (s_peer s p)) 0); [congruence|]. sel. unfold upd. destruct (Nat.eqb_spec q p); [subst; discriminate|reflexivity].
  - rewrite H0. destruct (N.eqb_spec (p_addr (s_peer s p)) 0); [congruence|]. sel. unfold upd. destruct (Nat.eqb_spec q p); [subst; discriminate|reflexivity].
Qed.

(** A conn_peer that does something to record p is one of the peer that it is the record of. *)
Lemma pace_other f e s s' ob i p : WF s -> step hash e s = Some (s', ob) -> find_by i (s_known s) = Some p ->
  (forall t, In t (execs ob) -> match t with TConn _ j _ | TDel _ j => j <> i | _ => True end) -> paces D e s f p = f p /\ starts e s s' <> Some (p, false).
Proof.
  intros W S F X. destruct e; cbn [paces starts]; try (split; [reflexivity|discriminate]).
  - unfold step in S. destruct (s_halt s); [discriminate S|]. destruct (s_q s) as [|t q]; [discriminate S|]. destruct (task hash g t (w_q q s)) as [s2 o2]. injection S as <- <-.
    assert (Y : match t with TConn _ j _ | TDel _ j => j <> i | _ => True end) by (apply X; left; reflexivity). clear X.
    destruct t; try (split; [reflexivity|discriminate]). destruct (find_by i0 (s_known s)) as [r|] eqn:F2; [|split; [reflexivity|discriminate]].
    pose proof (other _ _ _ _ _ W F F2 Y). split.
    + destruct (_ =? 0)%N; [reflexivity|]. apply upd_other. assumption.
    + destruct (_ || _); congruence.
  - split; [reflexivity|]. destruct (k_peer (s_conn s c)); [|discriminate]. destruct (_ || _); congruence.
  - split; [reflexivity|]. destruct (g_ok g); congruence.
Qed.

Lemma dial_starts e s s' ob i c a p : WF s -> step hash e s = Some (s', ob) -> find_by i (s_known s) = Some p -> In (ODial i c a) ob -> starts e s s' = Some (p, true).
Proof.
  intros W S F I. destruct (step_leaf _ _ _ _ _ W S) as (_ & s1 & L & _). destruct (leaf_dial _ _ _ _ _ _ _ _ L I) as (r & g & -> & LV & _ & E & _).
  assert (r = p). { rewrite E in F. assert (F2 : find_by (p_id (s_peer s r)) (s_known s) = Some r) by (apply In_find_by; [exact (w_keys _ W)|exact (proj1 (proj2 (w_live _ W _ LV)))]). congruence. }
  subst r. cbn [starts]. destruct (g_ok g) eqn:OK; [reflexivity|]. exfalso. unfold step in S. destruct (s_halt s); [discriminate S|]. destruct (_ && _ && _); [|discriminate S].
  unfold start_active_conn in S. rewrite OK in S. injection S as <- <-. destruct I as [I|[]]; discriminate I.
Qed.

Lemma TI_run vs T o : trun vs tst0 = Some (T, o) -> TI T o.
Proof.
  apply trun_inv.
  - constructor; cbn.
    + split; [reflexivity|]. split; intros i; reflexivity.
    + discriminate.
    + intros t [].
    + discriminate.
  - intros T1 o1 k [A B C E]. constructor; cbn [t_s t_now t_dl t_pace]; auto.
    + intros q Q. destruct (B q Q) as (t & X & Y). exists t. split; [exact X|lia].
    + intros t I. specialize (C t I). lia.
  - intros es T1 o1 e x y T' o' R [A B C E] S. pose proof (wf_run _ _ _ _ R) as W. apply step_inv in S. destruct S as (ob & S & -> & NOW & PA & _ & OFF & SAME & S0 & S1).
    destruct (step_leaf _ _ _ _ _ W S) as (_ & s1 & L & Q).
    assert (PAST : forall t, In t (map fst (o1 ++ map (pair (t_now T1)) ob)) -> t <= t_now T1).
    { intros t I. rewrite map_app in I. apply in_app_or in I. destruct I as [I|I]; [auto|]. rewrite map_map in I. apply in_map_iff in I. destruct I as (z & <- & _). cbn. lia. }
    assert (ST : starts e (t_s T1) s1 = starts e (t_s T1) (t_s T')) by (unfold starts; destruct e; try reflexivity; destruct (k_peer _); [rewrite (q_peer _ _ Q)|]; reflexivity).
    constructor; rewrite ?NOW.
    + rewrite map_app, map_pair, PA. pose proof (paced_leaf _ _ _ _ _ _ W A L) as (P1 & P2 & P3). split; [rewrite <- (q_np _ _ Q); exact P1|]. split.
      * intros i. rewrite <- P2. unfold entry. rewrite (q_known _ _ Q). destruct (find_by _ _); [rewrite (q_peer _ _ Q)|]; reflexivity.
      * rewrite <- (q_known _ _ Q). exact P3.
    + intros q TN. destruct (starts e (t_s T1) (t_s T')) as [[p b]|] eqn:SE; [destruct (Nat.eq_dec p q) as [->|NE]|].
      * destruct b; [destruct (S1 q TN eq_refl) as (X & Y & ->); eexists; split; [reflexivity|lia]|rewrite (S0 q TN eq_refl); eexists; split; [reflexivity|lia]].
      * rewrite SAME; [|exact TN|congruence]. pose proof TN as TN'. rewrite <- (q_peer _ _ Q) in TN'. destruct (ton_leaf _ _ _ _ _ W L TN') as [T0|(b' & X)]; [|congruence]. rewrite PA, (pace_leaf _ _ _ _ _ _ L TN'); [exact (B q T0)|congruence].
      * rewrite SAME; [|exact TN|congruence]. pose proof TN as TN'. rewrite <- (q_peer _ _ Q) in TN'. destruct (ton_leaf _ _ _ _ _ W L TN') as [T0|(b' & X)]; [|congruence]. rewrite PA, (pace_leaf _ _ _ _ _ _ L TN'); [exact (B q T0)|congruence].
    + exact PAST.
    + intros i p t t1 F DL SI. assert (TN : p_ton (s_peer (t_s T') p) = true) by (destruct (p_ton (s_peer (t_s T') p)) eqn:TN; [reflexivity|rewrite (OFF _ TN) in DL; discriminate DL]).
      assert (F0 : find_by i (s_known (t_s T1)) = Some p) by (rewrite <- (q_known _ _ Q) in F; apply (known_ton _ _ _ _ _ _ W L F); rewrite (q_peer _ _ Q); exact TN).
      pose proof (PAST _ (since_in _ _ _ SI)) as LE.
      assert (DR : starts e (t_s T1) (t_s T') = Some (p, true) -> t1 + t_pace T' p <= t + G) by (intros X; destruct (S1 p TN X) as (U & V & Z); rewrite Z in DL; injection DL as <-; lia).
      destruct (since_app _ _ _ _ _ SI) as [(c & a & I & _)|(SO & X)]; [apply DR; exact (dial_starts _ _ _ _ _ _ _ _ W S F0 I)|].
      destruct (pace_other (t_pace T1) _ _ _ _ _ _ W S F0 X) as (P1 & P2). rewrite PA, P1. rewrite PA, P1 in DR.
      destruct (starts e (t_s T1) (t_s T')) as [[r [|]]|] eqn:SE.
      * destruct (Nat.eq_dec r p) as [->|NE]; [apply DR; reflexivity|]. rewrite SAME in DL; [exact (E _ _ _ _ F0 DL SO)|exact TN|congruence].
      * destruct (Nat.eq_dec r p) as [->|NE]; [destruct (P2 eq_refl)|]. rewrite SAME in DL; [exact (E _ _ _ _ F0 DL SO)|exact TN|congruence].
      * rewrite SAME in DL; [exact (E _ _ _ _ F0 DL SO)|exact TN|congruence].
Qed.


(** ** C138 *)

(** Between two attempts without a call of conn_peer between them the delay passes. *)
Theorem C138_spacing : forall vs T o e x y T' o' i c a t1, trun vs tst0 = Some (T, o) -> tstep (Do e x y) T = Some (T', o') -> In (t_now T, ODial i c a) o' ->
  since i o = Some t1 -> t1 + delay D i (execs (map snd o)) <= t_now T + G.
Proof.
  intros vs T o e x y T' o' i c a t1 R S I SI. pose proof (TI_run _ _ _ R) as [A B C E]. pose proof (wf_run _ _ _ _ (trun_run _ _ _ _ R)) as W.
  apply step_inv in S. destruct S as (ob & S & -> & _ & _ & GU & _). apply in_map_iff in I. destruct I as (z & Z & I). injection Z as ->.
  destruct (step_leaf _ _ _ _ _ W S) as (_ & s1 & L & _). destruct (leaf_dial _ _ _ _ _ _ _ _ L I) as (p & g & EE & LV & _ & EI & _).
  assert (F : find_by i (s_known (t_s T)) = Some p) by (rewrite EI; apply In_find_by; [exact (w_keys _ W)|exact (proj1 (proj2 (w_live _ W _ LV)))]).
  destruct (GU p g EE) as (t & DL & LE). pose proof (E _ _ _ _ F DL SI) as K. destruct A as (_ & _ & A). specialize (A i). rewrite F in A. rewrite <- A. lia.
Qed.

(** conn_peer of a peer that is not connected makes an attempt without delay. *)
Theorem C138_first_partial : forall vs T o g x y T' o' vs2 T2 o2 L id i n q p, trun vs tst0 = Some (T, o) -> s_q (t_s T) = TConn id i n :: q ->
  member i (execs (map snd o)) = true -> address i (execs (map snd o)) <> 0%N -> n <> 0%Z ->
  find_by i (s_known (t_s T)) = Some p -> p_state (s_peer (t_s T) p) = Disconnected ->
  tstep (Do (EDisp g) x y) T = Some (T', o') -> trun vs2 T' = Some (T2, o2) -> talong (calm i p) vs2 T' -> prompt L T2 ->
  p_state (s_peer (t_s T2) p) <> Disconnected \/ t_now T2 <= t_now T + L.
Proof.
  intros vs T o g x y T' o' vs2 T2 o2 L id i n q p R SQ M A N F DS S R2 AL P. pose proof (trun_run _ _ _ _ R) as RR. pose proof (wf_run _ _ _ _ RR) as W.
  pose proof (known_member _ _ _ _ i RR) as KM. rewrite F in KM. destruct KM as (_ & KA). rewrite KA in A.
  apply step_inv in S. destruct S as (ob & S & _ & NOW & _ & _ & _ & _ & S0 & _).
  assert (X : p_ton (s_peer (t_s T') p) = true /\ s_known (t_s T') = s_known (t_s T)).
  { pose proof S as S'. unfold step in S'. destruct (s_halt (t_s T)); [discriminate S'|]. rewrite SQ in S'. cbn [task] in S'. change (s_known (w_q q (t_s T))) with (s_known (t_s T)) in S'. rewrite F in S'. change (s_peer (w_q q (t_s T))) with (s_peer (t_s T)) in S'.
    destruct (N.eqb_spec (p_addr (s_peer (t_s T) p)) 0); [congruence|]. revert S'. sel. rewrite upd_same. cbn [p_state p_settimer p_setnonce p_sethb p_setlinks p_settry]. rewrite DS. destruct (Z.eqb_spec n 0); [contradiction|].
    cbn [say]. intros E. injection E as <- _. sel. rewrite !upd_same. auto. }
  destruct X as (TN & KN). 
  refine (held i p (t_now T) L vs2 T' T2 o2 (wf_step _ _ _ _ _ W S) R2 AL _ (or_introl (conj TN _)) P); [rewrite KN; exact F|].
  apply S0; [exact TN|]. cbn [starts]. rewrite SQ, F. destruct (N.eqb_spec (p_addr (s_peer (t_s T) p)) 0); [congruence|]. destruct (Z.eqb_spec n 0); [contradiction|]. unfold isdisc. rewrite DS. reflexivity.
Qed.

(** If the last conn_peer asked for endless attempts and no second connection
    of the peer came in, then a peer that is not connected is dialled within one
    and a half of the delay. *)
Theorem C138_in_time_partial : forall vs T o vs2 T2 o2 L i, trun vs tst0 = Some (T, o) -> along hash (no_preempt hash) (untime vs) st0 ->
  s_halt (t_s T) = false -> member i (execs (map snd o)) = true -> (order i (execs (map snd o)) < 0)%Z ->
  exists p, find_by i (s_known (t_s T)) = Some p /\
    (trun vs2 T = Some (T2, o2) -> talong (calm i p) vs2 T -> prompt L T2 ->
     p_state (s_peer (t_s T2) p) <> Disconnected \/
     t_now T2 <= t_now T + delay D i (execs (map snd o)) + delay D i (execs (map snd o)) / 2 + L).
Proof.
  intros vs T o vs2 T2 o2 L i R NP H M O. pose proof (trun_run _ _ _ _ R) as RR. pose proof (wf_run _ _ _ _ RR) as W. pose proof (TI_run _ _ _ R) as [A B C E].
  destruct (C62_keeps_trying_partial _ _ _ _ _ RR NP H M O) as (p & F & K). exists p. split; [exact F|]. intros R2 AL P.
  destruct A as (_ & _ & A). specialize (A i). rewrite F in A. rewrite <- A.
  destruct (p_state (s_peer (t_s T) p)) eqn:ST.
  - destruct K as [K|K]; [congruence|]. destruct (K (mkEnv None true None (fun _ => true)) eq_refl) as (s' & ob & c & S & _).
    assert (TN : p_ton (s_peer (t_s T) p) = true) by (unfold step in S; rewrite H in S; destruct (p_ton (s_peer (t_s T) p)); [reflexivity|rewrite andb_false_r in S; discriminate S]).
    destruct (B p TN) as (t & DL & LE). destruct (held i p t L vs2 T T2 o2 W R2 AL F (or_introl (conj TN DL)) P) as [X|X]; [left; exact X|right; lia].
  - destruct (held i p 0 L vs2 T T2 o2 W R2 AL F) as [X|X]; [right; congruence|exact P|left; exact X|right; lia].
  - destruct (held i p 0 L vs2 T T2 o2 W R2 AL F) as [X|X]; [right; congruence|exact P|left; exact X|right; lia].
Qed.

End R.

(** What a user expects of conn_peer: once a connection that was there before
    it has ended, the first attempt is made without delay. *)
Definition C138_at_once_full : Prop := forall hash D G vs T o c x y T' o' vs2 T2 o2 L i p id n ts,
  trun hash D G vs tst0 = Some (T, o) -> execs (map snd o) = ts ++ [TConn id i n] -> n <> 0%Z -> member i (execs (map snd o)) = true -> address i (execs (map snd o)) <> 0%N ->
  find_by i (s_known (t_s T)) = Some p -> k_peer (s_conn (t_s T) c) = Some p -> tstep hash D G (Do (ETear c) x y) T = Some (T', o') ->
  trun hash D G vs2 T' = Some (T2, o2) -> talong hash D G (calm i p) vs2 T' -> prompt L T2 -> p_state (s_peer (t_s T2) p) <> Disconnected \/ t_now T2 <= t_now T + L.

(** A peer connected by an inbound connection; then conn_peer again, with n attempts. *)
Definition timed (es : list ev) : list tev := map (fun e => Do e 20 0) es.
Definition again (n : Z) : list tev := timed (call (-1)%Z ++ [EAccept 20%N None; ESetup 1 g0; EPost (TPing (Some 1) 9%N 1%N); EDisp g0; EUser; EPost (TConn 3 5%N n); EDisp g0; ETerm 1]).
Definition d20 : N -> nat := fun _ => 20.

(** The code means to do this (873-875), but has changed the state it asks for
    before (837): the attempt waits for the delay. *)
Theorem C138_at_once_refuted : exists vs T o c x y T' o' vs2 T2 o2 i p id n ts,
  trun h5 d20 0 vs tst0 = Some (T, o) /\ execs (map snd o) = ts ++ [TConn id i n] /\ n <> 0%Z /\ member i (execs (map snd o)) = true /\ address i (execs (map snd o)) <> 0%N /\
  find_by i (s_known (t_s T)) = Some p /\ k_peer (s_conn (t_s T) c) = Some p /\ tstep h5 d20 0 (Do (ETear c) x y) T = Some (T', o') /\
  trun h5 d20 0 vs2 T' = Some (T2, o2) /\ talong h5 d20 0 (calm i p) vs2 T' /\ (forall q t, t_dl T2 q = Some t -> t_now T2 <= t) /\
  p_state (s_peer (t_s T2) p) = Disconnected /\ t_now T2 = t_now T + 19.
Proof.
  exists (again (-1)%Z). destruct (trun h5 d20 0 (again (-1)%Z) tst0) as [[T o]|] eqn:R; [|exfalso; vm_compute in R; discriminate R]. exists T, o, 1, 20, 0.
  destruct (tstep h5 d20 0 (Do (ETear 1) 20 0) T) as [[T' o']|] eqn:S.
  2: { exfalso. assert (K : match trun h5 d20 0 (again (-1)%Z) tst0 with Some (T, _) => match tstep h5 d20 0 (Do (ETear 1) 20 0) T with Some _ => true | None => false end | None => true end = true) by (vm_compute; reflexivity).
       rewrite R, S in K. discriminate K. }
  exists T', o', [Tick 19]. eexists _, _. exists 5%N, 0, 3%N, (-1)%Z, [TAdd 0 5%N; TSetAddr 1 5%N 9%N; TConn 2 5%N (-1)%Z; TPing (Some 1) 9%N 1%N].
  assert (K : match trun h5 d20 0 (again (-1)%Z) tst0 with
     | Some (T, o) => match tstep h5 d20 0 (Do (ETear 1) 20 0) T with
        | Some (T', o') => Some ((execs (map snd o), find_by 5%N (s_known (t_s T)), k_peer (s_conn (t_s T) 1), t_now T), (p_state (s_peer (t_s T') 0), t_now T', t_dl T' 0, s_np (t_s T')))
        | None => None end
     | None => None end = Some (([TAdd 0 5%N; TSetAddr 1 5%N 9%N; TConn 2 5%N (-1)%Z; TPing (Some 1) 9%N 1%N; TConn 3 5%N (-1)%Z], Some 0, Some 0, 0), (Disconnected, 0, Some 20, 1))) by (vm_compute; reflexivity).
  assert (Z : forall q, match trun h5 d20 0 (again (-1)%Z) tst0 with Some (T, o) => match tstep h5 d20 0 (Do (ETear 1) 20 0) T with Some (T', _) => t_dl T' (Datatypes.S q) | None => None end | None => None end = None) by (intros q; vm_compute; reflexivity).
  rewrite R, S in K. injection K as K1 K2 K3 K4 K5 K6 K7 K8.
  split; [reflexivity|]. rewrite K1. split; [reflexivity|]. split; [discriminate|]. split; [reflexivity|]. split; [discriminate|]. split; [exact K2|]. split; [exact K3|]. split; [reflexivity|].
  split; [reflexivity|]. split; [cbn; auto|]. cbn [t_dl t_now t_s]. split; [|split; [exact K5|lia]].
  intros q t DL. destruct q as [|q]; [rewrite K7 in DL; injection DL as <-; lia|]. specialize (Z q). rewrite R, S in Z. congruence.
Qed.

Corollary C138_at_once_full_refuted : ~ C138_at_once_full.
Proof.
  intros F. destruct C138_at_once_refuted as (vs & T & o & c & x & y & T' & o' & vs2 & T2 & o2 & i & p & id & n & ts & H1 & H2 & H3 & H4 & H5 & H6 & H7 & H8 & H9 & H10 & H11 & H12 & H13).
  destruct (F h5 d20 0 vs T o c x y T' o' vs2 T2 o2 0 i p id n ts H1 H2 H3 H4 H5 H6 H7 H8 H9 H10) as [X|X]; [|exact (X H12)|lia].
  intros q t DL. specialize (H11 q t DL). lia.
Qed.

(** With one attempt asked for while the peer is connected, none is made: the
    end of the old connection is counted as one. *)
Theorem C138_once_refuted : exists vs T o, trun h5 d20 0 vs tst0 = Some (T, o) /\ s_halt (t_s T) = false /\ s_q (t_s T) = [] /\
  member 5%N (execs (map snd o)) = true /\ address 5%N (execs (map snd o)) <> 0%N /\ order 5%N (execs (map snd o)) = 1%Z /\ dials 5%N (map snd o) = 0 /\
  find_by 5%N (s_known (t_s T)) = Some 0 /\ p_state (s_peer (t_s T) 0) = Disconnected /\ (forall c, c < s_nc (t_s T) -> k_torn (s_conn (t_s T) c) = true) /\ (forall q, t_dl T q = None).
Proof.
  exists (again 1%Z ++ timed [ETear 1]). destruct (trun h5 d20 0 (again 1%Z ++ timed [ETear 1]) tst0) as [[T o]|] eqn:R; [|exfalso; vm_compute in R; discriminate R]. exists T, o.
  assert (K : option_map (fun x => let '(T, o) := x in let s := t_s T in (s_halt s, s_q s, execs (map snd o), dials 5%N (map snd o), find_by 5%N (s_known s), p_state (s_peer s 0), s_nc s, (k_torn (s_conn s 0), k_torn (s_conn s 1)), t_dl T 0))
     (trun h5 d20 0 (again 1%Z ++ timed [ETear 1]) tst0) =
     Some (false, [], [TAdd 0 5%N; TSetAddr 1 5%N 9%N; TConn 2 5%N (-1)%Z; TPing (Some 1) 9%N 1%N; TConn 3 5%N 1%Z], 0, Some 0, Disconnected, 2, (true, true), None)) by (vm_compute; reflexivity).
  assert (Z : forall q, match trun h5 d20 0 (again 1%Z ++ timed [ETear 1]) tst0 with Some (T, o) => t_dl T (S q) | None => None end = None) by (intros q; vm_compute; reflexivity).
  rewrite R in K. cbn [option_map] in K. injection K as K1 K2 K3 K4 K5 K6 K7 K8 K9 K10. rewrite K3. split; [reflexivity|].
  split; [exact K1|]. split; [exact K2|]. split; [reflexivity|]. split; [cbn; discriminate|]. split; [reflexivity|]. split; [exact K4|]. split; [exact K5|]. split; [exact K6|]. split.
  - rewrite K7. intros c L. destruct c as [|[|c]]; [exact K8|exact K9|lia].
  - intros [|q]; [exact K10|]. specialize (Z q). rewrite R in Z. exact Z.
Qed.

(** Non-vacuous: a peer is dialled at once, and again after 25 ms, of a delay of 20. *)
Definition twice : list tev := timed (call (-1)%Z) ++ [Do (ERetry 0 g0) 25 3; Tick 15; Do (ETerm 1) 0 0; Do (ETear 1) 22 0; Tick 22].
Example C138_nonvacuous : exists T o T' o', trun h0 d20 5 twice tst0 = Some (T, o) /\ tstep h0 d20 5 (Do (ERetry 0 g0) 20 0) T = Some (T', o') /\ In (t_now T, ODial 5%N 2 9%N) o' /\
  since 5%N o = Some 0 /\ delay d20 5%N (execs (map snd o)) = 20 /\ t_now T = 37 /\ order 5%N (execs (map snd o)) = (-1)%Z /\ along h0 (no_preempt h0) (untime twice) st0 /\ prompt 0 T.
Proof.
  destruct (trun h0 d20 5 twice tst0) as [[T o]|] eqn:R; [|exfalso; vm_compute in R; discriminate R]. exists T, o.
  destruct (tstep h0 d20 5 (Do (ERetry 0 g0) 20 0) T) as [[T' o']|] eqn:S.
  2: { exfalso. assert (K : match trun h0 d20 5 twice tst0 with Some (T, _) => match tstep h0 d20 5 (Do (ERetry 0 g0) 20 0) T with Some _ => true | None => false end | None => true end = true) by (vm_compute; reflexivity).
       rewrite R, S in K. discriminate K. }
  exists T', o'.
  assert (K : match trun h0 d20 5 twice tst0 with
     | Some (T, o) => match tstep h0 d20 5 (Do (ERetry 0 g0) 20 0) T with
        | Some (T', o') => Some (o', since 5%N o, execs (map snd o), t_now T, t_dl T 0)
        | None => None end
     | None => None end = Some ([(37, ODial 5%N 2 9%N); (37, OKill 1)], Some 0, [TAdd 0 5%N; TSetAddr 1 5%N 9%N; TConn 2 5%N (-1)%Z], 37, Some 37)) by (vm_compute; reflexivity).
  assert (Z : forall q, match trun h0 d20 5 twice tst0 with Some (T, o) => t_dl T (Datatypes.S q) | None => None end = None) by (intros q; vm_compute; reflexivity).
  rewrite R, S in K. injection K as K1 K2 K3 K4 K5. rewrite K1, K3, K4. split; [reflexivity|]. split; [reflexivity|]. split; [left; reflexivity|]. split; [exact K2|]. split; [reflexivity|]. split; [reflexivity|]. split; [reflexivity|].
  split; [vm_compute; repeat split|]. intros [|q] t DL; [rewrite K5 in DL; injection DL as <-; lia|]. specialize (Z q). rewrite R in Z. congruence.
Qed.

Print Assumptions C138_spacing.
Print Assumptions C138_first_partial.
Print Assumptions C138_in_time_partial.
Print Assumptions C138_at_once_refuted.
Print Assumptions C138_once_refuted.
Print Assumptions C138_at_once_full_refuted.

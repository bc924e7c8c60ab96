(** How often and how long a peer is dialled (C62). *)
From Coq Require Import Arith NArith ZArith List Bool Lia.
From Verif Require Import PeerModel PeerInv PeerStep PeerRegProps.
Import ListNotations.

(** ** Specification *)

(** The number of attempts asked for by the last conn_peer of i that did not fail
    (i registered, with an address); 0 if there was none since i was
    registered. *)
Definition order_step (i : pid) (x : (addr * bool) * Z) (t : dtask) : (addr * bool) * Z :=
  let '(ab, n) := x in
  (addr_step i ab t,
   match t with
   | TConn _ j k => if (j =? i)%N && snd ab && negb (fst ab =? 0)%N then k else n
   | TDel _ j => if (j =? i)%N then 0%Z else n
   | _ => n
   end).
Definition order (i : pid) (ts : list dtask) : Z := snd (fold_left (order_step i) ts ((0%N, false), 0%Z)).

Definition dials (i : pid) (o : list obs) : nat := length (filter (fun x => match x with ODial j _ _ => (j =? i)%N | _ => false end) o).

(** ** Proofs *)

Lemma order_fst i ts : fst (fold_left (order_step i) ts ((0%N, false), 0%Z)) = both i ts.
Proof.
  induction ts as [|t ts IH] using rev_ind; [reflexivity|]. rewrite fold_left_app. cbn [fold_left]. rewrite both_snoc, <- IH.
  destruct (fold_left _ ts _) as [ab n]. reflexivity.
Qed.
Lemma order_snoc i ts t : order i (ts ++ [t]) = snd (order_step i (both i ts, order i ts) t).
Proof.
  unfold order at 1. rewrite fold_left_app. cbn [fold_left]. f_equal. rewrite <- order_fst. unfold order. destruct (fold_left _ ts _); reflexivity.
Qed.

Definition keepz (x y : peer) : Prop := p_ntry y = p_ntry x /\ (p_ntry x = 0%Z -> p_cur x = 0%Z -> p_ton x = false -> p_cur y = 0%Z /\ p_ton y = false).
Lemma keepz_refl x : keepz x x.
Proof. split; auto. Qed.
Lemma keepz_onp p f s r : keepz (s_peer s p) (f (s_peer s p)) -> keepz (s_peer s r) (s_peer (onp p f s) r).
Proof. intros K. sel. unfold upd. destruct (Nat.eqb_spec r p); [subst; exact K|apply keepz_refl]. Qed.
Lemma keepz_upd f p v r : keepz (f p) v -> keepz (f r) (upd f p v r).
Proof. intros K. unfold upd. destruct (Nat.eqb_spec r p); [subst; exact K|apply keepz_refl]. Qed.
Lemma keepz_trans x y z : keepz x y -> keepz y z -> keepz x z.
Proof. intros (A & B) (C & D). split; [congruence|]. intros H1 H2 H3. destruct (B H1 H2 H3). apply D; congruence. Qed.

Section R.
Variable hash : addr -> pid.

Definition ordered (s : st) (o : list obs) : Prop := (forall i, entry s i = both i (execs o)) /\ forall i,
  match find_by i (s_known s) with
  | Some p => p_ntry (s_peer s p) = order i (execs o) /\ (p_ntry (s_peer s p) = 0%Z -> p_cur (s_peer s p) = 0%Z /\ p_ton (s_peer s p) = false)
  | None => order i (execs o) = 0%Z
  end.

Definition quiet_exec (ts : list dtask) : Prop := ts = [] \/ exists t, ts = [t] /\ match t with TConn _ _ _ | TDel _ _ => False | _ => True end.

Lemma quiet_order i ts us : quiet_exec us -> order i (ts ++ us) = order i ts.
Proof. intros [->|(t & -> & H)]; [rewrite app_nil_r; reflexivity|]. rewrite order_snoc. destruct t; try reflexivity; destruct H. Qed.

Lemma quiet_one t o : match t with TConn _ _ _ | TDel _ _ => False | _ => True end -> execs o = [] -> quiet_exec (execs (OExec t :: o)).
Proof. intros H E. right. exists t. change (execs (OExec t :: o)) with (t :: execs o). rewrite E. auto. Qed.

Lemma ordered_frame s s' o o' : WF s -> ordered s o -> (forall i, entry s' i = both i (execs (o ++ o'))) -> quiet_exec (execs o') ->
  s_known s' = s_known s -> (forall p, p_live (s_peer s p) = true -> keepz (s_peer s p) (s_peer s' p)) -> ordered s' (o ++ o').
Proof.
  intros W (O1 & O2) O1' QE KN KP. split; [exact O1'|]. intros i. specialize (O2 i). rewrite KN. rewrite execs_app, (quiet_order _ _ _ QE).
  destruct (find_by i (s_known s)) as [p|] eqn:F; [|exact O2]. destruct (KP p (proj1 (known_live _ _ _ W F))) as (A & B). destruct O2 as (C & D).
  split; [congruence|]. rewrite A. intros Z. destruct (D Z). apply B; auto.
Qed.

Lemma entry_next e s s' o o' : WF s -> leaf hash e s s' o' -> (forall i, entry s i = both i (execs o)) -> forall i, entry s' i = both i (execs (o ++ o')).
Proof.
  intros W L H i. pose proof (entry_leaf hash e s s' o' i W L) as A. rewrite execs_app. unfold after in A. destruct (execs o') as [|t [|? ?]]; [|rewrite both_snoc, <- H; exact A|destruct A].
  rewrite app_nil_r, A. apply H.
Qed.

Lemma nonce_keep g p s s' n : get_nonce g p s = Some (s', n) -> s_known s' = s_known s /\ forall r, keepz (s_peer s r) (s_peer s' r).
Proof.
  intros E. apply get_nonce_spec in E. destruct E as (-> & _). destruct (p_nonce (s_peer s p) =? 0)%N; [|split; [reflexivity|intros; apply keepz_refl]].
  split; [reflexivity|]. intros r. apply keepz_onp. split; auto.
Qed.
Lemma fin_keep p c u s s' : finished p c u s s' -> s_known s' = s_known s /\ forall r, keepz (s_peer s r) (s_peer s' r).
Proof.
  intros [F1 F2 F3 F4 F5 F6 F7 F8 F9]. split; [exact F5|]. intros r. rewrite F2. destruct (Nat.eqb_spec r p); [subst; split; cbn; auto|apply keepz_refl].
Qed.

Ltac quietx := first [left; reflexivity | left; apply execs_mild; assumption | right; eexists; split; [reflexivity|exact I]
   | right; eexists; split; [cbn; f_equal; change (execs _ = []); repeat (rewrite execs_app); rewrite ?execs_mild by assumption; reflexivity|exact I] ].
Ltac keepx := let r := fresh "r" in intros r _; sel; first [apply keepz_refl | (apply keepz_upd; split; [reflexivity|cbn; auto])].

Lemma ordered_conn s o q id i n p f o' : WF s -> ordered s o -> find_by i (s_known s) = Some p -> p_addr (s_peer s p) <> 0%N ->
  (forall j, entry (onp p f (w_q q s)) j = both j (execs (o ++ OExec (TConn id i n) :: o'))) -> execs o' = [] ->
  p_ntry (f (s_peer s p)) = n /\ (n = 0%Z -> p_cur (f (s_peer s p)) = 0%Z /\ p_ton (f (s_peer s p)) = false) -> ordered (onp p f (w_q q s)) (o ++ OExec (TConn id i n) :: o').
Proof.
  intros W O F A EN M (F1 & F2). split; [exact EN|]. intros j. pose proof (proj2 O j) as OJ. pose proof (proj1 O j) as OE. rewrite execs_app. change (execs (OExec (TConn id i n) :: o')) with (TConn id i n :: execs o'). rewrite M, order_snoc, <- OE.
  cbn [order_step snd]. sel. destruct (N.eqb_spec i j) as [->|NE]; cbn [andb].
  - unfold entry. rewrite F. cbn [fst snd andb]. destruct (N.eqb_spec (p_addr (s_peer s p)) 0); [congruence|]. cbn [negb]. rewrite upd_same, F1. auto.
  - destruct (find_by j (s_known s)) as [r|] eqn:F3; [|exact OJ]. rewrite upd_other; [exact OJ|]. intros ->.
    pose proof (known_live _ _ _ W F) as (_ & X & _). pose proof (known_live _ _ _ W F3) as (_ & Y & _). congruence.
Qed.

Lemma ordered_leaf e s o s' o' : WF s -> s_halt s = false -> ordered s o -> leaf hash e s s' o' -> ordered s' (o ++ o').
Proof.
  intros W _ O L. pose proof (entry_next _ _ _ _ _ W L (proj1 O)) as EN.
  destruct L; try solve [refine (ordered_frame s _ _ _ W O EN _ _ _); [quietx|reflexivity|keepx]].
  - (* setup nonce *) destruct (nonce_keep _ _ _ _ _ H4) as (A & B). refine (ordered_frame s _ _ _ W O EN _ _ _); [quietx|exact A|intros r _; exact (B r)].
  - (* tear pre *) refine (ordered_frame s _ _ _ W O EN _ _ _); [quietx|reflexivity|]. intros r _. sel. apply keepz_upd. unfold x_unpre, x_end. destruct (p_state (s_peer s p)); split; cbn; auto.
  - (* tear lost *) refine (ordered_frame s _ _ _ W O EN _ _ _); [quietx|reflexivity|]. intros r _. sel. apply keepz_upd. 
    set (x := s_peer s p). assert (E1 : p_ntry (x_end x) = p_ntry x /\ p_cur (x_end x) = p_cur x /\ p_ton (x_end x) = p_ton x) by (unfold x_end; destruct (p_state x); auto).
    destruct E1 as (E1 & E2 & E3). unfold x_lost, x_cur. split; [destruct (_ =? 0)%Z; exact E1|]. intros Z1 Z2 Z3. rewrite E2, Z2. cbn. rewrite E3. auto.
  - (* retry *) refine (ordered_frame s _ _ _ W O EN _ _ _).
    + left. rewrite execs_app. replace (execs (if (p_addr (s_peer s p) =? 0)%N then [OAssert] else [])) with (@nil dtask) by (destruct (p_addr (s_peer s p) =? 0)%N; reflexivity). change (execs o0 = []). apply execs_mild. assumption.
    + reflexivity.
    + intros r _. sel. apply keepz_upd. split; [reflexivity|]. intros _ _ Z. congruence.
  - (* same *) split; [exact EN|]. intros i. pose proof (proj2 O i) as OI. pose proof (proj1 O i) as OE. rewrite execs_app. change (execs (OExec t :: o0)) with (t :: execs o0). rewrite (execs_mild _ H2). rewrite order_snoc, <- OE.
    change (s_known (w_q q s)) with (s_known s). change (s_peer (w_q q s)) with (s_peer s).
    destruct t; cbn [order_step snd]; try exact OI; cbn [idle] in H1; destruct (N.eqb_spec i0 i) as [->|_]; cbn [andb]; try exact OI.
    + rewrite H1 in *. reflexivity.
    + unfold entry. destruct (find_by i (s_known s)) as [p|]; cbn [fst snd andb]; [rewrite H1|]; exact OI.
  - (* add *) split; [exact EN|]. intros j. pose proof (proj2 O j) as OJ. rewrite execs_app. change (execs [OExec (TAdd id i)]) with [TAdd id i]. rewrite order_snoc. cbn [order_step snd]. sel.
    unfold find_by. cbn [find fst]. destruct (N.eqb_spec i j) as [->|NE].
    + rewrite H0 in OJ. rewrite upd_same. cbn. rewrite OJ. auto.
    + fold (find_by j (s_known s)). destruct (find_by j (s_known s)) as [p|] eqn:F; [|exact OJ]. rewrite upd_other; [exact OJ|]. pose proof (known_live _ _ _ W F) as (_ & _ & _ & LT). lia.
  - (* del *) split; [exact EN|]. intros j. pose proof (proj2 O j) as OJ. rewrite execs_app. replace (execs (OExec (TDel id i) :: OKill c :: out_kill (p_in (s_peer s p)) ++ out_kill (p_out (s_peer s p)))) with [TDel id i] by (cbn; f_equal; symmetry; change (execs (out_kill (p_in (s_peer s p)) ++ out_kill (p_out (s_peer s p))) = []); rewrite execs_app, !execs_kill; reflexivity).
    rewrite order_snoc. cbn [order_step snd].
    assert (KN : s_known (st_del i p c (w_q q s)) = drop_by i (s_known s)) by (unfold st_del; sel; reflexivity). rewrite KN.
    assert (PE : forall r, r <> p -> s_peer (st_del i p c (w_q q s)) r = s_peer s r).
    { intros r NE. unfold st_del. sel. rewrite upd_other by exact NE. destruct (p_out (s_peer s p)), (p_in (s_peer s p)); reflexivity. }
    destruct (N.eqb_spec i j) as [->|NE].
    + destruct (find_by j (drop_by j (s_known s))) as [r|] eqn:F; [|reflexivity]. apply find_by_In, drop_by_In in F. destruct F as (_ & F). congruence.
    + assert (FE : find_by j (drop_by i (s_known s)) = find_by j (s_known s)).
      { destruct (find_by j (s_known s)) as [r|] eqn:F.
        - apply In_find_by; [apply drop_by_NoDup; exact (w_keys _ W)|]. apply drop_by_In. split; [apply find_by_In; exact F|congruence].
        - destruct (find_by j (drop_by i (s_known s))) as [r|] eqn:F2; [|reflexivity]. apply find_by_In, drop_by_In in F2. exfalso. exact (find_by_None _ _ F _ (proj1 F2)). }
      rewrite FE. destruct (find_by j (s_known s)) as [r|] eqn:F; [|exact OJ]. rewrite PE; [exact OJ|]. intros ->.
      pose proof (known_live _ _ _ W F) as (_ & A & _). pose proof (known_live _ _ _ W H0) as (_ & B & _). congruence.
  - (* conn *) eapply ordered_conn; eauto. destruct (n =? 0)%Z eqn:Z; cbn; [auto|]. split; [reflexivity|]. apply Z.eqb_neq in Z. lia.
  - eapply ordered_conn; eauto.
  - eapply ordered_conn; eauto.
  - (* ping refused *) destruct (nonce_keep _ _ _ _ _ H7) as (A & B). refine (ordered_frame s _ _ _ W O EN _ _ _); [apply quiet_one; [exact I|]; change (execs (o0 ++ [OKill c]) = []); rewrite execs_app, execs_mild by assumption; reflexivity|exact A|].
    intros r _. refine (keepz_trans _ _ _ (B r) _). apply keepz_onp. split; auto.
  - destruct (nonce_keep _ _ _ _ _ H7) as (A & B). destruct (fin_keep _ _ _ _ _ H11) as (A2 & B2). refine (ordered_frame s _ _ _ W O EN _ _ _); [|rewrite A2; exact A|].
    + apply quiet_one; [exact I|]. change (execs (o0 ++ o') = []). rewrite execs_app, execs_mild by assumption. rewrite H12. destruct (k_term (s_conn s u)); reflexivity.
    + intros r _. refine (keepz_trans _ _ _ (B r) _). refine (keepz_trans _ _ _ _ (B2 r)). refine (keepz_trans _ _ _ (keepz_onp p _ s1 r _) (keepz_onp p _ _ r _)); split; auto.
  - refine (ordered_frame s _ _ _ W O EN _ _ _); [|reflexivity|keepx].
    apply quiet_one; [exact I|]. change (execs (o0 ++ [OFatal]) = []). rewrite execs_app, execs_mild by assumption. reflexivity.
  - destruct (nonce_keep _ _ _ _ _ H7) as (A & B). refine (ordered_frame s _ _ _ W O EN _ _ _); [apply quiet_one; [exact I|]; change (execs (o0 ++ [OKill c]) = []); rewrite execs_app, execs_mild by assumption; reflexivity|exact A|].
    intros r _. refine (keepz_trans _ _ _ _ (B r)). apply (keepz_onp p (x_out c) (w_q q s)). split; auto.
  - destruct (nonce_keep _ _ _ _ _ H7) as (A & B). destruct (fin_keep _ _ _ _ _ H11) as (A2 & B2). refine (ordered_frame s _ _ _ W O EN _ _ _); [|rewrite A2; exact A|].
    + apply quiet_one; [exact I|]. change (execs (o0 ++ o') = []). rewrite execs_app, execs_mild by assumption. rewrite H12. destruct (k_term (s_conn s u)); reflexivity.
    + intros r _. assert (B0 : keepz (s_peer s r) (s_peer (onp p (x_out c) (w_q q s)) r)) by (apply (keepz_onp p (x_out c) (w_q q s)); split; auto).
      refine (keepz_trans _ _ _ B0 _). refine (keepz_trans _ _ _ (B r) _). refine (keepz_trans _ _ _ _ (B2 r)). unfold reset_ping_timer. refine (keepz_trans _ _ _ (keepz_onp p _ s1 r _) (keepz_onp p _ _ r _)); split; auto.
Qed.

Lemma ordered_run es s o : run hash es st0 = Some (s, o) -> ordered s o.
Proof.
  apply (run_inv hash ordered).
  - split; intros i; reflexivity.
  - exact ordered_leaf.
  - intros s1 s2 o1 Q (A & B). split; intros i; [specialize (A i)|specialize (B i)].
    + rewrite <- A. unfold entry. rewrite (q_known _ _ Q). destruct (find_by i (s_known s2)); [rewrite (q_peer _ _ Q)|]; reflexivity.
    + rewrite <- (q_known _ _ Q). destruct (find_by i (s_known s1)); [rewrite <- (q_peer _ _ Q)|]; exact B.
Qed.

End R.

(** ** C62 *)

Section T.
Variable hash : addr -> pid.

Lemma mild_nodial o i c a : mild o -> ~ In (ODial i c a) o.
Proof. intros M I. exact (M _ I). Qed.

Lemma leaf_dial e s s' o i c a : leaf hash e s s' o -> In (ODial i c a) o ->
  exists p g, e = ERetry p g /\ p_live (s_peer s p) = true /\ p_ton (s_peer s p) = true /\ i = p_id (s_peer s p) /\ a = p_addr (s_peer s p).
Proof.
  intros L I. destruct L; try solve [repeat (destruct I as [I|I]; [discriminate I|]); destruct I]; try solve [exfalso; eapply mild_nodial; eassumption];
    try solve [exfalso; repeat (destruct I as [I|I]; [discriminate I|]); repeat (apply in_app_or in I; destruct I as [I|I]); try (eapply mild_nodial; eassumption); repeat (destruct I as [I|I]; [discriminate I|]); destruct I].
  - apply in_app_or in I. destruct I as [I|[I|I]].
    + destruct (p_addr (s_peer s p) =? 0)%N; [destruct I as [I|[]]; discriminate I|destruct I].
    + injection I as <- <- <-. exists p, g. auto.
    + exfalso. eapply mild_nodial; eassumption.
  - exfalso. destruct I as [I|[I|I]]; [discriminate I|discriminate I|]. destruct (p_in (s_peer s p)), (p_out (s_peer s p)); cbn in I; intuition discriminate.
  - exfalso. destruct I as [I|[I|I]]; [discriminate I|discriminate I|]. apply in_app_or in I. destruct I as [I|I]; [eapply mild_nodial; eassumption|].
    rewrite H12 in I. destruct (k_term (s_conn s u)); cbn in I; intuition discriminate.
  - exfalso. destruct I as [I|I]; [discriminate I|]. apply in_app_or in I. destruct I as [I|I]; [eapply mild_nodial; eassumption|].
    rewrite H12 in I. destruct (k_term (s_conn s u)); cbn in I; intuition discriminate.
Qed.

(** Only peers for which the last conn_peer asked for attempts are dialled, at
    their current address. *)
Theorem C62_zero_stops_partial : forall es s o e s' o' i c a, run hash es st0 = Some (s, o) -> step hash e s = Some (s', o') -> In (ODial i c a) o' ->
  member i (execs o) = true /\ order i (execs o) <> 0%Z /\ a = address i (execs o).
Proof.
  intros es s o e s' o' i c a E S I. pose proof (wf_run _ _ _ _ E) as W. destruct (step_leaf _ _ _ _ _ W S) as (_ & s1 & L & _).
  destruct (leaf_dial _ _ _ _ _ _ _ L I) as (p & g & _ & LV & TN & -> & ->).
  assert (F : find_by (p_id (s_peer s p)) (s_known s) = Some p) by (apply In_find_by; [exact (w_keys _ W)|exact (proj1 (proj2 (w_live _ W _ LV)))]).
  pose proof (known_member hash _ _ _ (p_id (s_peer s p)) E) as KM. rewrite F in KM. destruct KM as (KM & KA).
  split; [exact KM|]. split; [|auto]. pose proof (proj2 (ordered_run hash _ _ _ E) (p_id (s_peer s p))) as O. rewrite F in O. destruct O as (O1 & O2).
  intros Z. rewrite <- O1 in Z. destruct (O2 Z) as (_ & T). congruence.
Qed.

(** No handshake ping of a peer comes in while it is connected. *)
Definition no_preempt (e : ev) (s : st) : Prop :=
  match e, s_q s with
  | EDisp _, TPing (Some c) a _ :: _ => forall p, find_by (ident hash (s_conn s c) a) (s_known s) = Some p -> p_state (s_peer s p) <> Connected
  | _, _ => True
  end.

Definition keepn (x y : peer) : Prop := p_pre y = None /\ p_ntry y = p_ntry x /\ (p_ntry x < 0 -> p_cur x < 0 -> p_cur y < 0)%Z /\
  (p_ntry x < 0 -> p_cur x < 0 -> (p_state x = Disconnected -> p_ton x = true) -> p_state y = Disconnected -> p_ton y = true)%Z.
Lemma keepn_refl x : p_pre x = None -> keepn x x.
Proof. intros H. split; auto. Qed.
Lemma keepn_trans x y z : keepn x y -> keepn y z -> keepn x z.
Proof.
  intros (A1 & A2 & A3 & A4) (B1 & B2 & B3 & B4). split; [exact B1|]. split; [congruence|]. split.
  - intros H1 H2. apply B3; [congruence|auto].
  - intros H1 H2 H3. apply B4; [congruence|auto|auto].
Qed.
Lemma keepn_upd f p v r : (forall x, p_pre (f x) = None) -> keepn (f p) v -> keepn (f r) (upd f p v r).
Proof. intros H K. unfold upd. destruct (Nat.eqb_spec r p); [subst; exact K|apply keepn_refl; apply H]. Qed.

(** Every live peer with a negative number of tries is trying if disconnected. *)
Definition trying (s : st) (_ : list obs) : Prop := (forall p, p_pre (s_peer s p) = None) /\
  forall p, (p_ntry (s_peer s p) < 0)%Z -> (p_cur (s_peer s p) < 0)%Z /\ (p_live (s_peer s p) = true -> p_state (s_peer s p) = Disconnected -> p_ton (s_peer s p) = true).

Lemma trying_keep s s' o o' : trying s o -> (forall p, keepn (s_peer s p) (s_peer s' p)) -> (forall p, p_live (s_peer s' p) = true -> p_live (s_peer s p) = true) -> trying s' o'.
Proof.
  intros (T1 & T2) K LV. split; [intros p; exact (proj1 (K p))|]. intros p N. destruct (K p) as (A1 & A2 & A3 & A4). rewrite A2 in N. destruct (T2 p N) as (B1 & B2).
  split; [auto|]. intros L. auto.
Qed.

Lemma upd_live f p v : p_live v = p_live (f p) -> forall r, p_live (upd f p v r) = true -> p_live (f r) = true.
Proof. intros E r. unfold upd. destruct (Nat.eqb_spec r p); [subst; congruence|auto]. Qed.

Ltac keepny P := let r := fresh "r" in intros r; sel; first [apply keepn_refl; apply P | (apply keepn_upd; [exact P|]; split; [cbn; auto|]; split; [reflexivity|]; split; cbn; auto; try congruence)].
Ltac livey := let r := fresh "r" in intros r; sel; first [exact (fun H => H) | apply upd_live; reflexivity].

Definition moves (s s' : st) : Prop := (forall r, keepn (s_peer s r) (s_peer s' r)) /\ (forall r, p_live (s_peer s' r) = true -> p_live (s_peer s r) = true).
Lemma moves_pre s s' : moves s s' -> forall x, p_pre (s_peer s' x) = None.
Proof. intros (A & _) x. exact (proj1 (A x)). Qed.
Lemma moves_trans s1 s2 s3 : moves s1 s2 -> moves s2 s3 -> moves s1 s3.
Proof. intros (A & B) (C & D). split; intros r; [exact (keepn_trans _ _ _ (A r) (C r))|auto]. Qed.
Lemma moves_onp p f s : (forall x, p_pre (s_peer s x) = None) -> keepn (s_peer s p) (f (s_peer s p)) -> p_live (f (s_peer s p)) = p_live (s_peer s p) -> moves s (onp p f s).
Proof. intros P K L. split; intros r; sel; [apply keepn_upd; assumption|apply upd_live; exact L]. Qed.
Lemma moves_same s s' : (forall x, p_pre (s_peer s x) = None) -> (forall r, s_peer s' r = s_peer s r) -> moves s s'.
Proof. intros P E. split; intros r; rewrite E; [apply keepn_refl, P|auto]. Qed.
Lemma moves_nonce g p s s' n : get_nonce g p s = Some (s', n) -> (forall x, p_pre (s_peer s x) = None) -> moves s s'.
Proof.
  intros E P. apply get_nonce_spec in E. destruct E as (-> & _). destruct (p_nonce (s_peer s p) =? 0)%N; [|split; [intros; apply keepn_refl; apply P|auto]].
  split; [keepny P|livey].
Qed.
Lemma moves_fin p c u s s' : finished p c u s s' -> (forall x, p_pre (s_peer s x) = None) -> moves s s'.
Proof.
  intros [F1 F2 F3 F4 F5 F6 F7 F8 F9] P. split; intros r; rewrite F2; destruct (Nat.eqb_spec r p) as [->|_]; auto; [|apply keepn_refl; apply P].
  split; [exact (P p)|]. split; [reflexivity|]. split; cbn; [auto|discriminate].
Qed.
Lemma trying_moves s s' o o' : trying s o -> moves s s' -> trying s' o'.
Proof. intros T (A & B). exact (trying_keep s s' o o' T A B). Qed.

Lemma trying_conn s o q p n f o' : trying s o -> (forall x, p_pre (f x) = p_pre x) -> p_ntry (f (s_peer s p)) = n -> p_cur (f (s_peer s p)) = n ->
  ((n < 0)%Z -> p_state (f (s_peer s p)) = Disconnected -> p_ton (f (s_peer s p)) = true) -> (p_live (f (s_peer s p)) = p_live (s_peer s p)) -> trying (onp p f (w_q q s)) o'.
Proof.
  intros (P & T) F0 F1 F2 F3 F4. split.
  - intros r. sel. unfold upd. destruct (Nat.eqb_spec r p); [subst; rewrite F0; apply P|apply P].
  - intros r. sel. unfold upd. destruct (Nat.eqb_spec r p) as [->|NE]; [|apply T]. rewrite F1, F2. intros N. split; [exact N|]. intros _ D. exact (F3 N D).
Qed.

Ltac kp A := split; [exact (moves_pre _ _ A _)|]; split; [reflexivity|]; split; [intros ? K9; exact K9|intros ? ? K9; exact K9].

Lemma trying_leaf e s o s' o' : WF s -> s_halt s = false -> (s_halt s = true \/ trying s o) -> no_preempt e s -> leaf hash e s s' o' -> s_halt s' = true \/ trying s' (o ++ o').
Proof.
  intros W HH T NP L. destruct T as [T|T]; [congruence|]. pose proof (proj1 T) as P.
  destruct L; try solve [right; refine (trying_keep s _ _ _ T _ _); [keepny P|livey]].
  - right. refine (trying_moves s _ _ _ T _). exact (moves_nonce _ _ _ _ _ H4 P).
  - congruence.
  - right. refine (trying_keep s _ _ _ T _ _); intros r; sel.
    + apply keepn_upd; [exact P|]. unfold x_lost, x_cur. set (x := s_peer s p). pose proof (P p) as PX. fold x in PX.
      assert (E1 : p_ntry (x_end x) = p_ntry x /\ p_cur (x_end x) = p_cur x /\ p_pre (x_end x) = p_pre x) by (unfold x_end; destruct (p_state x); auto).
      destruct E1 as (E1 & E2 & E3). rewrite E1, E2. destruct (Z.ltb_spec 0 (p_cur x)).
      * split; [destruct (_ =? 0)%Z; cbn; congruence|]. split; [destruct (_ =? 0)%Z; reflexivity|]. split; intros; lia.
      * split; [destruct (_ =? 0)%Z; cbn; congruence|]. split; [destruct (_ =? 0)%Z; reflexivity|]. split.
        -- intros N1 N2. destruct (_ =? 0)%Z; exact N2.
        -- intros N1 N2 _ _. destruct (Z.eqb_spec (p_cur x) 0); [lia|reflexivity].
    + apply upd_live. unfold x_lost, x_end. destruct (p_state (s_peer s p)), (x_cur _ =? 0)%Z; reflexivity.
  - left. reflexivity.
  - right. destruct T as (_ & T). split.
    + intros r. sel. unfold upd. destruct (r =? s_np s); [reflexivity|apply P].
    + intros r. sel. unfold upd. destruct (r =? s_np s); [cbn; intros; lia|apply T].
  - right. assert (PE : forall r, s_peer (st_del i p c (w_q q s)) r = if r =? p then p_dead (s_peer s p) else s_peer s r).
    { intros r. unfold st_del. sel. unfold upd. destruct (Nat.eqb_spec r p); [subst|]; destruct (p_out (s_peer s p)), (p_in (s_peer s p)); reflexivity. }
    destruct T as (_ & T). split; intros r; rewrite PE; (destruct (Nat.eqb_spec r p) as [->|NE]; [|auto]).
    + exact (P p).
    + intros N. split; [exact (proj1 (T p N))|cbn; discriminate].
  - right. refine (trying_conn s o q p n _ _ T _ _ _ _ _); [intros x|..]; try (destruct (n =? 0)%Z; reflexivity).
    intros N _. destruct (Z.eqb_spec n 0); [lia|reflexivity].
  - right. refine (trying_conn s o q p n _ _ T _ _ _ _ _); try reflexivity. cbn. discriminate.
  - right. refine (trying_conn s o q p n _ _ T _ _ _ _ _); try reflexivity. cbn. intros _. congruence.
  - exfalso. unfold no_preempt in NP. rewrite H in NP. exact (NP _ H4 H6).
  - right. pose proof (moves_nonce _ _ _ _ _ H7 P) as A. refine (trying_moves s _ _ _ T _). refine (moves_trans s s1 _ A _).
    apply moves_onp; [exact (moves_pre _ _ A)|kp A|reflexivity].
  - right. pose proof (moves_nonce _ _ _ _ _ H7 P) as A. refine (trying_moves s _ _ _ T _). refine (moves_trans s s1 _ A _).
    assert (A1 : moves s1 (onp p (x_in c) s1)) by (apply moves_onp; [exact (moves_pre _ _ A)|kp A|reflexivity]). refine (moves_trans _ _ _ A1 _).
    assert (A2 : moves (onp p (x_in c) s1) (onp p (x_ch c) (onp p (x_in c) s1))) by (apply moves_onp; [exact (moves_pre _ _ A1)|kp A1|reflexivity]). refine (moves_trans _ _ _ A2 _).
    exact (moves_fin _ _ _ _ _ H11 (moves_pre _ _ A2)).
  - right. refine (trying_moves s _ _ _ T _). pose proof (moves_same s s P (fun r => eq_refl)) as A0.
    assert (A : moves s (onp p (x_out c) (w_q q s))) by (apply (moves_onp p (x_out c) (w_q q s)); [exact P|kp A0|reflexivity]).
    refine (moves_trans _ _ _ A _). exact (moves_nonce _ _ _ _ _ H7 (moves_pre _ _ A)).
  - right. refine (trying_moves s _ _ _ T _). pose proof (moves_same s s P (fun r => eq_refl)) as A0.
    assert (A : moves s (onp p (x_out c) (w_q q s))) by (apply (moves_onp p (x_out c) (w_q q s)); [exact P|kp A0|reflexivity]).
    refine (moves_trans _ _ _ A _). pose proof (moves_nonce _ _ _ _ _ H7 (moves_pre _ _ A)) as A1. refine (moves_trans _ _ _ A1 _).
    assert (A2 : moves s1 (onp p (x_ch c) s1)) by (apply moves_onp; [exact (moves_pre _ _ A1)|kp A1|reflexivity]). refine (moves_trans _ _ _ A2 _).
    assert (A3 : moves (onp p (x_ch c) s1) (reset_ping_timer p (onp p (x_ch c) s1))) by (unfold reset_ping_timer; apply moves_onp; [exact (moves_pre _ _ A2)|kp A2|reflexivity]). refine (moves_trans _ _ _ A3 _).
    exact (moves_fin _ _ _ _ _ H11 (moves_pre _ _ A3)).
Qed.

Lemma trying_run es s o : run hash es st0 = Some (s, o) -> along hash no_preempt es st0 -> s_halt s = true \/ trying s o.
Proof.
  apply (along_inv hash no_preempt (fun s o => s_halt s = true \/ trying s o)).
  - right. split; intros p; cbn; [reflexivity|lia].
  - exact trying_leaf.
  - intros s1 s2 o1 Q [T|(T1 & T2)]; [left; rewrite <- (q_halt _ _ Q); exact T|]. right. split; intros p; rewrite <- (q_peer _ _ Q); auto.
Qed.

(** A registered peer whose last conn_peer asked for endless attempts is not
    disconnected, or its timer is armed and dials it when it fires, unless it
    was pre-empted. *)
Theorem C62_keeps_trying_partial : forall es s o i, run hash es st0 = Some (s, o) -> along hash no_preempt es st0 -> s_halt s = false ->
  member i (execs o) = true -> (order i (execs o) < 0)%Z ->
  exists p, find_by i (s_known s) = Some p /\
    (p_state (s_peer s p) <> Disconnected \/
     forall g, g_ok g = true -> exists s' o' c, step hash (ERetry p g) s = Some (s', o') /\ In (ODial i c (address i (execs o))) o' /\ p_out (s_peer s' p) = Some c).
Proof.
  intros es s o i E A HH M O. destruct (trying_run _ _ _ E A) as [T|(_ & T)]; [congruence|].
  pose proof (wf_run _ _ _ _ E) as W. pose proof (known_member hash _ _ _ i E) as KM. pose proof (proj2 (ordered_run hash _ _ _ E) i) as OR.
  destruct (find_by i (s_known s)) as [p|] eqn:F; [|congruence]. exists p. split; [reflexivity|]. destruct KM as (_ & KA). destruct OR as (O1 & _).
  destruct (known_live _ _ _ W F) as (LV & ID & OK & _).
  destruct (p_state (s_peer s p)) eqn:ST; [right|left; discriminate|left; discriminate]. intros g G.
  destruct (T p ltac:(rewrite O1; exact O)) as (_ & TN). specialize (TN LV ST).
  assert (TM : p_timer (s_peer s p) = true) by (destruct (p_timer (s_peer s p)) eqn:TM; [reflexivity|destruct (ok_timer _ _ OK TM) as (_ & _ & K); congruence]).
  unfold step. rewrite HH, LV, TM, TN. cbn [andb]. unfold start_active_conn. rewrite G.
  unfold check, seq, say. cbn [s_halt w_peer onp]. rewrite HH.
  eexists. eexists. exists (s_nc s). split; [reflexivity|]. split.
  - rewrite KA. sel. rewrite upd_same. cbn [p_settimer p_addr p_id]. rewrite ID. apply in_or_app. left. apply in_or_app. right. left. reflexivity.
  - sel. rewrite !upd_same. reflexivity.
Qed.
End T.

(** *** The limit *)

(** conn_peer with n attempts; then the timer fires k times, and every attempt
    fails before the next one. *)
Definition call (n : Z) : list ev :=
  [EPost (TAdd 0 5%N); EPost (TSetAddr 1 5%N 9%N); EPost (TConn 2 5%N n); EDisp g0; EDisp g0; EDisp g0].
Fixpoint fails (c k : nat) : list ev := match k with 0 => [] | S k => ERetry 0 g0 :: ETerm c :: ETear c :: fails (S c) k end.

Definition armed (c : nat) (s : st) : Prop := s_halt s = false /\ s_nc s = c /\ p_live (s_peer s 0) = true /\ p_timer (s_peer s 0) = true /\ p_ton (s_peer s 0) = true /\
  p_state (s_peer s 0) = Disconnected /\ p_pre (s_peer s 0) = None /\ p_id (s_peer s 0) = 5%N /\ p_addr (s_peer s 0) = 9%N.

Lemma execs_app o1 o2 : execs (o1 ++ o2) = execs o1 ++ execs o2.
Proof. apply flat_map_app. Qed.
Lemma dials_app i o1 o2 : dials i (o1 ++ o2) = dials i o1 + dials i o2.
Proof. unfold dials. rewrite filter_app, app_length. reflexivity. Qed.

Lemma fail_once c s : armed c s -> exists s1 o1, run h0 [ERetry 0 g0; ETerm c; ETear c] s = Some (s1, o1) /\ armed (S c) s1 /\ execs o1 = [] /\ dials 5%N o1 = 1.
Proof.
  intros (HH & NC & LV & TM & TN & ST & PR & ID & AD). cbn [run].
  assert (S1 : exists s1 o1, step h0 (ERetry 0 g0) s = Some (s1, o1) /\ execs o1 = [] /\ dials 5%N o1 = 1 /\
    armed (S c) s1 /\ s_conn s1 c = mkConn Active 9%N None false (Some 0) false false false).
  { unfold step. rewrite HH, LV, TM, TN. cbn [andb]. unfold start_active_conn. cbn [g0 g_ok]. unfold check, seq, say. cbn [s_halt w_peer onp]. rewrite HH.
    eexists. eexists. split; [reflexivity|]. split; [|split; [|split]].
    - sel. rewrite upd_same. cbn [p_settimer p_addr p_id p_out]. rewrite ID, AD. cbn [N.eqb negb app]. destruct (p_out (s_peer s 0)), (find_by 9%N (s_pend s)); reflexivity.
    - sel. rewrite upd_same. cbn [p_settimer p_addr p_id p_out]. rewrite ID, AD. cbn [N.eqb negb app]. destruct (p_out (s_peer s 0)), (find_by 9%N (s_pend s)); reflexivity.
    - unfold armed. sel. rewrite !upd_same. cbn. rewrite NC. repeat split; assumption.
    - sel. rewrite NC, !upd_same. cbn [p_settimer p_addr]. rewrite AD. reflexivity. }
  destruct S1 as (s1 & o1 & -> & X1 & D1 & (HH1 & NC1 & LV1 & TM1 & TN1 & ST1 & PR1 & ID1 & AD1) & K1).
  unfold step at 1. rewrite HH1, NC1, K1. replace (c <? S c) with true by (symmetry; apply Nat.ltb_lt; lia). cbn [andb negb k_term k_set k_torn k_flags].
  unfold step. cbn [s_halt onc w_conn say s_nc s_conn]. rewrite HH1, NC1. rewrite upd_same, K1. replace (c <? S c) with true by (symmetry; apply Nat.ltb_lt; lia).
  cbn [k_flags k_term k_torn k_set k_mode k_addr k_cert k_manual k_peer andb negb]. unfold teardown. sel. rewrite !upd_same, !K1. cbn [k_flags k_peer k_mode k_manual k_addr andb].
  rewrite LV1, ST1. cbn [negb]. unfold seq, say. cbn [s_halt w_pend onc w_conn]. rewrite HH1. sel. rewrite PR1, TM1.
  set (cur := (if (0 <? p_cur (s_peer s1 0))%Z then _ else _)).
  destruct (cur =? 0)%Z; (eexists; eexists; split; [reflexivity|]; split; [|rewrite ?execs_app, ?dials_app, X1, D1; auto]);
      unfold armed; sel; rewrite ?upd_same; cbn; rewrite ?upd_same; cbn; repeat split; auto.
Qed.

Lemma fails_run k : forall c s, armed c s -> exists s1 o1, run h0 (fails c k) s = Some (s1, o1) /\ execs o1 = [] /\ dials 5%N o1 = k.
Proof.
  induction k as [|k IH]; intros c s A.
  - exists s, []. repeat split; auto.
  - destruct (fail_once c s A) as (s1 & o1 & E1 & A1 & X1 & D1). destruct (IH (S c) s1 A1) as (s2 & o2 & E2 & X2 & D2).
    exists s2, (o1 ++ o2). split; [|rewrite execs_app, dials_app, X1, X2, D1, D2; auto].
    cbn [fails]. change (ERetry 0 g0 :: ETerm c :: ETear c :: fails (S c) k) with ([ERetry 0 g0; ETerm c; ETear c] ++ fails (S c) k).
    rewrite (run_app h0), E1, E2. reflexivity.
Qed.

(** A single conn_peer, for n > 0 attempts: any number of attempts is made,
    each after the one before has failed. *)
Theorem C62_limit_refuted : forall (n : Z) (k : nat), (0 < n)%Z -> exists es s o, run h0 es st0 = Some (s, o) /\
  execs o = [TAdd 0 5%N; TSetAddr 1 5%N 9%N; TConn 2 5%N n] /\ dials 5%N o = k.
Proof.
  intros n k N. destruct (run h0 (call n) st0) as [[s o]|] eqn:E.
  - assert (A : armed 1 s /\ execs o = [TAdd 0 5%N; TSetAddr 1 5%N 9%N; TConn 2 5%N n] /\ dials 5%N o = 0).
    { assert (NZ : (n =? 0)%Z = false) by (apply Z.eqb_neq; lia). unfold call in E. cbn [run step s_halt st0 postable say s_q w_q app] in E.
      cbn [task find_by s_known find st0 say app w_q s_np s_nc] in E.
      cbv -[Z.eqb] in E. rewrite NZ in E. injection E as <- <-. repeat split; reflexivity. }
    destruct A as (A & X & D). destruct (fails_run k 1 s A) as (s1 & o1 & E1 & X1 & D1).
    exists (call n ++ fails 1 k), s1, (o ++ o1). rewrite (run_app h0), E, E1. split; [reflexivity|]. rewrite execs_app, dials_app, X, X1, D, D1. auto.
  - exfalso. revert E. cbv -[Z.eqb]. destruct (n =? 0)%Z; discriminate.
Qed.

(** Endless attempts end when an inbound connection of the peer pre-empts the
    established one and is closed itself. *)
Definition preempted : list ev := call (-1) ++
  [EAccept 20%N None; ESetup 1 g0; EPost (TPing (Some 1) 9%N 1%N); EDisp g0; EUser;
   EAccept 21%N None; ESetup 2 g0; EPost (TPing (Some 2) 9%N 1%N); EDisp g0; ETerm 1; ETear 1;
   EUser; ETerm 2; ETear 2; EDisp g0].
(** 9 is the hash of the peer registered here. *)
Definition h5 : addr -> pid := fun a => if (a =? 9)%N then 5%N else a.

Theorem C62_preempt_refuted : exists es s o p, run h5 es st0 = Some (s, o) /\ s_halt s = false /\ s_q s = [] /\ s_uq s = [] /\
  member 5%N (execs o) = true /\ order 5%N (execs o) = (-1)%Z /\ find_by 5%N (s_known s) = Some p /\
  p_state (s_peer s p) = Disconnected /\ (forall c, c < s_nc s -> k_torn (s_conn s c) = true) /\ (forall q g, step h5 (ERetry q g) s = None).
Proof.
  exists preempted. destruct (run h5 preempted st0) as [[s o]|] eqn:E; [|exfalso; vm_compute in E; discriminate E]. exists s, o, 0. split; [reflexivity|].
  assert (K : option_map (fun x => let s := fst x in (s_halt s, s_q s, s_uq s, member 5%N (execs (snd x)), order 5%N (execs (snd x)), find_by 5%N (s_known s), p_state (s_peer s 0), s_nc s, (k_torn (s_conn s 0), k_torn (s_conn s 1), k_torn (s_conn s 2)), p_ton (s_peer s 0), s_np s))
     (run h5 preempted st0) = Some (false, [], [], true, (-1)%Z, Some 0, Disconnected, 3, (true, true, true), false, 1)) by (vm_compute; reflexivity).
  pose proof (wf_run _ _ _ _ E) as W. rewrite E in K. cbn [option_map fst snd] in K. injection K as K1 K2 K3 K4 K5 K6 K7 K8 K9 K10 K11 K12 K13.
  repeat split; auto.
  - rewrite K8. intros c L. destruct c as [|[|[|c]]]; auto; lia.
  - intros q g. unfold step. rewrite K1. destruct (p_live (s_peer s q)) eqn:L; [|reflexivity]. pose proof (proj1 (w_live _ W _ L)) as B. replace q with 0 by lia. rewrite K12, andb_false_r. reflexivity.
Qed.

(** Non-vacuous: a peer whose first attempt failed is being tried again. *)
Example C62_nonvacuous : exists s o, run h0 (call (-1) ++ fails 1 3) st0 = Some (s, o) /\ along h0 (no_preempt h0) (call (-1) ++ fails 1 3) st0 /\ s_halt s = false /\
  member 5%N (execs o) = true /\ order 5%N (execs o) = (-1)%Z /\ p_state (s_peer s 0) = Disconnected /\ dials 5%N o = 3.
Proof.
  destruct (run h0 (call (-1) ++ fails 1 3) st0) as [[s o]|] eqn:E; [|exfalso; vm_compute in E; discriminate E]. exists s, o. split; [reflexivity|]. split.
  - vm_compute. repeat split.
  - assert (K : option_map (fun x => let s := fst x in (s_halt s, member 5%N (execs (snd x)), order 5%N (execs (snd x)), p_state (s_peer s 0), dials 5%N (snd x)))
      (run h0 (call (-1) ++ fails 1 3) st0) = Some (false, true, (-1)%Z, Disconnected, 3)) by (vm_compute; reflexivity).
    rewrite E in K. cbn [option_map fst snd] in K. injection K as K1 K2 K3 K4 K5. repeat split; auto.
Qed.

Print Assumptions C62_zero_stops_partial.
Print Assumptions C62_keeps_trying_partial.
Print Assumptions C62_limit_refuted.
Print Assumptions C62_preempt_refuted.

(** The peer registry: which peers are known, what operations on them report,
    and to whom messages go. *)
From Coq Require Import Arith NArith ZArith List Bool Lia.
From Verif Require Import PeerModel PeerInv PeerStep.
Import ListNotations.

(** ** Specification *)

(** The tasks the dispatcher has executed. *)
Definition execs (o : list obs) : list dtask := flat_map (fun x => match x with OExec t => [t] | _ => [] end) o.

(** Calls of the user, as opposed to messages of other nodes. *)
Definition api (t : dtask) : bool := match t with TPing _ _ _ | TPong _ _ _ => false | _ => true end.
Definition calls (es : list ev) : list dtask := flat_map (fun e => match e with EPost t => if api t then [t] else [] | _ => [] end) es.

(** Is i registered after these operations, and with which address. *)
Definition member (i : pid) (ts : list dtask) : bool :=
  fold_left (fun b t => match t with TAdd _ j => (j =? i)%N || b | TDel _ j => negb (j =? i)%N && b | _ => b end) ts false.
Definition address (i : pid) (ts : list dtask) : addr :=
  fst (fold_left (fun ab t => let '(a, b) := ab in
    match t with
    | TAdd _ j => if (j =? i)%N && negb b then (0%N, true) else (a, b)
    | TDel _ j => if (j =? i)%N then (0%N, false) else (a, b)
    | TSetAddr _ j x => if (j =? i)%N && b then (x, b) else (a, b)
    | _ => (a, b)
    end) ts (0%N, false)).

(** The error, if any, that operation t must report after the operations ts,
    apart from messages not accepted by a connection. *)
Definition must_fail (ts : list dtask) (t : dtask) : option obs :=
  match t with
  | TAdd id i => if member i ts then Some (OErr (Some id) AlreadyExists) else None
  | TDel id i | TSetAddr id i _ | TSend id i _ => if member i ts then None else Some (OErr (Some id) NotExist)
  | TConn id i _ => if member i ts then if (address i ts =? 0)%N then Some (OErr (Some id) NotReady) else None else Some (OErr (Some id) NotExist)
  | TGetConn i => if member i ts then None else Some (OThrow i NotExist)
  | TMulti id l _ => if forallb (fun i => member i ts) l then None else Some (OErr (Some id) NotExist)
  | _ => None
  end.

(** Errors about the registry in a list of observations. *)
Definition reg_error (x : obs) : bool := match x with OErr _ AlreadyExists | OErr _ NotExist | OErr _ NotReady | OThrow _ _ => true | _ => false end.

(** ** Proofs *)

Lemma execs_app a b : execs (a ++ b) = execs a ++ execs b.
Proof. unfold execs. apply flat_map_app. Qed.
Lemma calls_app a b : calls (a ++ b) = calls a ++ calls b.
Proof. unfold calls. apply flat_map_app. Qed.

Definition addr_step (i : pid) (ab : addr * bool) (t : dtask) : addr * bool :=
  let '(a, b) := ab in
    match t with
    | TAdd _ j => if (j =? i)%N && negb b then (0%N, true) else (a, b)
    | TDel _ j => if (j =? i)%N then (0%N, false) else (a, b)
    | TSetAddr _ j x => if (j =? i)%N && b then (x, b) else (a, b)
    | _ => (a, b)
    end.
Definition both (i : pid) (ts : list dtask) := fold_left (addr_step i) ts (0%N, false).

Lemma both_snoc i ts t : both i (ts ++ [t]) = addr_step i (both i ts) t.
Proof. unfold both. rewrite fold_left_app. reflexivity. Qed.

Lemma both_spec i ts : both i ts = (address i ts, member i ts).
Proof.
  assert (A : address i ts = fst (both i ts)) by reflexivity.
  assert (B : member i ts = snd (both i ts)).
  { clear A. induction ts as [|t ts IH] using rev_ind; [reflexivity|]. rewrite both_snoc. unfold member. rewrite fold_left_app. cbn [fold_left].
    fold (member i ts). rewrite IH. unfold addr_step. destruct (both i ts) as [a b]. cbn [snd].
    destruct t; try reflexivity; destruct (_ =? i)%N; cbn [andb negb orb snd]; destruct b; reflexivity. }
  rewrite A, B. destruct (both i ts); reflexivity.
Qed.

(** What the registry of a state says about i. *)
Definition entry (s : st) (i : pid) : addr * bool := match find_by i (s_known s) with Some p => (p_addr (s_peer s p), true) | None => (0%N, false) end.

Lemma entry_same s s' i : s_known s' = s_known s -> (forall p, p_live (s_peer s p) = true -> p_addr (s_peer s' p) = p_addr (s_peer s p)) -> WF s -> entry s' i = entry s i.
Proof.
  intros K P W. unfold entry. rewrite K. destruct (find_by i (s_known s)) as [p|] eqn:F; [|reflexivity]. rewrite P; [reflexivity|]. exact (proj1 (known_live _ _ _ W F)).
Qed.

Lemma upd_field {B C} (f : B -> C) (h : nat -> B) i v j : f v = f (h i) -> f (upd h i v j) = f (h j).
Proof. intros E. unfold upd. destruct (Nat.eqb_spec j i); [subst; exact E|reflexivity]. Qed.

Lemma nonce_same g p s s' n : get_nonce g p s = Some (s', n) ->
  s_known s' = s_known s /\ s_q s' = s_q s /\ (forall r, p_addr (s_peer s' r) = p_addr (s_peer s r)).
Proof.
  intros E. apply get_nonce_spec in E. destruct E as (-> & _). destruct (p_nonce (s_peer s p) =? 0)%N; [|auto].
  split; [reflexivity|]. split; [reflexivity|]. intros r. sel. apply upd_field. reflexivity.
Qed.

Section R.
Variable hash : addr -> pid.


Lemma execs_mild o : mild o -> execs o = [].
Proof. intros M. induction o as [|x o IH]; [reflexivity|]. assert (M' : mild o) by (intros y I; apply M; right; exact I). pose proof (M x (or_introl eq_refl)) as X. destruct x; cbn in *; auto. destruct X. Qed.

Lemma execs_kill c : execs (out_kill c) = [].
Proof. destruct c; reflexivity. Qed.

Lemma fin_same p c u s s' : finished p c u s s' -> s_known s' = s_known s /\ (forall r, p_addr (s_peer s' r) = p_addr (s_peer s r)).
Proof. intros [F1 F2 F3 F4 F5 F6 F7 F8 F9]. split; [exact F5|]. intros r. rewrite F2. destruct (Nat.eqb_spec r p); [subst|]; reflexivity. Qed.

Ltac same_entry W := apply entry_same; [sel; auto|intros ? _; sel; try reflexivity; apply upd_field; try reflexivity|exact W].

(** The entry of i after a step. *)
Definition after (i : pid) (s s' : st) (ts : list dtask) : Prop :=
  match ts with
  | [] => entry s' i = entry s i
  | [t] => entry s' i = addr_step i (entry s i) t
  | _ => False
  end.

Lemma after_nil i s s' o : mild o -> entry s' i = entry s i -> after i s s' (execs o).
Proof. intros M E. rewrite (execs_mild _ M). exact E. Qed.
Lemma after_one i s s' t o : execs o = [] -> entry s' i = addr_step i (entry s i) t -> after i s s' (execs (OExec t :: o)).
Proof. intros M E. cbn. unfold execs in M. rewrite M. exact E. Qed.

Lemma entry_leaf e s s' o i : WF s -> leaf hash e s s' o -> after i s s' (execs o).
Proof.
  intros W H.
  assert (AS : forall t, api t = false -> addr_step i (entry s i) t = entry s i) by (intros t0; destruct t0; intros E; try discriminate E; unfold addr_step; destruct (entry s i); reflexivity).
  destruct H.
  - cbn. same_entry W.
  - cbn. same_entry W.
  - cbn. same_entry W.
  - cbn. same_entry W.
  - cbn. same_entry W.
  - cbn. same_entry W.
  - cbn. same_entry W.
  - apply after_nil; [assumption|same_entry W].
  - cbn. destruct (nonce_same _ _ _ _ _ H4) as (A & B & C). apply entry_same; [rewrite A; reflexivity|intros r _; rewrite C; reflexivity|exact W].
  - apply after_nil; [assumption|same_entry W].
  - cbn. same_entry W.
  - cbn. same_entry W.
  - apply after_nil; [assumption|]. same_entry W. unfold x_unpre, x_end. destruct (p_state (s_peer s p)); reflexivity.
  - apply after_nil; [assumption|]. same_entry W. unfold x_lost, x_end. destruct (p_state (s_peer s p)), (x_cur _ =? 0)%Z; reflexivity.
  - cbn. same_entry W.
  - rewrite execs_app. replace (execs (if (p_addr (s_peer s p) =? 0)%N then [OAssert] else [])) with (@nil dtask) by (destruct (p_addr (s_peer s p) =? 0)%N; reflexivity).
    cbn [app]. change (execs (ODial (p_id (s_peer s p)) (s_nc s) (p_addr (s_peer s p)) :: o)) with (execs o). apply after_nil; [assumption|same_entry W].
  - cbn. same_entry W.
  - cbn. same_entry W.
  - apply after_one; [apply execs_mild; assumption|].
    assert (E1 : entry (w_q q s) i = entry s i) by same_entry W. rewrite E1.
    assert (ES : forall x : addr * bool, (let '(a, b) := x in (a, b)) = x) by (intros [? ?]; reflexivity).
    destruct t as [id j|id j|id j a|id j n|j|j|c|id j m|id l m|c a n|c a n]; try (unfold addr_step; rewrite ES; reflexivity).
    all: cbn [task] in H0; change (s_known (w_q q s)) with (s_known s) in H0; unfold addr_step, entry.
    + destruct (N.eqb_spec j i); cbn [andb]; [subst j|destruct (find_by i (s_known s)); reflexivity].
      destruct (find_by i (s_known s)); [reflexivity|]. apply (f_equal (fun x => s_np (fst x))) in H0. cbn in H0. lia.
    + destruct (N.eqb_spec j i); cbn [andb]; [subst j|destruct (find_by i (s_known s)); reflexivity].
      destruct (find_by i (s_known s)) as [p|] eqn:F; [|reflexivity]. destruct (known_live _ _ _ W F) as (L & _ & OK & _). destruct (ok_conn _ _ OK) as (u & EU & _).
      change (s_peer (w_q q s)) with (s_peer s) in H0. rewrite EU in H0. apply (f_equal (fun x => p_live (s_peer (fst x) p))) in H0. cbn in H0. rewrite upd_same in H0. cbn in H0. rewrite L in H0. discriminate H0.
    + destruct (N.eqb_spec j i); cbn [andb]; [subst j|destruct (find_by i (s_known s)); reflexivity].
      destruct (find_by i (s_known s)) as [p|] eqn:F; [|reflexivity]. apply (f_equal (fun x => p_addr (s_peer (fst x) p))) in H0. cbn in H0. rewrite upd_same in H0. cbn in H0. congruence.
  - cbn [execs flat_map app after]. unfold entry, st_add, addr_step. sel. unfold find_by. cbn [find fst]. destruct (N.eqb_spec i0 i).
    + subst i0. unfold find_by in H0. destruct (find (fun x => (fst x =? i)%N) (s_known s)) as [[? ?]|]; [discriminate H0|]. cbn [andb negb]. rewrite upd_same. reflexivity.
    + cbn [andb]. destruct (find (fun x => (fst x =? i)%N) (s_known s)) as [[a b]|] eqn:F; [|reflexivity].
      assert (F' : find_by i (s_known s) = Some b) by (unfold find_by; rewrite F; reflexivity). destruct (known_live _ _ _ W F') as (_ & _ & _ & N). rewrite upd_other by lia. reflexivity.
  - apply after_one; [cbn; rewrite flat_map_app; change (execs (out_kill (p_in (s_peer s p))) ++ execs (out_kill (p_out (s_peer s p))) = []); rewrite !execs_kill; reflexivity|].
    assert (EK : s_known (st_del i0 p c (w_q q s)) = drop_by i0 (s_known s)) by reflexivity.
    assert (EP : forall r, r <> p -> s_peer (st_del i0 p c (w_q q s)) r = s_peer s r).
    { intros r N. unfold st_del. sel. rewrite upd_other by exact N. destruct (p_out (s_peer s p)), (p_in (s_peer s p)); reflexivity. }
    unfold entry at 1. rewrite EK. unfold addr_step, entry.
    destruct (N.eqb_spec i0 i).
    + subst i0. destruct (find_by i (drop_by i (s_known s))) as [r|] eqn:F.
      * apply find_by_In, drop_by_In in F. destruct F as (_ & F). congruence.
      * destruct (find_by i (s_known s)); reflexivity.
    + destruct (find_by i (s_known s)) as [r|] eqn:F.
      * assert (I : In (i, r) (drop_by i0 (s_known s))) by (apply drop_by_In; split; [apply find_by_In; exact F|congruence]).
        rewrite (In_find_by _ _ _ (drop_by_NoDup i0 _ (w_keys s W)) I). rewrite EP; [reflexivity|].
        intros ->. destruct (known_live _ _ _ W F) as (_ & A & _). destruct (known_live _ _ _ W H0) as (_ & B & _). congruence.
      * destruct (find_by i (drop_by i0 (s_known s))) as [r|] eqn:F2; [|reflexivity].
        apply find_by_In, drop_by_In in F2. destruct F2 as (F2 & _). exfalso. exact (find_by_None _ _ F _ F2).
  - cbn [execs flat_map app after]. unfold entry, addr_step. sel. destruct (N.eqb_spec i0 i).
    + subst i0. rewrite H0. cbn [andb]. rewrite upd_same. reflexivity.
    + cbn [andb]. destruct (find_by i (s_known s)) as [r|] eqn:F; [|reflexivity]. rewrite upd_other; [reflexivity|].
      intros ->. destruct (known_live _ _ _ W F) as (_ & A & _). destruct (known_live _ _ _ W H0) as (_ & B & _). congruence.
  - cbn [execs flat_map app after]. unfold addr_step. destruct (entry s i) as [aa b] eqn:EE. rewrite <- EE. same_entry W. destruct (n =? 0)%Z; reflexivity.
  - cbn [execs flat_map app after]. unfold addr_step. destruct (entry s i) as [aa b] eqn:EE. rewrite <- EE. same_entry W.
  - cbn [execs flat_map app after]. unfold addr_step. destruct (entry s i) as [aa b] eqn:EE. rewrite <- EE. same_entry W.
  - cbn [execs flat_map app after]. unfold addr_step. destruct (entry s i) as [aa b] eqn:EE. rewrite <- EE. same_entry W.
  - apply after_one; [reflexivity|]. rewrite AS by reflexivity. same_entry W.
  - apply after_one; [reflexivity|]. rewrite AS by reflexivity. same_entry W.
  - apply after_one; [reflexivity|]. rewrite AS by reflexivity. same_entry W.
  - apply after_one; [reflexivity|]. rewrite AS by reflexivity. same_entry W.
  - apply after_one; [cbn; rewrite flat_map_app; change (flat_map _ o) with (execs o); rewrite execs_mild by assumption; reflexivity|]. rewrite AS by reflexivity.
    destruct (nonce_same _ _ _ _ _ H7) as (A & B & C). apply entry_same; [sel; rewrite A; reflexivity|intros r _; sel|exact W].
    rewrite upd_field by reflexivity. rewrite C. reflexivity.
  - apply after_one; [cbn; rewrite flat_map_app; change (flat_map _ o) with (execs o); rewrite (execs_mild o) by assumption; rewrite H12; destruct (k_term (s_conn s u)); reflexivity|]. rewrite AS by reflexivity.
    destruct (nonce_same _ _ _ _ _ H7) as (A & B & C). destruct (fin_same _ _ _ _ _ H11) as (D & E). apply entry_same; [rewrite D; sel; rewrite A; reflexivity|intros r _; rewrite E; sel|exact W].
    rewrite upd_field by reflexivity. rewrite upd_field by reflexivity. rewrite C. reflexivity.
  - apply after_one; [reflexivity|]. rewrite AS by reflexivity. same_entry W.
  - apply after_one; [reflexivity|]. rewrite AS by reflexivity. same_entry W.
  - apply after_one; [reflexivity|]. rewrite AS by reflexivity. same_entry W.
  - apply after_one; [reflexivity|]. rewrite AS by reflexivity. same_entry W.
  - apply after_one; [rewrite execs_app, execs_mild by assumption; reflexivity|]. rewrite AS by reflexivity. same_entry W.
  - apply after_one; [rewrite execs_app, execs_mild by assumption; reflexivity|]. rewrite AS by reflexivity.
    destruct (nonce_same _ _ _ _ _ H7) as (A & B & C). apply entry_same; [rewrite A; reflexivity|intros r _; rewrite C; sel|exact W].
    rewrite upd_field by reflexivity. reflexivity.
  - apply after_one; [rewrite execs_app, execs_mild by assumption; rewrite H12; destruct (k_term (s_conn s u)); reflexivity|]. rewrite AS by reflexivity.
    destruct (nonce_same _ _ _ _ _ H7) as (A & B & C). destruct (fin_same _ _ _ _ _ H11) as (D & E). apply entry_same; [rewrite D; unfold reset_ping_timer; sel; rewrite A; reflexivity|intros r _; rewrite E; unfold reset_ping_timer; sel|exact W].
    rewrite upd_field by reflexivity. rewrite upd_field by reflexivity. rewrite C. sel. rewrite upd_field by reflexivity. reflexivity.
Qed.

Lemma entry_run es s o : run hash es st0 = Some (s, o) -> forall i, entry s i = (address i (execs o), member i (execs o)).
Proof.
  intros E i. rewrite <- both_spec. revert es s o E.
  apply (run_inv hash (fun s o => entry s i = both i (execs o))).
  - reflexivity.
  - intros e s o s' o' W _ H L. pose proof (entry_leaf _ _ _ _ i W L) as A. rewrite execs_app. unfold after in A.
    destruct (execs o') as [|t [|? ?]]; [rewrite app_nil_r; congruence|rewrite both_snoc; congruence|destruct A].
  - intros s s' o [Q1 Q2 Q3 Q4 Q5 Q6 Q7 Q8 Q9] H. rewrite <- H. unfold entry. rewrite <- Q5. destruct (find_by i (s_known s)); [rewrite <- Q3|]; reflexivity.
Qed.
(** The dispatcher's queue over a step. *)
Lemma leaf_q e s s' o : leaf hash e s s' o ->
  match e with
  | EDisp _ => exists t q, s_q s = t :: q /\ s_q s' = q /\ execs o = [t]
  | EPost t => s_q s' = s_q s ++ [t] /\ execs o = []
  | EUser => (s_q s' = s_q s \/ exists x, api x = false /\ s_q s' = s_q s ++ [x]) /\ execs o = []
  | _ => s_q s' = s_q s /\ execs o = []
  end.
Proof.
  intros H. destruct H; try (split; [reflexivity|reflexivity]); try (split; [reflexivity|apply execs_mild; assumption]).
  all: try (eexists; eexists; split; [eassumption|]; split; [reflexivity|reflexivity]).
  - split; [left; reflexivity|reflexivity].
  - split; [right; exists (TPing inb a n); auto|reflexivity].
  - split; [left; reflexivity|reflexivity].
  - destruct (nonce_same _ _ _ _ _ H4) as (_ & A & _). rewrite A. auto.
  - split; [reflexivity|]. rewrite execs_app. replace (execs (if (p_addr (s_peer s p) =? 0)%N then [OAssert] else [])) with (@nil dtask) by (destruct (p_addr (s_peer s p) =? 0)%N; reflexivity).
    cbn [app]. change (execs o = []). apply execs_mild. assumption.
  - exists t, q. split; [assumption|]. split; [reflexivity|]. change (t :: execs o = [t]). rewrite execs_mild by assumption. reflexivity.
  - eexists; eexists; split; [eassumption|]. split.
    + unfold st_del. sel. destruct (p_out (s_peer s p)), (p_in (s_peer s p)); reflexivity.
    + change (TDel id i :: execs (out_kill (p_in (s_peer s p)) ++ out_kill (p_out (s_peer s p))) = [TDel id i]). rewrite execs_app, !execs_kill. reflexivity.
  - eexists; eexists; split; [eassumption|]. destruct (nonce_same _ _ _ _ _ H7) as (_ & A & _). split; [exact A|].
    change (TPing (Some c) a n :: execs (o ++ [OKill c]) = [TPing (Some c) a n]). rewrite execs_app, execs_mild by assumption. reflexivity.
  - eexists; eexists; split; [eassumption|]. destruct (nonce_same _ _ _ _ _ H7) as (_ & A & _). split; [rewrite (f_q _ _ _ _ _ H11); exact A|].
    change (TPing (Some c) a n :: execs (o ++ o') = [TPing (Some c) a n]). rewrite execs_app, execs_mild by assumption. rewrite H12. destruct (k_term (s_conn s u)); reflexivity.
  - eexists; eexists; split; [eassumption|]. split; [reflexivity|]. change (TPong c a n :: execs (o ++ [OFatal]) = [TPong c a n]). rewrite execs_app, execs_mild by assumption. reflexivity.
  - eexists; eexists; split; [eassumption|]. destruct (nonce_same _ _ _ _ _ H7) as (_ & A & _). split; [rewrite A; reflexivity|].
    change (TPong c a n :: execs (o ++ [OKill c]) = [TPong c a n]). rewrite execs_app, execs_mild by assumption. reflexivity.
  - eexists; eexists; split; [eassumption|]. destruct (nonce_same _ _ _ _ _ H7) as (_ & A & _). split; [rewrite (f_q _ _ _ _ _ H11); exact A|].
    change (TPong c a n :: execs (o ++ o') = [TPong c a n]). rewrite execs_app, execs_mild by assumption. rewrite H12. destruct (k_term (s_conn s u)); reflexivity.
Qed.

(** Calls are executed in the order they were made. *)
Theorem C57_order : forall es s o, run hash es st0 = Some (s, o) -> filter api (execs o ++ s_q s) = calls es.
Proof.
  intros es.
  assert (G : forall s0, WF s0 -> forall s o, run hash es s0 = Some (s, o) -> filter api (execs o ++ s_q s) = filter api (s_q s0) ++ calls es).
  { induction es as [|e es IH]; intros s0 W0 s o E; cbn [run] in E.
    - injection E as <- <-. cbn. rewrite app_nil_r. reflexivity.
    - destruct (step hash e s0) as [[s1 o1]|] eqn:E1; [|discriminate E]. destruct (run hash es s1) as [[s2 o2]|] eqn:E2; [|discriminate E]. injection E as <- <-.
      specialize (IH s1 (wf_step _ _ _ _ _ W0 E1) _ _ E2). rewrite execs_app, <- app_assoc, filter_app, IH.
      destruct (step_leaf _ _ _ _ _ W0 E1) as (_ & s1' & L & Q). pose proof (leaf_q _ _ _ _ L) as K. rewrite (q_q _ _ Q) in K.
      change (e :: es) with ([e] ++ es). rewrite calls_app. rewrite !app_assoc. f_equal. cbn [calls flat_map]. rewrite app_nil_r.
      destruct e as [t|g| |a k|a k|c g|c|c|p g|p].
      1:{ destruct K as (K1 & K2). rewrite K1, K2, filter_app. cbn. destruct (api t); reflexivity. }
      1:{ destruct K as (t & q & K1 & K2 & K3). rewrite K1, K2, K3, app_nil_r. cbn. destruct (api t); reflexivity. }
      1:{ destruct K as ([K1|(x & X & K1)] & K2); rewrite K1, K2; cbn [app]; [|rewrite filter_app; cbn; rewrite X]; rewrite ?app_nil_r; reflexivity. }
      all: destruct K as (K1 & K2); rewrite K1, K2, app_nil_r; reflexivity. }
  intros s o E. exact (G st0 wf0 s o E).
Qed.

Lemma known_member es s o i : run hash es st0 = Some (s, o) ->
  match find_by i (s_known s) with Some p => member i (execs o) = true /\ address i (execs o) = p_addr (s_peer s p) | None => member i (execs o) = false end.
Proof.
  intros E. pose proof (entry_run _ _ _ E i) as H. unfold entry in H. destruct (find_by i (s_known s)); injection H as H1 H2; auto.
Qed.

(** What the loop of multicast_msg does. *)
Definition is_conn (s : st) (i : pid) (c : nat) : Prop := exists p, In (i, p) (s_known s) /\ p_conn (s_peer s p) = Some c.

Lemma multi_spec g l m s : WF s ->
  let '(o, r) := multi g l m s in
  (forall x, In x o -> exists i c, In i l /\ is_conn s i c /\ x = OQueue c m) /\
  match r with
  | Some b => (exists cs, Forall2 (is_conn s) l cs /\ o = flat_map (fun c => if g_write g c then [OQueue c m] else []) cs /\ b = forallb (g_write g) cs)
  | None => exists i, In i l /\ find_by i (s_known s) = None
  end.
Proof.
  intros W. induction l as [|i l IH]; cbn [multi].
  - split; [intros x []|]. exists []. auto.
  - destruct (find_by i (s_known s)) as [p|] eqn:F; [|split; [intros x []|exists i; split; [left; reflexivity|exact F]]].
    destruct (known_live _ _ _ W F) as (_ & _ & OK & _). destruct (ok_conn _ _ OK) as (u & EU & _). rewrite EU.
    assert (IC : is_conn s i u) by (exists p; split; [apply find_by_In; exact F|exact EU]).
    destruct (multi g l m s) as [o r]. destruct IH as (IH1 & IH2). split.
    + intros x I. apply in_app_or in I. destruct I as [I|I].
      * exists i, u. destruct (g_write g u); [|destruct I]. destruct I as [<-|[]]. split; [left; reflexivity|]. auto.
      * destruct (IH1 _ I) as (j & c & A & B & C). exists j, c. split; [right; exact A|]. auto.
    + destruct r as [b|].
      * destruct IH2 as (cs & A & B & C). exists (u :: cs). split; [constructor; auto|]. split; [cbn; rewrite B; reflexivity|cbn; rewrite C; reflexivity].
      * destruct IH2 as (j & A & B). exists j. split; [right; exact A|exact B].
Qed.

Lemma multi_known g l m s : WF s -> (forall i, In i l -> find_by i (s_known s) <> None) -> snd (multi g l m s) <> None.
Proof.
  intros W H E. pose proof (multi_spec g l m s W) as K. destruct (multi g l m s) as [o r]. cbn in E. subst r. destruct K as (_ & i & A & B). exact (H _ A B).
Qed.
Lemma multi_unknown g l m s i : WF s -> In i l -> find_by i (s_known s) = None -> snd (multi g l m s) = None.
Proof.
  intros W. induction l as [|j l IH]; intros I F; [destruct I|]. cbn [multi]. destruct (find_by j (s_known s)) as [p|] eqn:F2; [|reflexivity].
  destruct (known_live _ _ _ W F2) as (_ & _ & OK & _). destruct (ok_conn _ _ OK) as (u & EU & _). rewrite EU.
  destruct I as [->|I]; [congruence|]. specialize (IH I F). destruct (multi g l m s) as [o r]. cbn in *. subst r. reflexivity.
Qed.

Definition quiet (x : out) : Prop := forall y, In y (snd x) -> reg_error y = false.
Lemma quiet_seq x f : quiet x -> (forall s, quiet (f s)) -> quiet (x ;; f).
Proof.
  unfold quiet, seq. destruct x as [s o]. cbn. intros A B. destruct (s_halt s); [exact A|]. specialize (B s). destruct (f s) as [s2 o2]. cbn in *.
  intros y I. apply in_app_or in I. destruct I; auto.
Qed.
Lemma quiet_say l s : (forall y, In y l -> reg_error y = false) -> quiet (say l s).
Proof. exact (fun H => H). Qed.
Lemma quiet_check b s : quiet (check b s).
Proof. intros y I. cbn in I. destruct b; [destruct I|]. destruct I as [<-|[]]. reflexivity. Qed.
Lemma quiet_ub w s : quiet (ub w s).
Proof. intros y [<-|[]]. reflexivity. Qed.
Ltac quiets := repeat first
  [ apply quiet_check | apply quiet_ub
  | apply quiet_say; let y := fresh in let I := fresh in intros y I; repeat (destruct I as [<-|I]; [reflexivity|]); destruct I
  | apply quiet_seq; [|intro]
  | match goal with |- quiet (match ?x with _ => _ end) => destruct x end ].
Lemma quiet_send p s : quiet (send_ping p s).
Proof. unfold send_ping. destruct (p_chosen _); [|apply quiet_ub]. intros y [<-|[]]. reflexivity. Qed.
Lemma quiet_fin p s : quiet (finish_handshake p s).
Proof. unfold finish_handshake. apply quiet_seq; [apply quiet_check|intros s0]. apply quiet_seq; [apply quiet_send|intros s1]. cbv zeta. quiets. Qed.
Ltac quiets2 := repeat first
  [ match goal with
    | |- quiet (finish_handshake _ _) => apply quiet_fin
    | |- quiet (send_ping _ _) => apply quiet_send
    | |- quiet (seq _ _) => apply quiet_seq; [|intro]
    | |- quiet (match ?x with _ => _ end) => destruct x
    end
  | apply quiet_check | apply quiet_ub
  | apply quiet_say; let y := fresh in let I := fresh in intros y I; repeat (destruct I as [<-|I]; [reflexivity|]); destruct I ].
Lemma quiet_ping g c a n s : quiet (ping_task hash g c a n s).
Proof. unfold ping_task. cbv zeta. quiets2. Qed.
Lemma quiet_pong g c a n s : quiet (pong_task hash g c a n s).
Proof. unfold pong_task. cbv zeta. quiets2. Qed.

(** Operations answer according to the operations executed before, and failing
    ones change nothing. *)
Theorem C57_answers : forall es s o g t q s' o', run hash es st0 = Some (s, o) -> s_q s = t :: q ->
  step hash (EDisp g) s = Some (s', OExec t :: o') ->
  match must_fail (execs o) t with
  | Some x => s' = w_q q s /\ (exists l, o' = l ++ [x]) /\ (forall y, In y o' -> reg_error y = true -> y = x)
  | None => forall y, In y o' -> reg_error y = false
  end
  /\ (forall i, t = THas i -> o' = [OHas i (member i (execs o))]).
Proof.
  intros es s o g t q s' o' E Q E1. pose proof (wf_run _ _ _ _ E) as W. pose proof (fun i => known_member _ _ _ i E) as KM.
  unfold step in E1. destruct (s_halt s); [discriminate E1|]. rewrite Q in E1. destruct (task hash g t (w_q q s)) as [s1 o1] eqn:T. injection E1 as -> ->.
  assert (NE : forall x, (exists l, [x : obs] = l ++ [x])) by (intros x; exists []; reflexivity).
  destruct t as [id i|id i|id i a|id i n|i|i|c|id i m|id l m|c a n|c a n]; cbn [task] in T; cbn [must_fail];
    change (s_conn (w_q q s)) with (s_conn s) in T; change (s_known (w_q q s)) with (s_known s) in T; change (s_peer (w_q q s)) with (s_peer s) in T.
  all: try specialize (KM i).
  - split; [|discriminate]. destruct (find_by i (s_known s)) as [p|]; [destruct KM as (KM & _)|]; rewrite KM; injection T as <- <-.
    + split; [reflexivity|]. split; [apply NE|]. intros y [<-|[]] _. reflexivity.
    + intros y [].
  - split; [|discriminate]. destruct (find_by i (s_known s)) as [p|] eqn:F; [destruct KM as (KM & _)|]; rewrite KM.
    + destruct (known_live _ _ _ W F) as (_ & _ & OK & _). destruct (ok_conn _ _ OK) as (u & EU & _). rewrite EU in T. injection T as <- <-.
      intros y [<-|I]; [reflexivity|]. apply in_app_or in I. destruct (p_in (s_peer s p)), (p_out (s_peer s p)); cbn in I; destruct I as [[<-|[]]|[<-|[]]] || destruct I as [[<-|[]]|[]] || destruct I as [[]|[<-|[]]] || destruct I as [[]|[]]; reflexivity.
    + injection T as <- <-. split; [reflexivity|]. split; [apply NE|]. intros y [<-|[]] _. reflexivity.
  - split; [|discriminate]. destruct (find_by i (s_known s)) as [p|]; [destruct KM as (KM & _)|]; rewrite KM; injection T as <- <-.
    + intros y [].
    + split; [reflexivity|]. split; [apply NE|]. intros y [<-|[]] _. reflexivity.
  - split; [|discriminate]. destruct (find_by i (s_known s)) as [p|] eqn:F; [destruct KM as (KM & KA)|]; rewrite KM.
    + rewrite KA. destruct (p_addr (s_peer s p) =? 0)%N; [injection T as <- <-; split; [reflexivity|]; split; [apply NE|]; intros y [<-|[]] _; reflexivity|].
      destruct (known_live _ _ _ W F) as (_ & _ & OK & _). destruct (ok_conn _ _ OK) as (u & EU & _).
      replace (p_state (s_peer _ p)) with (p_state (s_peer s p)) in T by (sel; rewrite upd_same; reflexivity).
      replace (p_conn (s_peer _ p)) with (p_conn (s_peer s p)) in T by (sel; rewrite upd_same; reflexivity).
      destruct (p_state (s_peer s p)); [|rewrite EU in T|]; injection T as <- <-; intros y I; repeat (destruct I as [<-|I]; [reflexivity|]); destruct I.
    + injection T as <- <-. split; [reflexivity|]. split; [apply NE|]. intros y [<-|[]] _. reflexivity.
  - split; [|intros j Ej; injection Ej as <-].
    + injection T as <- <-. intros y [<-|[]]. reflexivity.
    + injection T as <- <-. destruct (find_by i (s_known s)); [destruct KM as (KM & _)|]; rewrite KM; reflexivity.
  - split; [|discriminate]. destruct (find_by i (s_known s)) as [p|]; [destruct KM as (KM & _)|]; rewrite KM; injection T as <- <-.
    + intros y [<-|[]]. reflexivity.
    + split; [reflexivity|]. split; [apply NE|]. intros y [<-|[]] _. reflexivity.
  - split; [|discriminate]. intros y I. destruct (k_peer (s_conn s c)) as [p|]; [destruct (p_live (s_peer s p))|]; injection T as <- <-; destruct I as [<-|[]]; reflexivity.
  - split; [|discriminate]. destruct (find_by i (s_known s)) as [p|] eqn:F; [destruct KM as (KM & _)|]; rewrite KM.
    + destruct (known_live _ _ _ W F) as (_ & _ & OK & _). destruct (ok_conn _ _ OK) as (u & EU & _). rewrite EU in T. injection T as <- <-.
      destruct (g_write g u); intros y [<-|[]]; reflexivity.
    + injection T as <- <-. split; [reflexivity|]. split; [apply NE|]. intros y [<-|[]] _. reflexivity.
  - split; [|discriminate]. pose proof (wf_wq _ _ _ W Q) as W0.
    pose proof (multi_spec g l m _ W0) as MS. destruct (forallb (fun i => member i (execs o)) l) eqn:FA.
    + assert (MK : snd (multi g l m (w_q q s)) <> None).
      { apply multi_known; [exact W0|]. intros i I F. rewrite forallb_forall in FA. specialize (FA i I). specialize (KM i). change (s_known (w_q q s)) with (s_known s) in F. rewrite F in KM. congruence. }
      destruct (multi g l m (w_q q s)) as [o2 r]. destruct MS as (MS & _). cbn in MK. destruct r as [b|]; [|congruence]. injection T as <- <-.
      intros y I. apply in_app_or in I. destruct I as [I|I].
      * destruct (MS _ I) as (j & c & _ & _ & ->). reflexivity.
      * destruct b; [destruct I|]. destruct I as [<-|[]]. reflexivity.
    + assert (MK : snd (multi g l m (w_q q s)) = None).
      { assert (X : exists i, In i l /\ member i (execs o) = false).
        { clear -FA. induction l as [|i l IH]; [discriminate FA|]. cbn in FA. destruct (member i (execs o)) eqn:M; [|exists i; split; [left; reflexivity|exact M]]. destruct (IH FA) as (j & A & B). exists j. split; [right; exact A|exact B]. }
        destruct X as (i & I & M). apply (multi_unknown _ _ _ _ i); [exact W0|exact I|]. specialize (KM i). change (s_known (w_q q s)) with (s_known s). destruct (find_by i (s_known s)); [destruct KM; congruence|reflexivity]. }
      destruct (multi g l m (w_q q s)) as [o2 r]. destruct MS as (MS & _). cbn in MK. subst r. injection T as <- <-.
      split; [reflexivity|]. split; [exists o2; reflexivity|]. intros y I R. apply in_app_or in I. destruct I as [I|I].
      * destruct (MS _ I) as (j & c & _ & _ & ->). discriminate R.
      * destruct I as [<-|[]]. reflexivity.
  - split; [|discriminate]. pose proof (quiet_ping g c a n (w_q q s)) as K. rewrite T in K. exact K.
  - split; [|discriminate]. pose proof (quiet_pong g c a n (w_q q s)) as K. rewrite T in K. exact K.
Qed.

(** The connections counted by get_npending. *)
Definition pending_ok (s : st) : Prop :=
  NoDup (map fst (s_pend s)) /\
  forall a c, In (a, c) (s_pend s) ->
    c < s_nc s /\ k_mode (s_conn s c) = Passive /\ k_addr (s_conn s c) = a /\ k_set (s_conn s c) = true /\ k_torn (s_conn s c) = false.

Lemma pd_mono s s' : pending_ok s -> NoDup (map fst (s_pend s')) -> s_nc s <= s_nc s' ->
  (forall a c, In (a, c) (s_pend s') -> In (a, c) (s_pend s) /\
     (c < s_nc s -> k_mode (s_conn s' c) = k_mode (s_conn s c) /\ k_addr (s_conn s' c) = k_addr (s_conn s c) /\
     (k_set (s_conn s c) = true -> k_set (s_conn s' c) = true) /\ (k_addr (s_conn s c) = a -> k_torn (s_conn s c) = false -> k_torn (s_conn s' c) = false))) -> pending_ok s'.
Proof.
  intros (P1 & P2) N L H. split; [exact N|]. intros a c I. destruct (H a c I) as (I0 & K). destruct (P2 a c I0) as (Q1 & Q2 & Q3 & Q4 & Q5).
  destruct (K Q1) as (K1 & K2 & K3 & K4). rewrite K1, K2. repeat split; auto. lia.
Qed.

Lemma pd_same s s' : pending_ok s -> s_pend s' = s_pend s -> s_nc s' = s_nc s -> (forall c, s_conn s' c = s_conn s c) -> pending_ok s'.
Proof.
  intros P E1 E2 E3. apply (pd_mono s); auto; [rewrite E1; exact (proj1 P)|lia|]. intros a c I. rewrite E1 in I. split; [exact I|]. rewrite E3. auto.
Qed.

Lemma nonce_pd g p s s' n : get_nonce g p s = Some (s', n) -> s_pend s' = s_pend s /\ s_nc s' = s_nc s /\ (forall c, s_conn s' c = s_conn s c).
Proof. intros E. apply get_nonce_spec in E. destruct E as (-> & _). destruct (p_nonce (s_peer s p) =? 0)%N; auto. Qed.

Lemma pd_new k s : pending_ok s -> pending_ok (st_new k s).
Proof.
  intros P. apply (pd_mono s); [exact P|exact (proj1 P)|sel; lia|]. intros a c I. split; [exact I|]. intros L. sel. rewrite upd_other by lia. auto.
Qed.

Lemma pd_fin p c u s s' : pending_ok s -> finished p c u s s' -> pending_ok s'.
Proof.
  intros P [F1 F2 F3 F4 F5 F6 F7 F8 F9]. apply (pd_mono s); [exact P|rewrite F8; apply drop_by_NoDup; exact (proj1 P)|lia|].
  intros a d I. rewrite F8 in I. apply drop_by_In in I. destruct I as (I & NE). split; [exact I|]. intros L. rewrite F1.
  cbn [k_setpeer k_mode k_addr k_set k_torn k_peer]. repeat split; auto.
Qed.

Lemma pd_flags c t u v s l : pending_ok s -> NoDup (map fst l) -> (forall x, In x l -> In x (s_pend s)) -> (k_set (s_conn s c) = true -> u = true) ->
  ((forall x, ~ In (k_addr (s_conn s c), x) l) \/ v = k_torn (s_conn s c)) -> pending_ok (w_pend l (onc c (k_flags t u v) s)).
Proof.
  intros P N I1 U V. apply (pd_mono s); [exact P|exact N|sel; lia|]. intros a d I. split; [apply I1; exact I|]. intros L. sel.
  destruct (Nat.eq_dec d c) as [->|D]; [|rewrite upd_other by exact D; auto]. rewrite upd_same. cbn [k_flags k_mode k_addr k_set k_torn k_peer]. repeat split; auto.
  intros <- T. destruct V as [V| ->]; [|exact T]. exfalso. exact (V _ I).
Qed.

Lemma pending_leaf e s s' o : WF s -> pending_ok s -> leaf hash e s s' o -> pending_ok s'.
Proof.
  intros W P H. pose proof (proj1 P) as ND.
  assert (DR : forall k, NoDup (map fst (drop_by k (s_pend s))) /\ (forall x, In x (drop_by k (s_pend s)) -> In x (s_pend s)) /\ (forall x, ~ In (k, x) (drop_by k (s_pend s)))).
  { intros k. split; [apply drop_by_NoDup; exact ND|]. split; [intros [a v] I; apply drop_by_In in I; tauto|intros x I; apply drop_by_In in I; tauto]. }
  destruct H; try (apply (pd_same s); [exact P|reflexivity|reflexivity|reflexivity]); try (apply pd_new; exact P).
  - apply (pd_flags _ _ _ _ _ (s_pend s)); auto.
  - apply (pd_flags _ _ _ _ _ (s_pend s)); auto.
  - destruct (nonce_pd _ _ _ _ _ H4) as (A & B & C). apply (pd_same (w_pend (s_pend s) (onc c (k_flags (k_term (s_conn s c)) true false) s))); auto.
    apply pd_flags; auto.
  - destruct (DR (k_addr (s_conn s c))) as (D1 & D2 & D3). subst l. split.
    + cbn. constructor; [|exact D1]. intros I. apply in_map_iff in I. destruct I as ([x y] & E & I). cbn in E. subst x. exact (D3 _ I).
    + assert (P' : pending_ok (w_pend (drop_by (k_addr (s_conn s c)) (s_pend s)) (onc c (k_flags (k_term (s_conn s c)) true false) s))) by (apply pd_flags; auto).
      intros a d [I|I]; [|exact (proj2 P' a d I)]. injection I as <- <-. sel. rewrite upd_same. cbn. repeat split; auto.
  - destruct (DR (k_addr (s_conn s c))) as (D1 & D2 & D3). apply (pd_same (w_pend (drop_by (k_addr (s_conn s c)) (s_pend s)) (onc c (k_flags true (k_set (s_conn s c)) true) s))); auto; apply pd_flags; auto.
  - destruct (DR (k_addr (s_conn s c))) as (D1 & D2 & D3). apply (pd_same (w_pend (drop_by (k_addr (s_conn s c)) (s_pend s)) (onc c (k_flags true (k_set (s_conn s c)) true) s))); auto; apply pd_flags; auto.
  - destruct (DR (k_addr (s_conn s c))) as (D1 & D2 & D3). apply (pd_same (w_pend (drop_by (k_addr (s_conn s c)) (s_pend s)) (onc c (k_flags true (k_set (s_conn s c)) true) s))); auto; apply pd_flags; auto.
  - destruct (DR (k_addr (s_conn s c))) as (D1 & D2 & D3). apply (pd_same (w_pend (drop_by (k_addr (s_conn s c)) (s_pend s)) (onc c (k_flags true (k_set (s_conn s c)) true) s))); auto; apply pd_flags; auto.
  - apply (pd_same (st_new (mkConn Passive 0%N None true (Some (s_np s)) true false true) s)); [apply pd_new; exact P|reflexivity|reflexivity|reflexivity].
  - apply (pd_mono s); [exact P| | |].
    + replace (s_pend (st_del i p c (w_q q s))) with (s_pend s); [exact ND|]. unfold st_del. sel. destruct (p_out _), (p_in _); reflexivity.
    + replace (s_nc (st_del i p c (w_q q s))) with (s_nc s); [lia|]. unfold st_del. sel. destruct (p_out _), (p_in _); reflexivity.
    + intros a d I. split.
      * replace (s_pend (st_del i p c (w_q q s))) with (s_pend s) in I; [exact I|]. unfold st_del. sel. destruct (p_out _), (p_in _); reflexivity.
      * intros _. assert (CL : forall x d t, k_mode (s_conn (clear_peer_of x t) d) = k_mode (s_conn t d) /\ k_addr (s_conn (clear_peer_of x t) d) = k_addr (s_conn t d) /\ k_set (s_conn (clear_peer_of x t) d) = k_set (s_conn t d) /\ k_torn (s_conn (clear_peer_of x t) d) = k_torn (s_conn t d)).
        { intros [x|] d' t; cbn [clear_peer_of]; [|auto]. sel. unfold upd. destruct (Nat.eqb_spec d' x); [subst|]; auto. }
        unfold st_del. sel. 
        destruct (CL (p_out (s_peer s p)) d (clear_peer_of (p_in (s_peer s p)) (onc c (k_setpeer None) (w_q q s)))) as (-> & -> & -> & ->).
        destruct (CL (p_in (s_peer s p)) d (onc c (k_setpeer None) (w_q q s))) as (-> & -> & -> & ->).
        change (onc c (k_setpeer None) (w_q q s)) with (clear_peer_of (Some c) (w_q q s)). destruct (CL (Some c) d (w_q q s)) as (-> & -> & -> & ->). auto.
  - destruct (nonce_pd _ _ _ _ _ H7) as (A & B & C). apply (pd_same s); auto.
  - destruct (nonce_pd _ _ _ _ _ H7) as (A & B & C). eapply pd_fin; [|eassumption]. apply (pd_same s); auto.
  - destruct (nonce_pd _ _ _ _ _ H7) as (A & B & C). apply (pd_same s); auto.
  - destruct (nonce_pd _ _ _ _ _ H7) as (A & B & C). eapply pd_fin; [|eassumption]. apply (pd_same s); auto.
Qed.

Lemma pending_run es s o : run hash es st0 = Some (s, o) -> pending_ok s.
Proof.
  apply (run_inv hash (fun s _ => pending_ok s)).
  - split; [constructor|intros a c []].
  - intros e s1 o1 s2 o2 W _ P L. exact (pending_leaf _ _ _ _ W P L).
  - intros s1 s2 _ Q P. apply (pd_same s1); [exact P|symmetry; exact (q_pend _ _ Q)|symmetry; exact (q_nc _ _ Q)|intros c; symmetry; exact (q_conn _ _ Q c)].
Qed.

(** Multicast. *)
Definition queue_of (m : N) (c : nat) : obs := OQueue c m.

(** One error at most, at the end, and none exactly if the message was queued
    to every peer in the list. *)
Theorem C69_multicast_reports : forall es s o g id l m q s' o', run hash es st0 = Some (s, o) -> s_q s = TMulti id l m :: q ->
  step hash (EDisp g) s = Some (s', OExec (TMulti id l m) :: o') ->
  (forall x, In x o' -> (exists i c, In i l /\ is_conn s i c /\ x = OQueue c m) \/ (exists e, x = OErr (Some id) e)) /\
  ((exists cs, Forall2 (is_conn s) l cs /\ o' = map (queue_of m) cs) <-> (forall i e, ~ In (OErr i e) o')) /\
  (forall i e, In (OErr i e) o' -> exists qs, o' = qs ++ [OErr (Some id) (if forallb (fun i => member i (execs o)) l then ConnNotReady else NotExist)] /\ (forall i e, ~ In (OErr i e) qs)).
Proof.
  intros es s o g id l m q s' o' E Q E1. pose proof (C57_answers _ _ _ _ _ _ _ _ E Q E1) as (CA & _). cbn [must_fail] in CA.
  pose proof (wf_run _ _ _ _ E) as W. pose proof (wf_wq _ _ _ W Q) as W0.
  unfold step in E1. destruct (s_halt s); [discriminate E1|]. rewrite Q in E1. cbn [task] in E1. pose proof (multi_spec g l m _ W0) as MS.
  destruct (multi g l m (w_q q s)) as [o2 r]. destruct MS as (M1 & M2). injection E1 as <- <-.
  assert (NQ : forall i e, ~ In (OErr i e) o2) by (intros i e I; destruct (M1 _ I) as (? & ? & _ & _ & X); discriminate X).
  assert (P1 : forall x, In x (o2 ++ match r with Some true => [] | Some false => [OErr (Some id) ConnNotReady] | None => [OErr (Some id) NotExist] end) ->
    (exists i c, In i l /\ is_conn s i c /\ x = OQueue c m) \/ (exists e, x = OErr (Some id) e)).
  { intros x I. apply in_app_or in I. destruct I as [I|I]; [left; exact (M1 _ I)|right]. destruct r as [[|]|]; [destruct I| |]; destruct I as [<-|[]]; eauto. }
  split; [exact P1|]. clear P1.
  assert (LI : forall x, In x (o2 ++ [x])) by (intros x; apply in_or_app; right; left; reflexivity).
  assert (QQ : forall cs i e, ~ In (OErr i e) (map (queue_of m) cs)) by (intros cs i e I; apply in_map_iff in I; destruct I as (c & X & _); discriminate X).
  split; [split|].
  - intros (cs & _ & ->). apply QQ.
  - intros H. destruct r as [[|]|].
    + destruct M2 as (cs & F & -> & B). exists cs. split; [exact F|]. rewrite app_nil_r. clear -B. induction cs as [|c cs IH]; [reflexivity|]. cbn in *. symmetry in B. apply andb_true_iff in B. destruct B as (-> & B). cbn. f_equal. apply IH. symmetry. exact B.
    + exfalso. exact (H (Some id) ConnNotReady (LI _)).
    + exfalso. exact (H (Some id) NotExist (LI _)).
  - intros i e I. exists o2. split; [|exact NQ]. f_equal. destruct (forallb _ l) eqn:FA.
    + destruct r as [[|]|]; [|reflexivity|].
      * exfalso. rewrite app_nil_r in I. exact (NQ _ _ I).
      * exfalso. specialize (CA (OErr (Some id) NotExist) (LI _)). discriminate CA.
    + destruct CA as (_ & (l0 & EL) & CA). destruct r as [[|]|]; [| |reflexivity].
      * exfalso. rewrite app_nil_r in I. exact (NQ _ _ I).
      * exfalso. apply app_inj_tail in EL. destruct EL as (_ & EL). discriminate EL.
Qed.

End R.

(** has_peer on a little-endian machine. *)
Theorem C57_has_peer_little : forall hash es s o i, run hash es st0 = Some (s, o) -> has_peer false s i = Some (member i (execs o)).
Proof.
  intros hash es s o i E. pose proof (known_member hash es s o i E) as K. unfold has_peer. destruct (find_by i (s_known s)).
  - destruct K as (-> & _). vm_compute. reflexivity.
  - rewrite K. vm_compute. reflexivity.
Qed.

Definition g0 : env := mkEnv (Some 7%N) true None (fun _ => true).
Definition h0 : addr -> pid := fun a => a.

(** On a big-endian machine has_peer never finds a peer. *)
Theorem C57_has_peer_big_refuted : exists es s o i, run h0 es st0 = Some (s, o) /\ member i (execs o) = true /\ has_peer true s i = Some false.
Proof.
  exists [EPost (TAdd 0 5%N); EDisp g0].
  destruct (run h0 [EPost (TAdd 0 5%N); EDisp g0] st0) as [[s o]|] eqn:E; [|exfalso; vm_compute in E; discriminate E].
  exists s, o, 5%N. split; [reflexivity|].
  assert (K : option_map (fun x => (member 5%N (execs (snd x)), has_peer true (fst x) 5%N)) (run h0 [EPost (TAdd 0 5%N); EDisp g0] st0) = Some (true, Some false)) by (vm_compute; reflexivity).
  rewrite E in K. cbn [option_map fst snd] in K. injection K as K1 K2. auto.
Qed.

(** The registry, with has_peer read as the bytes the code reads. *)
Theorem C57_registry_partial : forall hash es s o, run hash es st0 = Some (s, o) ->
  filter api (execs o ++ s_q s) = calls es /\
  (forall i, has_peer false s i = Some (member i (execs o))) /\
  (forall g t q s' o', s_q s = t :: q -> step hash (EDisp g) s = Some (s', OExec t :: o') ->
    match must_fail (execs o) t with
    | Some x => s' = w_q q s /\ (exists l, o' = l ++ [x]) /\ (forall y, In y o' -> reg_error y = true -> y = x)
    | None => forall y, In y o' -> reg_error y = false
    end).
Proof.
  intros hash es s o E. split; [exact (C57_order hash es s o E)|]. split; [intros i; exact (C57_has_peer_little hash es s o i E)|].
  intros g t q s' o' Q E1. exact (proj1 (C57_answers hash es s o g t q s' o' E Q E1)).
Qed.

Definition reg_run : list ev := [EPost (TAdd 0 5%N); EPost (TAdd 1 5%N); EPost (TDel 2 6%N); EPost (TSetAddr 3 5%N 9%N); EPost (TDel 4 5%N); EPost (TSend 5 5%N 1%N); EPost (THas 5%N);
  EDisp g0; EDisp g0; EDisp g0; EDisp g0; EDisp g0; EDisp g0; EDisp g0].
Example C57_nonvacuous : option_map (fun x => filter (fun y => match y with OExec _ => false | _ => true end) (snd x)) (run h0 reg_run st0) =
  Some [OErr (Some 1%N) AlreadyExists; OErr (Some 2%N) NotExist; OKill 0; OErr (Some 5%N) NotExist; OHas 5%N false].
Proof. vm_compute. reflexivity. Qed.

(** get_npending. *)
Theorem C64_npending_refuted : exists es s o, run h0 es st0 = Some (s, o) /\ length (s_pend s) = 2 /\ get_npending false s = None /\ get_npending true s = Some 0%N.
Proof.
  set (es := [EAccept 1%N None; EAccept 2%N None; ESetup 0 g0; ESetup 1 g0]). exists es.
  destruct (run h0 es st0) as [[s o]|] eqn:E; [|exfalso; vm_compute in E; discriminate E].
  exists s, o. split; [reflexivity|].
  assert (K : option_map (fun x => (length (s_pend (fst x)), get_npending false (fst x), get_npending true (fst x))) (run h0 es st0) = Some (2, None, Some 0%N)) by (vm_compute; reflexivity).
  rewrite E in K. cbn [option_map fst snd] in K. injection K as K1 K2 K3. auto.
Qed.

(** Exactly for fewer than two pending connections (counted modulo 256) the
    result is defined, and it is the count for fewer than two; what is counted
    are accepted connections that have been set up and not torn down. *)
Theorem C64_npending_partial : forall hash es s o, run hash es st0 = Some (s, o) ->
  (length (s_pend s) <= 1 -> get_npending false s = Some (N.of_nat (length (s_pend s)))) /\
  (get_npending false s <> None <-> (N.of_nat (length (s_pend s)) mod 256 <= 1)%N) /\
  NoDup (map fst (s_pend s)) /\
  (forall a c, In (a, c) (s_pend s) -> k_mode (s_conn s c) = Passive /\ k_addr (s_conn s c) = a /\ k_set (s_conn s c) = true /\ k_torn (s_conn s c) = false).
Proof.
  intros hash es s o E. destruct (pending_run hash es s o E) as (P1 & P2). split; [|split; [|split; [exact P1|intros a c I; destruct (P2 a c I) as (_ & A & B & C & D); auto]]].
  - unfold get_npending. destruct (s_pend s) as [|x [|y l]]; cbn [length]; intros L; [vm_compute; reflexivity|vm_compute; reflexivity|lia].
  - unfold get_npending, read_bool, size_bytes. cbn [map]. replace (N.of_nat (length (s_pend s)) / 2 ^ (8 * N.of_nat 0))%N with (N.of_nat (length (s_pend s))) by (cbn; rewrite N.div_1_r; reflexivity).
    set (k := (N.of_nat (length (s_pend s)) mod 256)%N). destruct k as [|[q|q|]]; split; intros H; try discriminate; try congruence; lia.
Qed.

Example C64_nonvacuous : option_map (fun x => (length (s_pend (fst x)), get_npending false (fst x))) (run h0 [EAccept 1%N None; ESetup 0 g0] st0) = Some (1, Some 1%N).
Proof. vm_compute. reflexivity. Qed.

(** Multicast to a list with an unknown peer: those after it in the list get
    nothing, although they are known and accept messages. *)
Theorem C76_unknown_peer_cuts_off_refuted : exists es s o g id l m q s' o' i c,
  run h0 es st0 = Some (s, o) /\ s_q s = TMulti id l m :: q /\ step h0 (EDisp g) s = Some (s', OExec (TMulti id l m) :: o') /\
  In i l /\ is_conn s i c /\ g_write g c = true /\ ~ In (OQueue c m) o'.
Proof.
  set (es := [EPost (TAdd 0 5%N); EPost (TMulti 1 [6%N; 5%N] 77%N); EDisp g0]). exists es.
  destruct (run h0 es st0) as [[s o]|] eqn:E; [|exfalso; vm_compute in E; discriminate E].
  exists s, o, g0, 1%N, [6%N; 5%N], 77%N, [], (w_q [] s), [OErr (Some 1%N) NotExist], 5%N, 0.
  assert (K : option_map (fun x => (s_q (fst x), s_known (fst x), p_conn (s_peer (fst x) 0), s_halt (fst x))) (run h0 es st0) = Some ([TMulti 1 [6%N; 5%N] 77%N], [(5%N, 0)], Some 0, false)) by (vm_compute; reflexivity).
  rewrite E in K. cbn [option_map fst snd] in K. injection K as K1 K2 K3 K4.
  split; [reflexivity|]. split; [exact K1|]. split.
  { unfold step. rewrite K4, K1. cbn [task multi]. change (s_known (w_q [] s)) with (s_known s). rewrite K2. reflexivity. }
  split; [right; left; reflexivity|]. split; [exists 0; rewrite K2; split; [left; reflexivity|exact K3]|]. split; [reflexivity|].
  intros [X|[]]. discriminate X.
Qed.

(** Those before the first unknown peer get it. *)
Theorem C76_before_unknown_partial : forall hash es s o g id l1 l2 m q s' o' i c, run hash es st0 = Some (s, o) -> s_q s = TMulti id (l1 ++ l2) m :: q ->
  step hash (EDisp g) s = Some (s', OExec (TMulti id (l1 ++ l2) m) :: o') -> (forall j, In j l1 -> member j (execs o) = true) ->
  In i l1 -> is_conn s i c -> g_write g c = true -> In (OQueue c m) o'.
Proof.
  intros hash es s o g id l1 l2 m q s' o' i c E Q E1 A I (p & K & C) G. pose proof (wf_run _ _ _ _ E) as W.
  assert (F : find_by i (s_known s) = Some p) by (apply In_find_by; [exact (w_keys _ W)|exact K]).
  assert (KN : forall j, In j l1 -> find_by j (s_known s) <> None).
  { intros j J. specialize (A j J). pose proof (known_member hash es s o j E) as KM. destruct (find_by j (s_known s)); [discriminate|congruence]. }
  assert (H : In (OQueue c m) (fst (multi g (l1 ++ l2) m (w_q q s)))).
  { clear -I KN F C G W. induction l1 as [|j l1 IH]; [destruct I|]. cbn [app multi]. change (s_known (w_q q s)) with (s_known s). change (s_peer (w_q q s)) with (s_peer s).
    destruct (find_by j (s_known s)) as [p'|] eqn:FJ; [|exfalso; exact (KN j (or_introl eq_refl) FJ)].
    destruct (known_live _ _ _ W FJ) as (_ & _ & OK & _). destruct (ok_conn _ _ OK) as (u & EU & _). rewrite EU.
    destruct (multi g (l1 ++ l2) m (w_q q s)) as [o2 r] eqn:EM. cbn [fst] in *. apply in_or_app. destruct I as [->|I].
    - left. rewrite F in FJ. injection FJ as <-. rewrite C in EU. injection EU as <-. rewrite G. left. reflexivity.
    - right. apply IH; [exact I|]. intros x X. apply KN. right. exact X. }
  unfold step in E1. destruct (s_halt s); [discriminate E1|]. rewrite Q in E1. cbn [task] in E1. destruct (multi g (l1 ++ l2) m (w_q q s)) as [o2 r]. injection E1 as <- <-.
  apply in_or_app. left. exact H.
Qed.
Definition mc_run3 : list ev := [EPost (TAdd 0 5%N); EPost (TMulti 1 [5%N; 6%N] 77%N); EDisp g0; EDisp g0].
Example C76_nonvacuous : option_map (fun x => filter (fun y => match y with OExec _ => false | _ => true end) (snd x)) (run h0 mc_run3 st0) = Some [OQueue 0 77%N; OErr (Some 1%N) NotExist].
Proof. vm_compute. reflexivity. Qed.

Definition mc_run (ok : bool) : list ev := [EPost (TAdd 0 5%N); EPost (TAdd 1 6%N); EPost (TMulti 2 [5%N; 6%N] 77%N); EDisp g0; EDisp g0; EDisp (mkEnv None true None (fun c => ok || (c =? 0)))].
Example C69_nonvacuous : forall ok, option_map (fun x => filter (fun y => match y with OExec _ => false | _ => true end) (snd x)) (run h0 (mc_run ok) st0) =
  Some (if ok then [OQueue 0 77%N; OQueue 1 77%N] else [OQueue 0 77%N; OErr (Some 2%N) ConnNotReady]).
Proof. intros [|]; vm_compute; reflexivity. Qed.

Print Assumptions C57_order.
Print Assumptions C57_answers.
Print Assumptions C57_has_peer_little.
Print Assumptions C57_has_peer_big_refuted.
Print Assumptions C57_registry_partial.
Print Assumptions C64_npending_refuted.
Print Assumptions C64_npending_partial.
Print Assumptions C69_multicast_reports.
Print Assumptions C76_unknown_peer_cuts_off_refuted.
Print Assumptions C76_before_unknown_partial.

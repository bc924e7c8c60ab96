(** The MPSC queue with allocation on demand when no two enqueue calls overlap
    (one producer, or producers excluding each other): C36, C37, C146. *)
From Coq Require Import Arith List Bool Lia Permutation.
From Verif Require Import QueueModel FreeProps QueueSpec QueueProofs QueueProps QueueSeq QueueCap QueueDelModel QueueDelProps.
Import ListNotations.

Section One.
Context {V : Type}.
Variable B : nat.
Hypothesis HB : 0 < B.
Notation prod := (prod V).
Notation qmem := (qmem V).
Notation sys := (sys V).

(** A call of enqueue begins only when no other one is under way. *)
Fixpoint in_turn (evs : list (qev V)) (s : sys) : Prop :=
  match evs with
  | [] => True
  | ev :: evs => (match ev with QEnq _ _ _ => forall p, In p (s_ps s) -> pidle p | _ => True end)
                 /\ match qstep B ev s with Some (s', _) => in_turn evs s' | None => True end
  end.

(** At most one producer is active; the block it has linked is empty until it
    has executed its last store. *)
Definition OI (s : sys) : Prop :=
  (forall i p q, nth_error (s_ps s) i = Some p -> ~ pidle p -> forall j, nth_error (s_ps s) j = Some q -> j <> i -> pidle q)
  /\ forall p t nb, In p (s_ps s) -> p_m p = P8b t nb -> q_bt (s_m s) nb = 0.

Lemma pstep_active spur i (p : prod) m r : pstep B spur i p m = Some r -> ~ pidle p.
Proof. intros E (F & M). destruct p as [f pc v u]. cbn [p_f p_m] in *. subst. discriminate. Qed.

(** The producer's step to P8b starts from P8a. *)
Lemma to_8b spur i (p : prod) m p' m' o t nb : pstep B spur i p m = Some (p', m', o) -> p_m p' = P8b t nb ->
  (p_m p = P8a t nb \/ p_m p = P8b t nb) /\ q_bt m' = q_bt m.
Proof.
  intros E M. destruct p as [f pc v unb]. cbn [pstep] in E.
  destruct f; try (match type of E with match fstep ?a ?b ?c with _ => _ end = _ => destruct (fstep a b c) as [(f1, fl1)|]; [|discriminate] end; injection E as <- <- <-; cbn [p_m] in M; subst pc; split; [right; reflexivity|reflexivity]);
  destruct pc; try discriminate;
  repeat match type of E with context [if ?b then _ else _] => destruct b | context [match ?b with Some _ => _ | None => _ end] => destruct b end;
  injection E as <- <- <-; cbn [p_m] in M; try discriminate. injection M as -> ->. split; [left; reflexivity|reflexivity].
Qed.

(** The consumer changes Block::tail only of the block it takes for rewind. *)
Lemma cstep_bt spur c (m : qmem) c' m' o : cstep B spur c m = Some (c', m', o) -> forall u, q_bt m' u = q_bt m u \/ exists e h, c_m c = W2b e h u.
Proof.
  intros E u. destruct c as [f pc]. cbn [cstep] in E. cbn [c_m].
  destruct f; try (match type of E with match fstep ?a ?b ?c with _ => _ end = _ => destruct (fstep a b c) as [(f1, fl1)|]; [|discriminate] end; injection E as <- <- <-; left; reflexivity);
  destruct pc; try discriminate; try match goal with r : option nat |- _ => destruct r end;
  repeat match type of E with context [if ?b then _ else _] => destruct b | context [match ?b with Some _ => _ | None => _ end] => destruct b end;
  injection E as <- <- <-; try (left; reflexivity).
  cbn [set_bt q_bt]. destruct (Nat.eq_dec u nb) as [->|N]; [right; eauto|left; apply fset_other; exact N].
Qed.

Lemma oi_step ev s s' o l : qstep B ev s = Some (s', o) -> SI B s l -> OI s -> (forall i v u, ev = QEnq i v u -> forall p, In p (s_ps s) -> pidle p) -> OI s'.
Proof.
  intros E (C & L & val & H & _) (O1 & O2) T. destruct s as [m ps c]. unfold OI in *. cbn [s_m s_ps s_c] in *. destruct ev as [i v unb|i spur| |v|spur]; cbn [qstep] in E.
  - specialize (T i v unb eq_refl). destruct (nth_error ps i) as [[f pc v0 u0]|] eqn:N; [|discriminate]. destruct f; try discriminate. destruct pc; try discriminate. injection E as <- <-. cbn [s_ps s_m]. split.
    + intros a p q HP NI j HQ NE. rewrite nth_repl in HP, HQ. destruct (Nat.eqb_spec a i) as [->|A].
      * destruct (Nat.eqb_spec j i) as [EQ|J]; [contradiction|]. apply T. apply (nth_error_In _ _ HQ).
      * exfalso. apply NI, T, (nth_error_In _ _ HP).
    + intros p t nb I M. apply repl_in in I as [->|I]; [discriminate|]. destruct (T p I) as (_ & X). congruence.
  - destruct (nth_error ps i) as [p|] eqn:N; [|discriminate]. destruct (pstep B spur i p m) as [((p' & m') & o')|] eqn:PS; [|discriminate]. injection E as <- <-. cbn [s_ps s_m].
    pose proof (pstep_active _ _ _ _ _ PS) as NI. split.
    + intros a x y HX NX j HY NE. rewrite nth_repl in HX, HY. destruct (Nat.eqb_spec a i) as [->|A].
      * destruct (Nat.eqb_spec j i) as [EQ|J]; [contradiction|]. apply (O1 i p y N NI j HY J).
      * exfalso. apply NX. apply (O1 i p x N NI a HX A).
    + intros x t nb I M. apply In_nth_error in I as (j & I). rewrite nth_repl in I. destruct (Nat.eqb_spec j i) as [EQ|J].
      * rewrite N in I. injection I as <-. destruct (to_8b _ _ _ _ _ _ _ _ _ PS M) as ([X|X] & ->).
        -- pose proof (qi_pok _ _ _ _ _ _ _ H p (nth_error_In _ _ N)) as P. unfold pok in P. rewrite X in P. tauto.
        -- apply (O2 p t nb (nth_error_In _ _ N) X).
      * destruct (O1 i p x N NI j I J) as (_ & X). congruence.
  - destruct c as [f pc]. destruct f; try discriminate. destruct pc; try discriminate. injection E as <- <-. cbn [s_ps s_m]. auto.
  - destruct c as [f pc]. destruct f; try discriminate. destruct pc; try discriminate. injection E as <- <-. cbn [s_ps s_m]. auto.
  - destruct (cstep B spur c m) as [((c' & m') & o')|] eqn:CS; [|discriminate]. injection E as <- <-. cbn [s_ps s_m]. split; [exact O1|].
    intros p t nb I M. destruct (cstep_bt _ _ _ _ _ _ CS nb) as [->|(e & h & W)]; [eauto|]. exfalso.
    pose proof (qi_pok _ _ _ _ _ _ _ H p I) as P. unfold pok in P. rewrite M in P. destruct P as ([P|P] & _); [|congruence].
    pose proof (place B HB _ _ _ _ _ _ H nb) as PL. unfold ownc, ownw in PL. rewrite W, is_same in PL. lia.
Qed.

Lemma oi_timely s l : SI B s l -> OI s -> no_late_store s.
Proof.
  intros (C & L & val & H & _) (_ & O2) h E EF p t I X. specialize (O2 p t h I X). pose proof (qi_cok _ _ _ _ _ _ _ H) as CK. unfold cok in CK. rewrite E in CK. destruct CK as (CK & _). lia.
Qed.

Lemma in_turn_timely evs : forall s s' o l, qrun B evs s = Some (s', o) -> SI B s l -> OI s -> in_turn evs s -> timely B evs s.
Proof.
  induction evs as [|ev evs IH]; cbn [qrun timely in_turn]; intros s s' o l E H HO T; [exact I|].
  destruct T as (T1 & T2). pose proof (oi_timely s l H HO) as NL. split; [destruct ev; auto|].
  destruct (qstep B ev s) as [(s1 & o1)|] eqn:QS; [|exact I]. destruct (qrun B evs s1) as [(s2 & o2)|] eqn:QR; [|discriminate].
  destruct (qstep_inv B HB ev s s1 o1 l QS H) as (l1 & H1 & _); [auto|]. apply (IH s1 s2 o2 l1); auto. apply (oi_step ev s s1 o1 l); auto. intros i v u ->. exact T1.
Qed.

Lemma oi_init (dflt : V) k np : OI (sys0 dflt k np).
Proof.
  split; cbn [sys0 s_ps].
  - intros i p q _ _ j E _. apply nth_error_In, repeat_spec in E. subst q. split; reflexivity.
  - intros p t nb I. apply repeat_spec in I. subst p. discriminate.
Qed.

(** One producer is always in turn. *)
Lemma single_in_turn evs : forall s, length (s_ps s) = 1 -> in_turn evs s \/ exists e, qrun B evs s = e /\ e = None.
Proof.
  induction evs as [|ev evs IH]; cbn [in_turn qrun]; intros s L; [left; exact I|].
  destruct (qstep B ev s) as [(s1 & o1)|] eqn:QS; [|right; eauto].
  assert (L1 : length (s_ps s1) = 1).
  { destruct s as [m ps c]. cbn [s_ps] in L. destruct ev as [i v unb|i spur| |v|spur]; cbn [qstep] in QS.
    - destruct (nth_error ps i) as [[f pc v0 u0]|]; [|discriminate]. destruct f; try discriminate. destruct pc; try discriminate. injection QS as <- <-. cbn [s_ps]. rewrite <- L. clear. revert i. induction ps as [|x ps IHp]; intros [|i]; cbn; auto.
    - destruct (nth_error ps i) as [p|]; [|discriminate]. destruct (pstep B spur i p m) as [((p' & m') & o')|]; [|discriminate]. injection QS as <- <-. cbn [s_ps]. rewrite <- L. clear. revert i. induction ps as [|x ps IHp]; intros [|i]; cbn; auto.
    - destruct c as [f pc]. destruct f; try discriminate. destruct pc; try discriminate. injection QS as <- <-. exact L.
    - destruct c as [f pc]. destruct f; try discriminate. destruct pc; try discriminate. injection QS as <- <-. exact L.
    - destruct (cstep B spur c m) as [((c' & m') & o')|]; [|discriminate]. injection QS as <- <-. exact L. }
  destruct (IH s1 L1) as [H|(e & -> & He)].
  - left. split; [|exact H]. destruct ev as [i v unb| | | |]; auto. destruct s as [m ps c]. cbn [s_ps qstep] in *. destruct ps as [|x [|y ps]]; cbn in L; try discriminate. destruct i as [|[|i]]; cbn in QS; try discriminate.
    destruct x as [f pc v0 u0]. destruct f; try discriminate. destruct pc; try discriminate. intros p [<-|[]]. split; reflexivity.
  - right. rewrite He. eauto.
Qed.
End One.

(** ** The theorems *)

(** When calls of enqueue do not overlap, allocating or not, and with the
    consumer at work at the same time, the queue is first-in first-out. *)
Theorem C36_in_turn : forall V B (dflt : V) k np evs s o, 0 < B -> qrun B evs (sys0 dflt k np) = Some (s, o) -> in_turn B evs (sys0 dflt k np) ->
  (exists l, hist [] o l) /\ (forall i, proto i PIdle o) /\ cproto 0 CIdle o.
Proof.
  intros V B dflt k np evs s o HB E T. split; [|apply (protocol0 B dflt k np evs s o E)].
  destruct (qrun_inv B HB evs _ _ _ [] E (si_init B HB dflt k np)) as (l & _ & H); [|exists l; exact H].
  apply (in_turn_timely B HB evs _ _ _ [] E); [apply (si_init B HB)|apply oi_init|exact T].
Qed.
Print Assumptions C36_in_turn.

Theorem C37_in_turn_partial : forall V B (dflt : V) k np evs s o, 0 < B -> qrun B evs (sys0 dflt k np) = Some (s, o) -> in_turn B evs (sys0 dflt k np) -> quiet s ->
  exists evs' s' o', (forall ev, In ev evs' -> ev = QDeq \/ ev = QCons false) /\ qrun B evs' s = Some (s', o')
    /\ hist [] (o ++ o') [] /\ Permutation (enqueued (o ++ o') ++ rewound (o ++ o')) (dequeued (o ++ o')).
Proof.
  intros V B dflt k np evs s o HB E T Q. apply (C37_drain_partial V B dflt k np evs s o HB E); [|exact Q].
  apply (in_turn_timely B HB evs _ _ _ [] E); [apply (si_init B HB)|apply oi_init|exact T].
Qed.
Print Assumptions C37_in_turn_partial.

Theorem C146_in_turn_partial : forall V B (dflt : V) k np evs s o, 0 < B -> qrun B evs (sys0 dflt k np) = Some (s, o) -> in_turn B evs (sys0 dflt k np) -> quiet s ->
  given_back B s o.
Proof.
  intros V B dflt k np evs s o HB E T Q. apply (C146_given_back_partial V B dflt k np evs s o HB E); [|exact Q].
  apply (in_turn_timely B HB evs _ _ _ [] E); [apply (si_init B HB)|apply oi_init|exact T].
Qed.
Print Assumptions C146_in_turn_partial.

(** In particular with a single producer, under every interleaving. *)
Corollary C37_single_partial : forall V B (dflt : V) k evs s o, 0 < B -> qrun B evs (sys0 dflt k 1) = Some (s, o) -> 
  (exists l, hist [] o l) /\ (quiet s -> given_back B s o /\
  exists evs' s' o', (forall ev, In ev evs' -> ev = QDeq \/ ev = QCons false) /\ qrun B evs' s = Some (s', o')
    /\ hist [] (o ++ o') [] /\ Permutation (enqueued (o ++ o') ++ rewound (o ++ o')) (dequeued (o ++ o'))).
Proof.
  intros V B dflt k evs s o HB E. assert (T : in_turn B evs (sys0 dflt k 1)) by (destruct (single_in_turn B evs (sys0 dflt k 1) eq_refl) as [T|(e & X & Y)]; [exact T|congruence]).
  split; [apply (C36_in_turn V B dflt k 1 evs s o HB E T)|]. intros Q. split; [apply (C146_in_turn_partial V B dflt k 1 evs s o HB E T Q)|apply (C37_in_turn_partial V B dflt k 1 evs s o HB E T Q)].
Qed.
Print Assumptions C37_single_partial.

(** One producer that allocates, the consumer taking what it enqueues while it
    has not executed its last store. *)
Definition one_evs : list (qev nat) :=
  [QEnq 0 1 true] ++ st 0 10 ++ [QEnq 0 2 true] ++ st 0 13 ++ [QDeq] ++ cs 5 ++ [QDeq] ++ cs 4 ++ st 0 13 ++ cs 7 ++ [QEnq 0 3 true] ++ st 0 31 ++ cs 4.
Example C37_single_nonvacuous : exists s o, qrun 1 one_evs (sys0 0 0 1) = Some (s, o) /\ quiet s /\ enqueued o = [1; 2; 3] /\ dequeued o = [1; 2] /\ in_turn 1 one_evs (sys0 0 0 1).
Proof.
  assert (T : in_turn 1 one_evs (sys0 0 0 1)) by (destruct (single_in_turn 1 one_evs (sys0 0 0 1) eq_refl) as [T|(e & X & Y)]; [exact T|]; exfalso; revert X; rewrite Y; vm_compute; discriminate).
  eexists _, _. split; [vm_compute; reflexivity|]. split; [split; [reflexivity|]; intros p [<-|[]]; split; reflexivity|]. split; [reflexivity|]. split; [reflexivity|exact T].
Qed.

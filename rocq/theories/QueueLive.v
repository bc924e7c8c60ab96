(** C147: the MPSC queue with allocation on demand: order of the values, and
    whether enqueue returns. *)
From Coq Require Import Arith List Bool Lia Permutation.
From Verif Require Import QueueModel FreeProps QueueSpec QueueProofs QueueProps QueueSeq QueueCap QueueDelModel QueueDelProps QueueOne.
Import ListNotations.

(** ** The last block is in use when no call is under way *)

Section Live.
Context {V : Type}.
Variable B : nat.
Hypothesis HB : 0 < B.
Notation prod := (prod V).
Notation qmem := (qmem V).
Notation sys := (sys V).

Definition FI (s : sys) : Prop := q_freed (s_m s) (q_tl (s_m s)) = true ->
  (exists p t, In p (s_ps s) /\ p_m p = P8b t (q_tl (s_m s))) \/ q_bnext (s_m s) (q_tl (s_m s)) <> None.

(** No thread prepares the block tail points to. *)
Lemma tl_not_own (m : qmem) ps c C L val : QI B m ps c C L val -> wsum (ownp (q_tl m)) ps = 0 /\ ownw (q_tl m) c = 0.
Proof.
  intros H. destruct (qi_tl _ _ _ _ _ _ _ H) as [(p & t & nb & I & E)|(I & _)].
  - pose proof (qi_pok _ _ _ _ _ _ _ H p I) as P. unfold pok in P. rewrite E in P. destruct P as (-> & _).
    assert (W : 0 < wsum (vld t) ps). { pose proof (wsum_in (vld t) ps p I) as W. unfold vld in W at 1. rewrite E, is_same in W. lia. }
    destruct (qi_vld _ _ _ _ _ _ _ H t W) as (_ & _ & X & Y & _). auto.
  - pose proof (cnt_C1 B HB _ _ _ _ _ _ _ H I) as C1. pose proof (place B HB _ _ _ _ _ _ H (q_tl m)) as P. assert (ownw (q_tl m) c <= ownc (q_tl m) c) by (unfold ownc; destruct (c_m c) eqn:Z; unfold ownw; rewrite ?Z; lia). lia.
Qed.

Lemma fi_step ev s s' o l : qstep B ev s = Some (s', o) -> SI B s l -> FI s -> FI s'.
Proof.
  intros E (C & L & val & H & _) HF. destruct s as [m ps c]. unfold FI in *. cbn [s_m s_ps s_c] in *. pose proof (tl_not_own _ _ _ _ _ _ H) as (TO & TW). pose proof (qi_tlt _ _ _ _ _ _ _ H) as TL.
  destruct ev as [i v unb|i spur| |v|spur]; cbn [qstep] in E.
  - destruct (nth_error ps i) as [[f pc v0 u0]|] eqn:N; [|discriminate]. destruct f; try discriminate. destruct pc; try discriminate. injection E as <- <-. cbn [s_ps s_m]. intros X.
    destruct (HF X) as [(p & t & I & M)|Y]; [|auto]. left. exists p, t. split; [|exact M]. apply In_nth_error in I as (j & I). apply (nth_error_In _ j). rewrite nth_repl. destruct (Nat.eqb_spec j i) as [EQ|J]; [|exact I]. subst j. rewrite N in I. injection I as <-. discriminate.
  - destruct (nth_error ps i) as [p|] eqn:N; [|discriminate]. destruct (pstep B spur i p m) as [((p' & m') & o')|] eqn:PS; [|discriminate]. injection E as <- <-. cbn [s_ps s_m].
    assert (IP : In p ps) by (apply (nth_error_In _ _ N)). assert (IP' : In p' (repl i p' ps)) by (apply (nth_error_In _ i); rewrite nth_repl, Nat.eqb_refl, N; reflexivity).
    assert (OP : ownp (q_tl m) p = 0) by (pose proof (wsum_in (ownp (q_tl m)) ps p IP); lia).
    assert (KEEP : (forall t u, p_m p <> P8b t u) -> forall t, (exists q, In q ps /\ p_m q = P8b t (q_tl m)) -> exists q, In q (repl i p' ps) /\ p_m q = P8b t (q_tl m)).
    { intros NP t (q & I & M). exists q. split; [|exact M]. apply In_nth_error in I as (j & I). apply (nth_error_In _ j). rewrite nth_repl. destruct (Nat.eqb_spec j i) as [EQ|J]; [|exact I]. subst j. rewrite N in I. injection I as <-. destruct (NP _ _ M). }
    assert (GEN : (forall t u, p_m p <> P8b t u) -> q_tl m' = q_tl m -> q_freed m' (q_tl m) = q_freed m (q_tl m) -> (q_bnext m (q_tl m) <> None -> q_bnext m' (q_tl m) <> None) ->
       q_freed m' (q_tl m') = true -> (exists q t, In q (repl i p' ps) /\ p_m q = P8b t (q_tl m')) \/ q_bnext m' (q_tl m') <> None).
    { intros NP -> -> K X. destruct (HF X) as [(q & t & I & M)|Y]; [|auto]. left. destruct (KEEP NP t) as (q' & I' & M'); [eauto|]. eauto. }
    destruct p as [f pc v unb]. cbn [pstep] in PS. cbn [p_m] in *. unfold ownp in OP. cbn [p_m] in OP.
    destruct f; try (match type of PS with match fstep ?a ?b ?c with _ => _ end = _ => destruct (fstep a b c) as [(f1, fl1)|]; [|discriminate] end; injection PS as <- <- <-;
      cbn [set_fl q_freed q_tl q_bnext]; intros X; destruct (HF X) as [(q9 & t9 & I9 & M9)|Y]; [|auto]; left;
      apply In_nth_error in I9 as (j & I9); destruct (Nat.eq_dec j i) as [->|J]; [rewrite N in I9; injection I9 as <-; cbn [p_m] in M9; subst pc; eexists _, t9; split; [exact IP'|reflexivity]|];
      exists q9, t9; split; [|exact M9]; apply (nth_error_In _ j); rewrite nth_repl; destruct (Nat.eqb_spec j i); [contradiction|exact I9]).
    + destruct pc; try discriminate;
      repeat match type of PS with context [if ?b then _ else _] => destruct b | context [match ?b with Some _ => _ | None => _ end] => destruct b end;
      injection PS as <- <- <-; cbn [set_freed set_bh set_bt set_bnext set_el set_av set_tl set_rc set_fl q_freed q_tl q_bnext] in *;
      try (apply GEN; [discriminate|reflexivity|reflexivity|auto]; fail).
      * (* P7c *) apply GEN; [discriminate|reflexivity|reflexivity|]. assert (D : q_tl m <> nb) by (intros D; rewrite D, is_same in OP; discriminate). rewrite fset_other by exact D. auto.
      * (* P7d *) apply GEN; [discriminate|reflexivity|reflexivity|]. unfold fset. destruct (q_tl m =? t); [discriminate|auto].
      * (* PF *) apply GEN; [discriminate|reflexivity| |auto]. assert (D : q_tl m <> nb) by (intros D; rewrite D, is_same in OP; discriminate). apply fset_other. exact D.
      * (* P8a *) intros _. left. eexists _, t. split; [exact IP'|reflexivity].
      * (* P8b *) unfold fset. destruct (Nat.eqb_spec (q_tl m) nb) as [D|D]; [discriminate|]. intros X. destruct (HF X) as [(q & t' & I & M)|Y]; [|auto]. left. exists q, t'. split; [|exact M].
        apply In_nth_error in I as (j & I). apply (nth_error_In _ j). rewrite nth_repl. destruct (Nat.eqb_spec j i) as [EQ|J]; [|exact I]. subst j. rewrite N in I. injection I as <-. cbn [p_m] in M. congruence.
    + destruct pc; try discriminate; injection PS as <- <- <-; apply GEN; auto; discriminate.
    + destruct pc; try discriminate. destruct r as [nb|]; [injection PS as <- <- <-; apply GEN; auto; discriminate|]. destruct unb; injection PS as <- <- <-; apply GEN; auto; try discriminate.
      cbn [q_freed]. apply fset_other. lia.
  - destruct c as [f pc]. destruct f; try discriminate. destruct pc; try discriminate. injection E as <- <-. exact HF.
  - destruct c as [f pc]. destruct f; try discriminate. destruct pc; try discriminate. injection E as <- <-. exact HF.
  - destruct (cstep B spur c m) as [((c' & m') & o')|] eqn:CS; [|discriminate]. injection E as <- <-. cbn [s_ps s_m].
    pose proof (qi_cok _ _ _ _ _ _ _ H) as CK. unfold cok in CK. unfold ownw in TW.
    destruct c as [f pc]. cbn [cstep] in CS. cbn [c_m] in *.
    destruct f; try (match type of CS with match fstep ?a ?b ?c with _ => _ end = _ => destruct (fstep a b c) as [(f1, fl1)|]; [|discriminate] end; injection CS as <- <- <-; exact HF);
    destruct pc; try discriminate; try match goal with r : option nat |- _ => destruct r end;
    repeat match type of CS with context [if ?b then _ else _] => destruct b | context [match ?b with Some _ => _ | None => _ end] => destruct b eqn:? end;
    injection CS as <- <- <-; try exact HF; cbn [set_freed set_bnext q_freed q_tl q_bnext].
    + (* D4 *) unfold fset. destruct (Nat.eqb_spec (q_tl m) h) as [D|D]; [|exact HF]. intros _. right. rewrite D. tauto.
    + (* W2c *) intros X. destruct (HF X) as [Y|Y]; [auto|]. right. unfold fset. destruct (q_tl m =? nb); [discriminate|exact Y].
    + (* WP, alloc *) rewrite fset_other by lia. exact HF.
Qed.

Lemma qrun_fi evs : forall s s' o l, qrun B evs s = Some (s', o) -> SI B s l -> FI s -> timely B evs s -> FI s'.
Proof.
  induction evs as [|ev evs IH]; cbn [qrun timely]; intros s s' o l E H F T; [injection E as <- <-; exact F|].
  destruct T as (T1 & T2). destruct (qstep B ev s) as [(s1 & o1)|] eqn:QS; [|discriminate]. destruct (qrun B evs s1) as [(s2 & o2)|] eqn:QR; [|discriminate]. injection E as <- <-.
  destruct (qstep_inv B HB ev s s1 o1 l QS H) as (l1 & H1 & _). { intros (spur & ->). exact T1. }
  apply (IH s1 s2 o2 l1 QR H1); [|exact T2]. apply (fi_step ev s s1 o1 l QS H F).
Qed.

Lemma qrun_length evs : forall (s s' : sys) o, qrun B evs s = Some (s', o) -> length (s_ps s') = length (s_ps s).
Proof.
  induction evs as [|ev evs IH]; cbn [qrun]; intros s s' o E; [injection E as <- <-; reflexivity|].
  destruct (qstep B ev s) as [(s1 & o1)|] eqn:QS; [|discriminate]. destruct (qrun B evs s1) as [(s2 & o2)|] eqn:QR; [|discriminate]. injection E as <- <-.
  rewrite (IH _ _ _ QR). destruct s as [m ps c]. destruct ev as [i v unb|i spur| |v|spur]; cbn [qstep] in QS.
  - destruct (nth_error ps i) as [[f pc v0 u0]|]; [|discriminate]. destruct f; try discriminate. destruct pc; try discriminate. injection QS as <- <-. apply repl_length.
  - destruct (nth_error ps i) as [p|]; [|discriminate]. destruct (pstep B spur i p m) as [((p' & m') & o')|]; [|discriminate]. injection QS as <- <-. apply repl_length.
  - destruct c as [f pc]. destruct f; try discriminate. destruct pc; try discriminate. injection QS as <- <-. reflexivity.
  - destruct c as [f pc]. destruct f; try discriminate. destruct pc; try discriminate. injection QS as <- <-. reflexivity.
  - destruct (cstep B spur c m) as [((c' & m') & o')|]; [|discriminate]. injection QS as <- <-. reflexivity.
Qed.

(** After a run without a late last store the queue at rest is as it is
    between the calls of one thread. *)
Lemma rest_between (dflt : V) k np evs s o : qrun B evs (sys0 dflt k np) = Some (s, o) -> timely B evs (sys0 dflt k np) -> quiet s -> exists l, hist [] o l /\ between B 0 np s l.
Proof.
  intros E T Q. destruct (qrun_inv B HB evs _ _ _ [] E (si_init B HB dflt k np) T) as (l & H & HI). exists l. split; [exact HI|].
  assert (F0 : FI (sys0 dflt k np)) by (intros X; discriminate X).
  pose proof (qrun_fi evs _ _ _ [] E (si_init B HB dflt k np) F0 T) as F. destruct H as (C & L & val & H & CO). split; [exact Q|]. split; [rewrite (qrun_length _ _ _ _ E); apply repeat_length|].
  split; [pose proof (qi_tlt _ _ _ _ _ _ _ H); lia|]. split; [|exists C, L, val; auto].
  destruct (q_freed (s_m s) (q_tl (s_m s))) eqn:FR; [|reflexivity]. exfalso. destruct Q as (_ & QP).
  assert (NB : q_bnext (s_m s) (q_tl (s_m s)) = None). { destruct (qi_tl _ _ _ _ _ _ _ H) as [(p & t & nb & I & M)|(_ & X)]; [|exact X]. destruct (QP p I). congruence. }
  destruct (F FR) as [(p & t & I & M)|X]; [|contradiction]. destruct (QP p I). congruence.
Qed.
End Live.

(** ** Producers that get nowhere *)

Section Stuck.
Context {V : Type}.
Variable B u : nat.

Definition fkd (f : flpc) : Prop :=
  match f with RSub _ KDone | RLoad _ KDone | RSet _ _ KDone | RCas _ _ KDone | RFix _ KDone | FDone => True | _ => False end.

Definition pstuck (p : prod V) : Prop :=
  match p_m p with
  | PReady | P0 => p_f p = FIdle
  | P1 t | P2 t _ | P3 t | P4 t | P5 t => t = u /\ p_f p = FIdle
  | WRetry => fkd (p_f p)
  | _ => False
  end.

Definition cfwd (c : cons V) : Prop :=
  match c_m c with CReady | D0 | D2 _ | D3 _ _ | D4 _ | WD | D1 _ _ | D5 _ _ | D6 _ _ | D7 _ _ _ => True | _ => False end.

(** [tail] points to a block that is full and has a successor. *)
Definition stuck_ (s : sys V) : Prop :=
  (q_tl (s_m s) = u /\ B <= q_bt (s_m s) u /\ q_bnext (s_m s) u <> None) /\ (forall p, In p (s_ps s) -> pstuck p) /\ cfwd (s_c s).

Lemma fstep_fkd spur p f p' f' : fstep spur p f = Some (p', f') -> fkd p -> fkd p'.
Proof.
  intros E K. destruct f as [top nx rc]. destruct p; try contradiction; try match goal with k : rk |- _ => destruct k; try contradiction end; cbn [fstep] in E;
  repeat match type of E with context [if ?b then _ else _] => destruct b end; try discriminate; injection E as <- <-; exact I.
Qed.

Lemma stuck_run evs : forall (s s' : sys V) o, (forall v, ~ In (QRew v) evs) -> stuck_ s -> qrun B evs s = Some (s', o) -> enqueued o = [] /\ forall i b, ~ In (ORetE i b) o.
Proof.
  induction evs as [|ev evs IH]; intros s s' o NR A E; cbn [qrun] in E; [injection E as <- <-; auto|].
  destruct (qstep B ev s) as [(s1 & o1)|] eqn:QS; [|discriminate]. destruct (qrun B evs s1) as [(s2 & o2)|] eqn:QR; [|discriminate]. injection E as <- <-.
  assert (G : (enqueued o1 = [] /\ forall i b, ~ In (ORetE i b) o1) /\ stuck_ s1).
  { destruct s as [m ps c]. destruct A as ((A1 & A2 & A3) & AP & AC). unfold stuck_. cbn [s_m s_ps s_c] in *. destruct ev as [i v unb|i spur| |v|spur]; cbn [qstep] in QS.
    - destruct (nth_error ps i) as [[f pc v0 u0]|] eqn:N; [|discriminate]. destruct f; try discriminate. destruct pc; try discriminate. injection QS as <- <-. split; [split; [reflexivity|]; intros j b [X|[]]; discriminate|].
      cbn [s_m s_ps s_c]. split; [auto|]. split; [|exact AC]. intros p I. apply repl_in in I as [->|I]; [reflexivity|auto].
    - destruct (nth_error ps i) as [p|] eqn:N; [|discriminate]. destruct (pstep B spur i p m) as [((p' & m') & o')|] eqn:PS; [|discriminate]. injection QS as <- <-. cbn [s_m s_ps s_c].
      assert (K : o' = [] /\ q_tl m' = q_tl m /\ q_bt m' u = q_bt m u /\ q_bnext m' u = q_bnext m u /\ pstuck p').
      { pose proof (AP p (nth_error_In _ _ N)) as P. destruct p as [f pc v unb]. unfold pstuck in P. cbn [p_m p_f] in P. destruct pc; try contradiction; cbn [pstep] in PS.
        - subst f. discriminate.
        - subst f. injection PS as <- <- <-. unfold pstuck. cbn. repeat split; auto.
        - destruct P as (-> & ->). destruct (rc m u =? 0); injection PS as <- <- <-; unfold pstuck; cbn; repeat split; auto.
        - destruct P as (-> & ->). destruct ((rc m u =? c0) && negb spur); injection PS as <- <- <-; unfold pstuck; cbn; repeat split; auto.
        - destruct P as (-> & ->). destruct (q_freed m u); injection PS as <- <- <-; unfold pstuck; cbn; repeat split; auto.
        - destruct P as (-> & ->). destruct (Nat.leb_spec B (q_bt m u)); [|lia]. injection PS as <- <- <-; unfold pstuck; cbn; repeat split; auto.
        - destruct P as (-> & ->). destruct (q_bnext m u) eqn:X; [|contradiction]. injection PS as <- <- <-; unfold pstuck; cbn; repeat split; auto.
        - destruct f; try contradiction;
          try (match type of PS with match fstep ?a ?b ?c with _ => _ end = _ => destruct (fstep a b c) as [(f1, fl1)|] eqn:FE; [|discriminate] end; injection PS as <- <- <-; unfold pstuck; cbn [p_m p_f]; repeat (split; [reflexivity|]); apply (fstep_fkd _ _ _ _ _ FE P)).
          injection PS as <- <- <-. unfold pstuck. cbn. repeat split; auto. }
      destruct K as (-> & K1 & K2 & K3 & K4). split; [split; [reflexivity|]; intros j b []|]. rewrite K1, K2, K3. split; [auto|]. split; [|exact AC]. intros q I. apply repl_in in I as [->|I]; auto.
    - destruct c as [f pc]. destruct f; try discriminate. destruct pc; try discriminate. injection QS as <- <-. split; [split; [reflexivity|]; intros j b []|]. cbn [s_m s_ps s_c]. split; [auto|]. split; [exact AP|exact I].
    - exfalso. apply (NR v). left. reflexivity.
    - destruct (cstep B spur c m) as [((c' & m') & o')|] eqn:CS; [|discriminate]. injection QS as <- <-. cbn [s_m s_ps s_c].
      assert (K : (enqueued o' = [] /\ forall i b, ~ In (ORetE i b) o') /\ q_tl m' = q_tl m /\ q_bt m' u = q_bt m u /\ q_bnext m' u = q_bnext m u /\ cfwd c').
      { destruct c as [f pc]. unfold cfwd in *. cbn [c_m] in AC. cbn [cstep] in CS.
        destruct f; try (match type of CS with match fstep ?a ?b ?c with _ => _ end = _ => destruct (fstep a b c) as [(f1, fl1)|]; [|discriminate] end; injection CS as <- <- <-; cbn; repeat split; auto; fail);
        destruct pc; try discriminate; try contradiction; try match goal with r : option nat |- _ => destruct r end;
        repeat match type of CS with context [if ?b then _ else _] => destruct b | context [match ?b with Some _ => _ | None => _ end] => destruct b end; try discriminate;
        injection CS as <- <- <-; cbn; repeat split; auto; intros j b X; repeat destruct X as [X|X]; try discriminate; contradiction. }
      destruct K as (K0 & K1 & K2 & K3 & K4). split; [exact K0|]. rewrite K1, K2, K3. auto. }
  destruct G as ((G1 & G2) & G3). destruct (IH s1 s2 o2) as (I1 & I2); [intros v J; apply (NR v); right; exact J|exact G3|exact QR|].
  split; [unfold enqueued in *; rewrite flat_map_app, G1, I1; reflexivity|]. intros i b J. apply in_app_or in J as [J|J]; [apply (G2 i b J)|apply (I2 i b J)].
Qed.
End Stuck.

(** ** C147 *)

(** The claim: also when blocks are allocated on demand, the history is that
    of a first-in first-out queue, and when no call is under way a call of
    enqueue comes to an end. *)
Definition returns {V} (B np : nat) (s : sys V) : Prop :=
  forall i (v : V) (unb : bool), i < np -> exists n s' (b : bool), qrun B (QEnq i v unb :: repeat (QProd i false) n) s = Some (s', OCall i v :: (if b then [OEnq i v; ORetE i true] else [ORetE i false])) /\ quiet s' /\ (unb = true -> b = true).
Definition C147_full : Prop := forall (V : Type) B (dflt : V) k np evs s o, 0 < B -> qrun B evs (sys0 dflt k np) = Some (s, o) ->
  (exists l, hist [] o l) /\ (quiet s -> returns B np s).

(** It holds without a late last store, ... *)
Theorem C147_timely_partial : forall (V : Type) B (dflt : V) k np evs s o, 0 < B -> qrun B evs (sys0 dflt k np) = Some (s, o) -> timely B evs (sys0 dflt k np) ->
  (exists l, hist [] o l) /\ (quiet s -> returns B np s).
Proof.
  intros V B dflt k np evs s o HB E T. split; [destruct (qrun_inv B HB evs _ _ _ [] E (si_init B HB dflt k np) T) as (l & _ & X); eauto|].
  intros Q i v unb LT. destruct (rest_between B HB dflt k np evs s o E T Q) as (l & _ & BT).
  destruct (exec_between B 0 np (SEnq i v unb) s l HB LT BT) as (o' & s' & l' & (n & R & Q') & _ & SP).
  exists n, s'. inversion SP; subst.
  - exists true. split; [exact R|]. auto.
  - exists false. split; [exact R|]. split; [exact Q'|discriminate].
Qed.
Print Assumptions C147_timely_partial.

(** ... in particular when blocks only come from the pool, ... *)
Corollary C147_bounded_partial : forall (V : Type) B (dflt : V) k np evs s o, 0 < B -> qrun B evs (sys0 dflt k np) = Some (s, o) -> forallb bounded evs = true ->
  (exists l, hist [] o l) /\ (quiet s -> returns B np s).
Proof.
  intros V B dflt k np evs s o HB E BD. apply (C147_timely_partial V B dflt k np evs s o HB E). apply (bounded_timely B HB evs _ _ _ [] E); [apply (si_init B HB)|apply bi_init|exact BD].
Qed.
Print Assumptions C147_bounded_partial.

(** ... and when calls of enqueue do not overlap. *)
Corollary C147_in_turn_partial : forall (V : Type) B (dflt : V) k np evs s o, 0 < B -> qrun B evs (sys0 dflt k np) = Some (s, o) -> in_turn B evs (sys0 dflt k np) ->
  (exists l, hist [] o l) /\ (quiet s -> returns B np s).
Proof.
  intros V B dflt k np evs s o HB E T. apply (C147_timely_partial V B dflt k np evs s o HB E). apply (in_turn_timely B HB evs _ _ _ [] E); [apply (si_init B HB)|apply oi_init|exact T].
Qed.
Print Assumptions C147_in_turn_partial.

(** Two producers, block size 1, no pool.  Producer 1 is preempted before its
    last store (148, block 1); producer 0 fills block 1 and links block 2 to
    it, but has not moved [tail] yet; the consumer goes on to block 2 and
    gives block 1 back.  Producer 1 executes its store, begins again and reads
    [tail]: block 1.  Producer 0 moves [tail] to block 2, fills it, takes
    block 1 from the pool and resets it; producer 1 appends block 0 to it and
    puts its value there; producer 0 links block 1 behind block 2, moves [tail]
    back to it and fills it. *)
Definition C147_evs : list (qev nat) :=
  [QEnq 0 10 true] ++ st 0 10 ++ [QEnq 1 11 true] ++ st 1 13 ++ [QEnq 0 12 true] ++ st 0 10 ++ [QEnq 0 13 true] ++ st 0 12
  ++ [QDeq] ++ cs 5 ++ [QDeq] ++ cs 11 ++ [QDeq] ++ cs 7 ++ st 1 8 ++ st 0 18 ++ st 1 4 ++ [QEnq 0 14 true] ++ st 0 16 ++ st 1 26 ++ st 0 15.

Lemma opt_snd {A C : Type} (x : option (A * C)) (c : C) : option_map snd x = Some c -> exists a, x = Some (a, c).
Proof. destruct x as [(a, c')|]; intros X; [|discriminate]. injection X as <-. eauto. Qed.

Lemma C147_state : exists s o, qrun 1 C147_evs (sys0 0 0 2) = Some (s, o) /\ quiet s /\ stuck_ 1 1 s /\ enqueued o = [10; 12; 13; 11; 14] /\ dequeued o = [10; 12] /\ rewound o = []
  /\ exists s' o', qrun 1 ([QDeq] ++ cs 5 ++ [QDeq] ++ cs 15 ++ [QDeq] ++ cs 15) s = Some (s', o') /\ dequeued o' = [13; 14; 11] /\ rewound o' = [] /\ enqueued o' = [].
Proof.
  destruct (qrun 1 C147_evs (sys0 0 0 2)) as [(s & o)|] eqn:E; [|vm_compute in E; discriminate]. exists s, o. split; [reflexivity|].
  assert (EO : Some o = option_map snd (qrun 1 C147_evs (sys0 0 0 2))) by (rewrite E; reflexivity). vm_compute in EO. injection EO as EO.
  assert (ES : option_map (fun x => let m := s_m (fst x) in (map (fun p => (p_f p, p_m p)) (s_ps (fst x)), s_c (fst x), (q_tl m, q_bt m 1, q_bnext m 1),
       option_map snd (qrun 1 ([QDeq] ++ cs 5 ++ [QDeq] ++ cs 15 ++ [QDeq] ++ cs 15) (fst x)))) (qrun 1 C147_evs (sys0 0 0 2))
     = Some (repeat (FIdle, PReady) 2, mkC FIdle CReady, (1, 1, Some 0), Some [ODeq 0 13; ORetD 0 (Some 13); ODeq 0 14; ORetD 0 (Some 14); ODeq 0 11; ORetD 0 (Some 11)])) by (vm_compute; reflexivity).
  rewrite E in ES. unfold option_map at 1 in ES. cbn [fst] in ES. injection ES as E1 E2 E3 E4 E5 E6.
  assert (PI : forall p, In p (s_ps s) -> pidle p).
  { intros p I. assert (X : In (p_f p, p_m p) (map (fun p => (p_f p, p_m p)) (s_ps s))) by (apply (in_map (fun p => (p_f p, p_m p))); exact I). rewrite E1 in X. apply (repeat_spec 2) in X. injection X as X1 X2. split; assumption. }
  split; [split; [exact E2|exact PI]|]. split.
  { split; [|split].
    - rewrite E3, E4, E5. repeat split; [lia|discriminate].
    - intros p I. destruct (PI p I) as (X & Y). unfold pstuck. rewrite Y. exact X.
    - unfold cfwd. rewrite E2. exact Logic.I. }
  rewrite EO. split; [reflexivity|]. split; [reflexivity|]. split; [reflexivity|].
  destruct (opt_snd _ _ E6) as (s' & R). exists s', [ODeq 0 13; ORetD 0 (Some 13); ODeq 0 14; ORetD 0 (Some 14); ODeq 0 11; ORetD 0 (Some 11)].
  split; [exact R|]. repeat split.
Qed.

(** No call of enqueue ever returns again, by whichever producer and whatever
    the consumer does. *)
Theorem C147_stuck_refuted : exists s o, qrun 1 C147_evs (sys0 0 0 2) = Some (s, o) /\ quiet s
  /\ forall evs s' o', (forall v, ~ In (QRew v) evs) -> qrun 1 evs s = Some (s', o') -> enqueued o' = [] /\ forall i b, ~ In (ORetE i b) o'.
Proof. destruct C147_state as (s & o & E & Q & S & _). exists s, o. split; [exact E|]. split; [exact Q|]. intros evs s' o' NR R. apply (stuck_run 1 1 evs s s' o' NR S R). Qed.
Print Assumptions C147_stuck_refuted.

(** ... although one can be begun and goes on. *)
Example C147_stuck_call : exists s o s' o', qrun 1 C147_evs (sys0 0 0 2) = Some (s, o) /\ qrun 1 ([QEnq 0 20 true] ++ st 0 80) s = Some (s', o') /\ o' = [OCall 0 20].
Proof.
  destruct (qrun 1 C147_evs (sys0 0 0 2)) as [(s & o)|] eqn:E; [|vm_compute in E; discriminate].
  assert (X : match qrun 1 C147_evs (sys0 0 0 2) with Some (s, _) => option_map snd (qrun 1 ([QEnq 0 20 true] ++ st 0 80) s) | None => None end = Some [OCall 0 20]) by (vm_compute; reflexivity).
  rewrite E in X. destruct (opt_snd _ _ X) as (s' & R). exists s, o, s', [OCall 0 20]. split; [reflexivity|]. split; [exact R|reflexivity].
Qed.

(** The values do not come out in the order in which they went in: 11 was
    accepted, and its call had returned, before 14 was. *)
Theorem C147_order_refuted : exists evs s o, qrun 1 evs (sys0 0 0 2) = Some (s, o) /\ rewound o = [] /\ enqueued o = [10; 12; 13; 11; 14] /\ dequeued o = [10; 12; 13; 14; 11] /\ ~ exists l, hist [] o l.
Proof.
  destruct C147_state as (s & o & E & _ & _ & H1 & H2 & H3 & s' & o' & R & H4 & H5 & H6). exists (C147_evs ++ ([QDeq] ++ cs 5 ++ [QDeq] ++ cs 15 ++ [QDeq] ++ cs 15)), s', (o ++ o').
  assert (RR : forall B (a b : list (qev nat)) x y ox z oz, qrun B a x = Some (y, ox) -> qrun B b y = Some (z, oz) -> qrun B (a ++ b) x = Some (z, ox ++ oz)).
  { clear. intros B a. induction a as [|ev a IH]; cbn [qrun app]; intros b x y ox z oz P Q; [injection P as <- <-; exact Q|]. destruct (qstep B ev x) as [(x1 & o1)|]; [|discriminate]. destruct (qrun B a x1) as [(x2 & o2)|] eqn:A; [|discriminate]. injection P as <- <-.
    rewrite (IH b x1 _ _ _ _ A Q). rewrite app_assoc. reflexivity. }
  assert (EN : enqueued (o ++ o') = [10; 12; 13; 11; 14]) by (unfold enqueued in *; rewrite flat_map_app, H1, H6; reflexivity).
  assert (DE : dequeued (o ++ o') = [10; 12; 13; 14; 11]) by (unfold dequeued in *; rewrite flat_map_app, H2, H4; reflexivity).
  assert (RW : rewound (o ++ o') = []) by (unfold rewound in *; rewrite flat_map_app, H3, H5; reflexivity).
  split; [apply (RR _ _ _ _ _ _ _ _ E R)|]. split; [exact RW|]. split; [exact EN|]. split; [exact DE|].
  intros (l & H). pose proof (hist_fifo _ [] l H RW) as X. cbn [app] in X. rewrite EN, DE in X. discriminate.
Qed.
Print Assumptions C147_order_refuted.

Theorem C147_full_refuted : ~ C147_full.
Proof.
  intros F. destruct C147_order_refuted as (evs & s & o & E & _ & _ & _ & N). apply N. apply (F nat 1 0 0 2 evs s o ltac:(lia) E).
Qed.
Print Assumptions C147_full_refuted.

(** [C37_nonvacuous], [C37_single_nonvacuous] and [C36_nonvacuous] meet the hypotheses. *)
Example C147_nonvacuous : exists s o, qrun 1 one_evs (sys0 0 0 1) = Some (s, o) /\ quiet s /\ in_turn 1 one_evs (sys0 0 0 1).
Proof. destruct C37_single_nonvacuous as (s & o & E & Q & _ & _ & T). exists s, o. exact (conj E (conj Q T)). Qed.

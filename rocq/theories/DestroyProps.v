(** Destroying a network while it works. *)
From Coq Require Import Arith List Bool Lia.
From Verif Require Import DestroyModel.
Import ListNotations.

(** ** What is claimed *)

(** Every thread can be created. *)
Definition starts_ok (es : list ev) : Prop := forall j, ~ In (UStart (Some j)) es.
(** The user stops the network, if they started it, before they destroy it. *)
Definition stops_first (es : list ev) : Prop :=
  forall a f b c, es = a ++ UStart f :: b ++ UDestroy :: c -> In UStop b.
(** Nothing is used after it was destroyed, and the process is not aborted. *)
Definition harmless (o : list obs) : Prop := (forall p, ~ In (OUse p false) o) /\ ~ In OAbort o.
(** Steps of the user's thread in stop() or the destructor, and ends of threads told to stop. *)
Definition ending (e : ev) : bool := match e with UGo | TEnd _ => true | _ => false end.
(** Connections accepted or dialled. *)
Definition is_accept (e : ev) : bool := match e with DAccept _ => true | _ => false end.
Definition accepted (es : list ev) : nat := length (filter is_accept es).
(** How often a connection was closed. *)
Definition is_close (c : nat) (o : obs) : bool := match o with OClose d => d =? c | _ => false end.
Definition closed (c : nat) (o : list obs) : nat := length (filter (is_close c) o).

(** ** Runs *)

Lemma run_app k n a b s s2 o : run k n (a ++ b) s = Some (s2, o) ->
  exists s1 o1 o2, run k n a s = Some (s1, o1) /\ run k n b s1 = Some (s2, o2) /\ o = o1 ++ o2.
Proof.
  revert s o. induction a as [|e a IH]; intros s o H; cbn [app run] in *.
  - exists s, [], o. auto.
  - destruct (step k n e s) as [[sa oa]|]; [|discriminate].
    destruct (run k n (a ++ b) sa) as [[sb ob]|] eqn:R; [|discriminate]. injection H as <- <-.
    destruct (IH _ _ R) as (s1 & o1 & o2 & A & B & C). exists s1, (oa ++ o1), o2. rewrite A. split; [reflexivity|].
    split; [exact B|]. rewrite C. apply app_assoc.
Qed.

Lemma run_snoc k n a e s s2 o : run k n (a ++ [e]) s = Some (s2, o) ->
  exists s1 o1 o2, run k n a s = Some (s1, o1) /\ step k n e s1 = Some (s2, o2) /\ o = o1 ++ o2.
Proof.
  intros H. destruct (run_app _ _ _ _ _ _ _ H) as (s1 & o1 & o2 & A & B & C). cbn [run] in B.
  destruct (step k n e s1) as [[sa oa]|] eqn:S; [|discriminate]. injection B as <- <-.
  exists s1, o1, oa. split; [exact A|]. split; [exact S|]. rewrite C, app_nil_r. reflexivity.
Qed.

(** ** Invariant *)

Definition told (t : tstat) : Prop := t = TTold \/ t = TDone.
Definition threads (n : nat) (s : st) : Prop :=
  match s_pc s with
  | ITell 0 :: _ => s_sys s = 2 /\ forall i, i < n -> s_thr s i = TRun
  | IJoin 0 :: _ => s_sys s = 2 /\ told (s_thr s 0) /\ forall i, 1 <= i < n -> s_thr s i = TRun
  | ITell (S j) :: _ => s_sys s = 2 /\ S j < n /\ s_thr s 0 = TJoined /\ (forall i, 1 <= i < S j -> told (s_thr s i))
                        /\ forall i, S j <= i < n -> s_thr s i = TRun
  | IJoin (S j) :: _ => s_sys s = 2 /\ S j < n /\ (forall i, i < S j -> s_thr s i = TJoined)
                        /\ forall i, S j <= i < n -> told (s_thr s i)
  | ITear :: _ => s_sys s = 2 /\ forall i, i < n -> s_thr s i = TJoined
  | _ => (s_sys s = 0 /\ forall i, i < n -> s_thr s i = TNone)
         \/ (s_sys s = 1 /\ forall i, i < n -> s_thr s i = TRun)
         \/ (s_sys s = 2 /\ forall i, i < n -> s_thr s i = TJoined)
  end.
(** A step of stop() itself. *)
Definition inner (i : instr) : bool := match i with ITell _ | IJoin _ | ITear => true | _ => false end.
Definition instop (s : st) : bool := match s_pc s with i :: _ => inner i | [] => false end.
(** stop() comes before anything is destroyed. *)
Fixpoint guard (l : list instr) : bool :=
  match l with
  | [] => false
  | IStop :: _ => true
  | IFree _ :: _ => false
  | _ :: l => guard l
  end.

Record inv (n : nat) (s : st) : Prop := mkInv {
  i_thr : threads n s;
  i_out : forall i, n <= i -> s_thr s i = TNone;
  i_dead : forall p, s_dead s p = true -> s_sys s <> 1 /\ instop s = false /\ s_over s = true;
  i_guard : s_sys s = 1 -> s_over s = true -> guard (s_pc s) = true;
  i_plain : forall i, In i (tl (s_pc s)) -> inner i = false;
  i_user : s_over s = false -> tl (s_pc s) = [];
  i_free : forall i, In i (s_pc s) -> inner i = false -> i <> IStop -> s_over s = true;
  i_zero : s_sys s = 0 -> s_max s = 0;
  i_done : s_sys s = 2 -> instop s = false -> forall c, in_pool (s_conn s c) = false;
  i_conn : forall c, s_conn s c = Fresh <-> s_max s <= c;
  i_work : forall c, c < s_max s -> s_work s c < n }.

Lemma inv_init n : inv n init.
Proof.
  constructor; cbn; try discriminate; try reflexivity; try tauto.
  - intros c. split; [lia | reflexivity].
  - intros c H. lia.
Qed.

Lemma act_alive n s : inv n s -> forall i, act (s_thr s i) = true ->
  i < n /\ s_sys s <> 0 /\ (s_sys s = 1 \/ instop s = true) /\ forall p, s_dead s p = false.
Proof.
  intros I i A.
  assert (L : i < n).
  { destruct (le_lt_dec n i) as [G|G]; [|exact G]. rewrite (i_out _ _ I i G) in A. discriminate. }
  assert (H : s_sys s <> 0 /\ (s_sys s = 1 \/ instop s = true)).
  { pose proof (i_thr _ _ I) as T. unfold threads, instop in *.
    destruct (s_pc s) as [|[| j | j | | p | v] l]; try destruct j;
      cbn [inner];
      try (destruct T as [T _]; rewrite T; split; [discriminate | right; reflexivity]);
      destruct T as [[T1 T2]|[[T1 T2]|[T1 T2]]];
      first [rewrite T1; split; [discriminate | left; reflexivity]
            | rewrite (T2 i L) in A; discriminate A]. }
  split; [exact L|]. split; [apply H|]. split; [apply H|].
  intros p. destruct (s_dead s p) eqn:D; [|reflexivity].
  destruct (i_dead _ _ I p D) as (D1 & D2 & _). destruct H as [_ [H|H]]; [contradiction | congruence].
Qed.

Lemma in_tl (i : instr) l : In i (tl l) -> In i l.
Proof. destruct l; cbn; auto. Qed.

(** Steps of stop() and of the destructors. *)
Lemma inv_go k n s s' o : 1 <= n -> inv n s -> go k n s = Some (s', o) -> inv n s'.
Proof.
  intros N I G. unfold go in G. destruct I as [T O D GU P U FR Z DN C W].
  destruct (s_pc s) as [|i l] eqn:PC; [discriminate|]. cbn [tl] in P, U.
  assert (PL : forall j, In j l -> inner j = false) by exact P.
  assert (PT : forall j, In j (tl l) -> inner j = false) by (intros j H; apply PL, in_tl, H).
  assert (UT : s_over s = false -> tl l = []) by (intros H; rewrite (U H); reflexivity).
  assert (HL : match l with i :: _ => inner i | [] => false end = false).
  { destruct l as [|j l']; [reflexivity|]. apply PL. left. reflexivity. }
  unfold threads, instop in *. rewrite PC in *.
  destruct i as [| i | i | | p | v].
  - (* IStop *)
    destruct (s_sys s =? 1) eqn:E; injection G as <- <-.
    + apply Nat.eqb_eq in E. constructor; cbn [s_sys s_thr s_dead s_lev s_pc s_over s_conn s_work s_max s_task set_pc set_sys tl inner] in *.
      * unfold threads. cbn [s_pc s_sys s_thr set_pc set_sys]. split; [reflexivity|].
        destruct T as [[T _]|[[_ T]|[T _]]]; [congruence | exact T | congruence].
      * exact O.
      * intros p H. destruct (D p H) as [D1 _]. congruence.
      * discriminate.
      * exact PL.
      * exact U.
      * intros x [<-|H] H1 H2; [discriminate H1 | exact (FR x (or_intror H) H1 H2)].
      * discriminate.
      * unfold instop. cbn. discriminate.
      * exact C.
      * exact W.
    + apply Nat.eqb_neq in E. constructor; cbn [s_sys s_thr s_dead s_lev s_pc s_over s_conn s_work s_max s_task set_pc set_sys tl inner] in *.
      * unfold threads. cbn [s_pc s_sys s_thr set_pc set_sys].
        destruct l as [|j l']; [exact T|]. pose proof (PL j (or_introl eq_refl)) as IJ. destruct j; try discriminate IJ; exact T.
      * exact O.
      * intros p H. destruct (D p H) as (D1 & D2 & D3). unfold instop. cbn [s_pc set_pc]. rewrite HL. auto.
      * intros H. contradiction.
      * exact PT.
      * exact UT.
      * intros x H. exact (FR x (or_intror H)).
      * exact Z.
      * intros H _. apply DN; [exact H | reflexivity].
      * exact C.
      * exact W.
  - (* ITell *)
    injection G as <- <-.
    assert (ND : forall p, s_dead s p = false).
    { intros p. destruct (s_dead s p) eqn:E; [|reflexivity]. destruct (D p E) as (_ & H & _). discriminate H. }
    assert (S2 : s_sys s = 2) by (destruct i; apply T).
    assert (RI : s_thr s i = TRun).
    { destruct i; [apply T; lia|]. destruct T as (_ & L & _ & _ & R). apply R. lia. }
    rewrite RI. constructor; cbn [s_sys s_thr s_dead s_lev s_pc s_over s_conn s_work s_max s_task set_pc set_thr tl inner] in *.
    + unfold threads. cbn [s_pc s_sys s_thr set_pc set_thr].
      destruct i as [|i].
      * split; [exact S2|]. split; [left; reflexivity|]. intros j L. unfold upd. destruct (Nat.eqb_spec j 0); [lia|]. apply T. lia.
      * destruct T as (_ & L & T0 & T1 & T2). destruct (Nat.ltb_spec (S (S i)) n) as [L2|L2].
        -- split; [exact S2|]. split; [exact L2|]. split; [exact T0|]. split.
           ++ intros j H. unfold upd. destruct (Nat.eqb_spec j (S i)); [left; reflexivity | apply T1; lia].
           ++ intros j H. unfold upd. destruct (Nat.eqb_spec j (S i)); [lia | apply T2; lia].
        -- split; [exact S2|]. split; [lia|]. split.
           ++ intros j H. unfold upd. destruct (Nat.eqb_spec j (S i)); [lia|]. replace j with 0 by lia. exact T0.
           ++ intros j H. unfold upd. destruct (Nat.eqb_spec j (S i)); [left; reflexivity | apply T1; lia].
    + intros j L. unfold upd. destruct (Nat.eqb_spec j i) as [->|]; [|exact (O j L)].
      rewrite (O i L) in RI. discriminate.
    + intros p H. rewrite ND in H. discriminate.
    + congruence.
    + exact PL.
    + exact U.
    + intros x [<-|H] H1 H2; [destruct i; [|destruct (_ <? _)]; discriminate H1 | exact (FR x (or_intror H) H1 H2)].
    + congruence.
    + unfold instop. cbn [s_pc set_pc set_thr]. intros _. destruct i; [|destruct (_ <? _)]; discriminate.
    + exact C.
    + exact W.
  - (* IJoin *)
    destruct (s_thr s i) eqn:TI; try discriminate G. injection G as <- <-.
    assert (ND : forall p, s_dead s p = false).
    { intros p. destruct (s_dead s p) eqn:E; [|reflexivity]. destruct (D p E) as (_ & H & _). discriminate H. }
    assert (S2 : s_sys s = 2) by (destruct i; apply T).
    constructor; cbn [s_sys s_thr s_dead s_lev s_pc s_over s_conn s_work s_max s_task set_pc set_thr tl inner] in *.
    + unfold threads. cbn [s_pc s_sys s_thr set_pc set_thr].
      destruct i as [|i].
      * destruct T as (_ & _ & T). destruct (Nat.ltb_spec 1 n) as [L|L].
        -- split; [exact S2|]. split; [exact L|]. split; [reflexivity|]. split; [intros j H; lia|].
           intros j H. unfold upd. destruct (Nat.eqb_spec j 0); [lia | apply T; lia].
        -- split; [exact S2|]. intros j H. replace j with 0 by lia. reflexivity.
      * destruct T as (_ & L & T1 & T2). destruct (Nat.ltb_spec (S (S i)) n) as [L2|L2].
        -- split; [exact S2|]. split; [exact L2|]. split.
           ++ intros j H. unfold upd. destruct (Nat.eqb_spec j (S i)); [reflexivity | apply T1; lia].
           ++ intros j H. unfold upd. destruct (Nat.eqb_spec j (S i)); [lia | apply T2; lia].
        -- split; [exact S2|]. intros j H. unfold upd. destruct (Nat.eqb_spec j (S i)); [reflexivity | apply T1; lia].
    + intros j L. unfold upd. destruct (Nat.eqb_spec j i) as [->|]; [|exact (O j L)].
      rewrite (O i L) in TI. discriminate.
    + intros p H. rewrite ND in H. discriminate.
    + congruence.
    + exact PL.
    + exact U.
    + intros x [<-|H] H1 H2; [destruct i; destruct (_ <? _); discriminate H1 | exact (FR x (or_intror H) H1 H2)].
    + congruence.
    + unfold instop. cbn [s_pc set_pc set_thr]. intros _. destruct i; destruct (_ <? _); discriminate.
    + exact C.
    + exact W.
  - (* ITear *)
    injection G as <- <-.
    assert (ND : forall p, s_dead s p = false).
    { intros p. destruct (s_dead s p) eqn:E; [|reflexivity]. destruct (D p E) as (_ & H & _). discriminate H. }
    destruct T as [S2 T].
    constructor; cbn [s_sys s_thr s_dead s_lev s_pc s_over s_conn s_work s_max s_task set_pc set_conn tl inner] in *.
    + unfold threads. cbn [s_pc s_sys s_thr set_pc set_conn].
      assert (X : (s_sys s = 0 /\ (forall i, i < n -> s_thr s i = TNone)) \/ (s_sys s = 1 /\ (forall i, i < n -> s_thr s i = TRun)) \/
                  (s_sys s = 2 /\ (forall i, i < n -> s_thr s i = TJoined))) by (right; right; split; [exact S2 | exact T]).
      destruct l as [|j l']; [exact X|]. pose proof (PL j (or_introl eq_refl)) as IJ. destruct j; try discriminate IJ; exact X.
    + exact O.
    + intros p H. rewrite ND in H. discriminate.
    + congruence.
    + exact PT.
    + exact UT.
    + intros x H. exact (FR x (or_intror H)).
    + congruence.
    + intros _ _ c. destruct (in_pool (s_conn s c)) eqn:IP; [reflexivity | exact IP].
    + intros c. rewrite <- C. destruct (s_conn s c); cbn; split; congruence.
    + exact W.
  - (* IFree *)
    injection G as <- <-.
    assert (OV : s_over s = true) by (apply (FR (IFree p) (or_introl eq_refl) eq_refl); discriminate).
    assert (S1 : s_sys s <> 1) by (intros S1; specialize (GU S1 OV); discriminate GU).
    constructor; cbn [s_sys s_thr s_dead s_lev s_pc s_over s_conn s_work s_max s_task set_pc kill tl inner] in *.
    + unfold threads. cbn [s_pc s_sys s_thr set_pc kill].
      destruct l as [|j l']; [exact T|]. pose proof (PL j (or_introl eq_refl)) as IJ. destruct j; try discriminate IJ; exact T.
    + exact O.
    + intros q _. unfold instop. cbn [s_pc set_pc kill]. rewrite HL. auto.
    + intros H. contradiction.
    + exact PT.
    + exact UT.
    + intros x H. exact (FR x (or_intror H)).
    + exact Z.
    + intros H _. apply DN; [exact H | reflexivity].
    + exact C.
    + exact W.
  - (* IAs *)
    injection G as <- <-.
    constructor; cbn [s_sys s_thr s_dead s_lev s_pc s_over s_conn s_work s_max s_task set_pc set_lev tl inner] in *.
    + unfold threads. cbn [s_pc s_sys s_thr set_pc set_lev].
      destruct l as [|j l']; [exact T|]. pose proof (PL j (or_introl eq_refl)) as IJ. destruct j; try discriminate IJ; exact T.
    + exact O.
    + intros p H. destruct (D p H) as (D1 & D2 & D3). unfold instop. cbn [s_pc set_pc set_lev]. rewrite HL. auto.
    + exact GU.
    + exact PT.
    + exact UT.
    + intros x H. exact (FR x (or_intror H)).
    + exact Z.
    + intros H _. apply DN; [exact H | reflexivity].
    + exact C.
    + exact W.
Qed.

Ltac same := unfold threads, instop; cbn [s_sys s_thr s_dead s_lev s_pc s_over s_conn s_work s_max s_task set_pc set_sys set_thr set_lev kill set_conn set_task begin grow].

(** A connection in the pool goes on to another phase. *)
Lemma inv_conn n s c x : inv n s -> s_sys s = 1 \/ instop s = true -> c < s_max s -> x <> Fresh -> inv n (set_conn (upd (s_conn s) c x) s).
Proof.
  intros [T O D GU P U FR Z DN C W] A L X. constructor; same.
  - exact T.
  - exact O.
  - exact D.
  - exact GU.
  - exact P.
  - exact U.
  - exact FR.
  - exact Z.
  - intros S2 NI. destruct A as [A|A]; unfold instop in A; [congruence|]. rewrite A in NI. discriminate.
  - intros d. unfold upd. destruct (Nat.eqb_spec d c) as [->|]; [|apply C]. split; [contradiction | lia].
  - exact W.
Qed.

Lemma pooled_lt n s c : inv n s -> s_conn s c <> Fresh -> c < s_max s.
Proof. intros I H. destruct (le_lt_dec (s_max s) c) as [L|L]; [|exact L]. elim H. apply (i_conn _ _ I). exact L. Qed.

Lemma inv_step k n e s s' o : 1 <= n -> inv n s -> (forall j, e <> UStart (Some j)) ->
  (e = UDestroy -> guard (dtor k) = true \/ s_sys s <> 1) -> step k n e s = Some (s', o) -> inv n s'.
Proof.
  intros N I NF DS H.
  destruct e as [f| | | | |i|w|c|c|c|c|c| | ]; cbn [step] in H.
  - (* UStart *)
    unfold idle in H. destruct (s_pc s) eqn:PC; [|discriminate]. destruct (s_over s) eqn:OV; [discriminate|]. cbn [negb] in H.
    destruct (Nat.eqb_spec (s_sys s) 0) as [S0|S0]; [|injection H as <- <-; exact I].
    destruct f as [j|]; [elim (NF j eq_refl)|]. injection H as <- <-.
    destruct I as [T O D GU P U FR Z DN C W]. constructor; same; try rewrite PC; try rewrite OV.
    + right. left. split; [reflexivity|]. intros i L. apply Nat.ltb_lt in L. rewrite L. reflexivity.
    + intros i L. apply Nat.ltb_ge in L. rewrite L. apply O. apply Nat.ltb_ge. exact L.
    + intros p DP. destruct (D p DP) as (_ & _ & X). congruence.
    + discriminate.
    + intros i [].
    + reflexivity.
    + intros p [].
    + discriminate.
    + discriminate.
    + exact C.
    + exact W.
  - (* UStop *)
    unfold idle in H. destruct (s_pc s) eqn:PC; [|discriminate]. destruct (s_over s) eqn:OV; [discriminate|]. injection H as <- <-.
    destruct I as [T O D GU P U FR Z DN C W]. unfold threads, instop in *. rewrite PC in *. constructor; same; try rewrite OV.
    + exact T.
    + exact O.
    + intros p DP. destruct (D p DP) as (_ & _ & X). congruence.
    + discriminate.
    + intros i [].
    + reflexivity.
    + intros x [<-|[]] _ H. elim H. reflexivity.
    + exact Z.
    + intros S2 _. apply DN; [exact S2 | reflexivity].
    + exact C.
    + exact W.
  - (* UDestroy *)
    unfold idle in H. destruct (s_pc s) eqn:PC; [|discriminate]. destruct (s_over s) eqn:OV; [discriminate|]. injection H as <- <-.
    destruct I as [T O D GU P U FR Z DN C W]. unfold threads, instop in *. rewrite PC in *. constructor; same.
    + destruct k; exact T.
    + exact O.
    + intros p DP. destruct (D p DP) as (_ & _ & X). congruence.
    + intros S1 _. destruct (DS eq_refl) as [G|G]; [exact G | contradiction].
    + destruct k; cbn [dtor app tl]; intros i X; repeat (destruct X as [<-|X]; [reflexivity|]); destruct X.
    + discriminate.
    + reflexivity.
    + exact Z.
    + intros S2 _. apply DN; [exact S2 | reflexivity].
    + exact C.
    + exact W.
  - (* UTask *)
    destruct (idle s && has_tab k); [|discriminate]. injection H as <- <-. destruct I as [T O D GU P U FR Z DN C W]. constructor; same; assumption.
  - exact (inv_go k n s s' o N I H).
  - (* TEnd *)
    destruct (s_thr s i) eqn:TI; try discriminate H. injection H as <- <-.
    destruct I as [T O D GU P U FR Z DN C W]. constructor; same; try assumption.
    + unfold threads in T.
      destruct (s_pc s) as [|[| j | j | | p | v] l]; try destruct j;
        repeat match goal with X : _ /\ _ |- _ => destruct X end;
        repeat match goal with |- _ /\ _ => split end; try assumption;
        try (intros x L; unfold upd; destruct (Nat.eqb_spec x i) as [->|]; [try (right; reflexivity) | now auto]);
        try (unfold upd; destruct (Nat.eqb_spec 0 i) as [<-|]; [try (right; reflexivity) | now auto]);
        try congruence;
        try (match goal with F : forall y, _ -> s_thr s y = _, L : _ |- _ => rewrite (F i L) in TI; discriminate TI end).
      all: (destruct T as [[T1 T2]|[[T1 T2]|[T1 T2]]]; [left | right; left | right; right]); (split; [exact T1|]);
        intros x L; unfold upd; (destruct (Nat.eqb_spec x i) as [->|]; [rewrite (T2 i L) in TI; discriminate TI | exact (T2 x L)]).
    + intros x L. unfold upd. destruct (Nat.eqb_spec x i) as [->|]; [rewrite (O i L) in TI; discriminate | exact (O x L)].
  - (* DAccept *)
    unfold disp in H. destruct (act (s_thr s 0)) eqn:A; [|discriminate]. destruct (w <? n) eqn:L; [|discriminate]. injection H as <- <-.
    destruct (act_alive _ _ I 0 A) as (_ & S0 & S1 & ND). apply Nat.ltb_lt in L.
    destruct I as [T O D GU P U FR Z DN C W]. constructor; same; try assumption.
    + intros E. contradiction.
    + intros S2 NI. unfold instop in S1. destruct S1 as [S1|S1]; congruence.
    + intros c. unfold upd. destruct (Nat.eqb_spec c (s_max s)) as [->|]; [split; [discriminate | lia]|]. rewrite C. lia.
    + intros c M. unfold upd. destruct (Nat.eqb_spec c (s_max s)); [exact L | apply W; lia].
  - (* WFeed *)
    destruct (s_conn s c) eqn:CC; try discriminate H. destruct (work s c) eqn:A; [|discriminate]. injection H as <- <-.
    apply inv_conn; [exact I | apply (act_alive _ _ I _ A) | apply (pooled_lt n); [exact I | congruence] | discriminate].
  - (* DSetup *)
    destruct (s_conn s c) eqn:CC; try discriminate H; destruct (disp s) eqn:A; try discriminate H; injection H as <- <-;
      (apply inv_conn; [exact I | apply (act_alive _ _ I _ A) | apply (pooled_lt n); [exact I | congruence] | discriminate]).
  - (* WRead *)
    destruct (s_conn s c) eqn:CC; try discriminate H. destruct (work s c); [|discriminate]. injection H as <- <-. exact I.
  - (* WTerm *)
    destruct (s_conn s c) eqn:CC; try discriminate H; destruct (work s c) eqn:A; try discriminate H; injection H as <- <-;
      (apply inv_conn; [exact I | apply (act_alive _ _ I _ A) | apply (pooled_lt n); [exact I | congruence] | discriminate]).
  - (* DDel *)
    destruct (s_conn s c) eqn:CC; try discriminate H; destruct (disp s) eqn:A; try discriminate H; injection H as <- <-.
    apply inv_conn; [exact I | apply (act_alive _ _ I _ A) | apply (pooled_lt n); [exact I | congruence] | discriminate].
  - (* DTask *)
    destruct (s_task s); [discriminate|]. destruct (disp s); [|discriminate]. injection H as <- <-.
    destruct I as [T O D GU P U FR Z DN C W]. constructor; same; assumption.
  - (* DTimer *)
    destruct k; try discriminate H. destruct (disp s); [|discriminate]. injection H as <- <-. exact I.
Qed.

(** ** Nothing that was destroyed is used *)

Lemma use_ok s p : s_dead s p = false -> use s p = OUse p true.
Proof. unfold use. intros ->. reflexivity. Qed.

Lemma hook_ok k s p : (forall p, s_dead s p = false) -> ~ In (OUse p false) (hook k s) /\ ~ In OAbort (hook k s).
Proof.
  intros ND. unfold hook. destruct (s_lev s); try (split; intros []). destruct (has_tab k); [|split; intros []].
  rewrite (use_ok s Tab (ND Tab)). split; intros [H|[]]; discriminate H.
Qed.

Lemma harmless_app a b : harmless a -> harmless b -> harmless (a ++ b).
Proof. intros [A1 A2] [B1 B2]. split; [intros p H | intros H]; apply in_app_or in H; destruct H; firstorder. Qed.

Lemma harmless_nil : harmless [].
Proof. split; [intros p [] | intros []]. Qed.

Lemma harmless_one x : (forall p, x <> OUse p false) -> x <> OAbort -> harmless [x].
Proof. intros A B. split; [intros p [H|[]] | intros [H|[]]]; [exact (A p H) | exact (B H)]. Qed.

Lemma harmless_use s p : (forall p, s_dead s p = false) -> harmless [use s p].
Proof. intros ND. rewrite (use_ok s p (ND p)). apply harmless_one; intros; discriminate. Qed.

Lemma harmless_hook k s : (forall p, s_dead s p = false) -> harmless (hook k s).
Proof. intros ND. split; [intros p | ]; apply (hook_ok k s Tab ND) || apply (hook_ok k s p ND). Qed.

Lemma harmless_tear k s l : (forall p, s_dead s p = false) -> harmless (flat_map (fun c => use s Pool :: hook k s ++ [OClose c]) l).
Proof.
  intros ND. induction l as [|c l IH]; [exact harmless_nil|]. cbn [flat_map].
  change (harmless (([use s Pool] ++ hook k s ++ [OClose c]) ++ flat_map (fun c => use s Pool :: hook k s ++ [OClose c]) l)).
  apply harmless_app; [|exact IH]. apply harmless_app; [apply harmless_use, ND|]. apply harmless_app; [apply harmless_hook, ND|].
  apply harmless_one; intros; discriminate.
Qed.

Lemma harmless_ret (l : list instr) : harmless (match l with [] => [ORet] | _ => [] end).
Proof. destruct l; [apply harmless_one; intros; discriminate | exact harmless_nil]. Qed.

Lemma instop_alive n s : inv n s -> instop s = true -> forall p, s_dead s p = false.
Proof.
  intros I H p. destruct (s_dead s p) eqn:D; [|reflexivity]. destruct (i_dead _ _ I p D) as (_ & X & _). congruence.
Qed.

Lemma step_harmless k n e s s' o : 1 <= n -> inv n s -> (forall j, e <> UStart (Some j)) -> step k n e s = Some (s', o) -> harmless o.
Proof.
  intros N I NF H.
  assert (IDLE : idle s = true -> forall p, s_dead s p = false).
  { intros IL p. destruct (s_dead s p) eqn:D; [|reflexivity]. destruct (i_dead _ _ I p D) as (_ & _ & X). unfold idle in IL.
    rewrite X in IL. destruct (s_pc s); discriminate. }
  destruct e as [f| | | | |i|w|c|c|c|c|c| | ]; cbn [step] in H.
  - destruct (idle s); [|discriminate]. destruct (s_sys s =? 0); [|injection H as <- <-; apply harmless_one; intros; discriminate].
    destruct f as [j|]; [elim (NF j eq_refl)|]. injection H as <- <-. apply harmless_one; intros; discriminate.
  - destruct (idle s); [|discriminate]. injection H as <- <-. exact harmless_nil.
  - destruct (idle s); [|discriminate]. injection H as <- <-. exact harmless_nil.
  - destruct (idle s) eqn:IL; [|discriminate]. destruct (has_tab k); [|discriminate]. injection H as <- <-. apply harmless_use, IDLE. reflexivity.
  - unfold go in H. pose proof (instop_alive _ _ I) as ND. unfold instop in ND. destruct (s_pc s) as [|i l] eqn:PC; [discriminate|].
    destruct i as [| i | i | | p | v]; cbn [inner] in ND.
    + destruct (s_sys s =? 1); injection H as <- <-; [exact harmless_nil | apply harmless_ret].
    + injection H as <- <-. apply harmless_use, ND. reflexivity.
    + destruct (s_thr s i); try discriminate H. injection H as <- <-. apply harmless_use, ND. reflexivity.
    + injection H as <- <-. apply harmless_app; [apply harmless_tear, ND; reflexivity | apply harmless_ret].
    + injection H as <- <-. apply harmless_app; [|apply harmless_ret]. destruct p; try exact harmless_nil.
      assert (OV : s_over s = true) by (apply (i_free _ _ I (IFree Pool)); [rewrite PC; left; reflexivity | reflexivity | discriminate]).
      assert (S1 : s_sys s <> 1) by (intros S1; pose proof (i_guard _ _ I S1 OV) as G; rewrite PC in G; discriminate G).
      replace (existsb (fun i => joinable (s_thr s i)) (seq 0 n)) with false; [exact harmless_nil|]. symmetry.
      apply not_true_is_false. intros E. apply existsb_exists in E. destruct E as (i & L & J). apply in_seq in L.
      pose proof (i_thr _ _ I) as T. unfold threads in T. rewrite PC in T.
      destruct T as [[_ T]|[[T _]|[_ T]]]; [rewrite T in J; [discriminate J | lia] | contradiction | rewrite T in J; [discriminate J | lia]].
    + injection H as <- <-. apply harmless_ret.
  - destruct (s_thr s i); try discriminate H. injection H as <- <-. exact harmless_nil.
  - unfold disp in H. destruct (act (s_thr s 0)) eqn:A; [|discriminate]. destruct (w <? n); [|discriminate]. injection H as <- <-.
    apply harmless_use, (act_alive _ _ I _ A).
  - destruct (s_conn s c); try discriminate H. destruct (work s c) eqn:A; [|discriminate]. injection H as <- <-.
    apply harmless_use, (act_alive _ _ I _ A).
  - destruct (s_conn s c); try discriminate H; (destruct (disp s) eqn:A; [|discriminate]); injection H as <- <-;
      (apply harmless_app; [apply harmless_hook, (act_alive _ _ I _ A) | apply harmless_use, (act_alive _ _ I _ A)]).
  - destruct (s_conn s c); try discriminate H. destruct (work s c) eqn:A; [|discriminate]. injection H as <- <-.
    destruct (s_lev s); try exact harmless_nil; apply harmless_use, (act_alive _ _ I _ A).
  - destruct (s_conn s c); try discriminate H; (destruct (work s c) eqn:A; [|discriminate]); injection H as <- <-;
      apply harmless_use, (act_alive _ _ I _ A).
  - destruct (s_conn s c); try discriminate H. destruct (disp s) eqn:A; [|discriminate]. injection H as <- <-.
    change (harmless ([use s Pool] ++ hook k s ++ [OClose c])).
    apply harmless_app; [apply harmless_use, (act_alive _ _ I _ A)|]. apply harmless_app; [apply harmless_hook, (act_alive _ _ I _ A)|].
    apply harmless_one; intros; discriminate.
  - destruct (s_task s); [discriminate|]. destruct (disp s) eqn:A; [|discriminate]. injection H as <- <-.
    change (harmless ([use s Tab] ++ [use s Pool])). apply harmless_app; apply harmless_use, (act_alive _ _ I _ A).
  - destruct k; try discriminate H. destruct (disp s) eqn:A; [|discriminate]. injection H as <- <-.
    change (harmless ([use s Tab] ++ [use s Pool])). apply harmless_app; apply harmless_use, (act_alive _ _ I _ A).
Qed.

(** ** Each connection is closed once *)

Definition gone (s : st) (c : nat) : nat := match s_conn s c with Gone => 1 | _ => 0 end.

Lemma closed_app c a b : closed c (a ++ b) = closed c a + closed c b.
Proof. unfold closed. rewrite filter_app, app_length. reflexivity. Qed.

Lemma closed_hook c k s : closed c (hook k s) = 0.
Proof. unfold hook. destruct (s_lev s); try reflexivity. destruct (has_tab k); reflexivity. Qed.

Lemma closed_ret c (l : list instr) : closed c (match l with [] => [ORet] | _ => [] end) = 0.
Proof. destruct l; reflexivity. Qed.

Lemma closed_tear c k s l : NoDup l -> closed c (flat_map (fun c => use s Pool :: hook k s ++ [OClose c]) l) = if in_dec Nat.eq_dec c l then 1 else 0.
Proof.
  induction l as [|d l IH]; intros ND; [reflexivity|]. inversion ND as [|x y X Y]; subst. cbn [flat_map].
  change (closed c (([use s Pool] ++ hook k s ++ [OClose d]) ++ flat_map (fun c => use s Pool :: hook k s ++ [OClose c]) l) = if in_dec Nat.eq_dec c (d :: l) then 1 else 0).
  rewrite !closed_app, closed_hook, (IH Y). unfold closed at 2. cbn [filter is_close length]. unfold closed, use. cbn [filter is_close length].
  destruct (Nat.eqb_spec d c) as [->|E].
  - destruct (in_dec Nat.eq_dec c l) as [Z|Z]; [contradiction|]. destruct (in_dec Nat.eq_dec c (c :: l)) as [Z2|Z2]; [reflexivity|]. elim Z2. left. reflexivity.
  - destruct (in_dec Nat.eq_dec c l) as [Z|Z]; destruct (in_dec Nat.eq_dec c (d :: l)) as [Z2|Z2]; try reflexivity.
    + elim Z2. right. exact Z.
    + destruct Z2 as [Z2|Z2]; contradiction.
Qed.

Lemma step_closed k n e s s' o c : inv n s -> step k n e s = Some (s', o) -> gone s c + closed c o = gone s' c.
Proof.
  intros I H. destruct e as [f| | | | |i|w|d|d|d|d|d| | ]; cbn [step] in H.
  - destruct (idle s); [|discriminate]. destruct (s_sys s =? 0); [|injection H as <- <-; apply Nat.add_0_r].
    destruct f as [j|]; [destruct (j <? n); [|discriminate]|]; injection H as <- <-; apply Nat.add_0_r.
  - destruct (idle s); [|discriminate]. injection H as <- <-. apply Nat.add_0_r.
  - destruct (idle s); [|discriminate]. injection H as <- <-. apply Nat.add_0_r.
  - destruct (idle s && has_tab k); [|discriminate]. injection H as <- <-. apply Nat.add_0_r.
  - unfold go in H. destruct (s_pc s) as [|i l] eqn:PC; [discriminate|]. destruct i as [| i | i | | p | v].
    + destruct (s_sys s =? 1); injection H as <- <-; [apply Nat.add_0_r | rewrite closed_ret; apply Nat.add_0_r].
    + injection H as <- <-. destruct (s_thr s i); apply Nat.add_0_r.
    + destruct (s_thr s i); try discriminate H. injection H as <- <-. apply Nat.add_0_r.
    + injection H as <- <-. rewrite closed_app, closed_ret, Nat.add_0_r.
      rewrite closed_tear by (apply NoDup_filter, seq_NoDup). unfold gone. cbn [s_conn set_pc set_conn].
      destruct (in_dec Nat.eq_dec c (pooled s)) as [P|P]; unfold pooled in P; rewrite filter_In, in_seq in P.
      * destruct P as [_ P]. rewrite P. destruct (s_conn s c); try discriminate P; reflexivity.
      * destruct (in_pool (s_conn s c)) eqn:IP; [|apply Nat.add_0_r]. elim P. split; [|reflexivity]. split; [lia|].
        apply (pooled_lt n); [exact I|]. intros F. rewrite F in IP. discriminate.
    + injection H as <- <-. rewrite closed_app, closed_ret, Nat.add_0_r.
      replace (closed c _) with 0; [apply Nat.add_0_r|]. destruct p; try reflexivity. destruct (existsb _ _); reflexivity.
    + injection H as <- <-. rewrite closed_ret. apply Nat.add_0_r.
  - destruct (s_thr s i); try discriminate H. injection H as <- <-. apply Nat.add_0_r.
  - destruct (disp s && (w <? n)); [|discriminate]. injection H as <- <-. unfold gone. cbn [s_conn grow closed filter is_close length use]. unfold upd.
    destruct (Nat.eqb_spec c (s_max s)) as [->|]; [|apply Nat.add_0_r].
    replace (s_conn s (s_max s)) with Fresh; [reflexivity|]. symmetry. apply (i_conn _ _ I). lia.
  - destruct (s_conn s d) eqn:CD; try discriminate H; (destruct (work s d); [|discriminate]); injection H as <- <-; unfold gone; cbn [s_conn set_conn]; unfold upd;
      (destruct (Nat.eqb_spec c d) as [->|]; [rewrite CD; reflexivity | apply Nat.add_0_r]).
  - destruct (s_conn s d) eqn:CD; try discriminate H; (destruct (disp s); [|discriminate]); injection H as <- <-; rewrite closed_app, closed_hook;
      unfold gone; cbn [s_conn set_conn]; unfold upd;
      (destruct (Nat.eqb_spec c d) as [->|]; [rewrite CD; reflexivity | apply Nat.add_0_r]).
  - destruct (s_conn s d); try discriminate H; (destruct (work s d); [|discriminate]); injection H as <- <-. destruct (s_lev s); apply Nat.add_0_r.
  - destruct (s_conn s d) eqn:CD; try discriminate H; (destruct (work s d); [|discriminate]); injection H as <- <-; unfold gone; cbn [s_conn set_conn]; unfold upd;
      (destruct (Nat.eqb_spec c d) as [->|]; [rewrite CD; reflexivity | apply Nat.add_0_r]).
  - destruct (s_conn s d) eqn:CD; try discriminate H; (destruct (disp s); [|discriminate]); injection H as <- <-.
    change (use s Pool :: hook k s ++ [OClose d]) with ([use s Pool] ++ hook k s ++ [OClose d]). rewrite !closed_app, closed_hook.
    unfold gone; cbn [s_conn set_conn]; unfold upd, closed, use; cbn [filter is_close length].
    destruct (Nat.eqb_spec c d) as [->|]; [rewrite CD, Nat.eqb_refl; reflexivity|]. destruct (Nat.eqb_spec d c); [congruence|]. apply Nat.add_0_r.
  - destruct (s_task s); [discriminate|]. destruct (disp s); [|discriminate]. injection H as <- <-. apply Nat.add_0_r.
  - destruct k; try discriminate H. destruct (disp s); [|discriminate]. injection H as <- <-. apply Nat.add_0_r.
Qed.

Lemma step_max k n e s s' o : step k n e s = Some (s', o) -> s_max s' = s_max s + (if is_accept e then 1 else 0).
Proof.
  intros H. destruct e as [f| | | | |i|w|d|d|d|d|d| | ]; cbn [step is_accept] in *.
  5: { unfold go in H. destruct (s_pc s) as [|[| i | i | | p | v] l]; try discriminate H.
       - destruct (s_sys s =? 1); injection H as <- <-; symmetry; apply Nat.add_0_r.
       - injection H as <- <-. destruct (s_thr s i); symmetry; apply Nat.add_0_r.
       - destruct (s_thr s i); try discriminate H. injection H as <- <-. symmetry; apply Nat.add_0_r.
       - injection H as <- <-. symmetry; apply Nat.add_0_r.
       - injection H as <- <-. symmetry; apply Nat.add_0_r.
       - injection H as <- <-. symmetry; apply Nat.add_0_r. }
  all: repeat match type of H with
         | (if ?b then _ else _) = _ => destruct b; try discriminate H
         | match ?x with _ => _ end = _ => destruct x; try discriminate H
         end; injection H as <- <-; cbn [s_max set_pc set_sys set_thr set_lev kill set_conn set_task begin grow]; lia.
Qed.

(** ** stop() and the destructors end *)

Definition cost1 (n : nat) (i : instr) : nat :=
  match i with
  | IStop => 2 * n + 2
  | ITell 0 => 2 * n + 1
  | IJoin 0 => 2 * n
  | ITell i => n + (n - i)
  | IJoin i => 1 + (n - i)
  | _ => 1
  end.
Fixpoint cost (n : nat) (l : list instr) : nat := match l with [] => 0 | i :: l => cost1 n i + cost n l end.

Lemma go_cost k n s s' o : 1 <= n -> inv n s -> go k n s = Some (s', o) -> cost n (s_pc s') < cost n (s_pc s).
Proof.
  intros N I H. pose proof (i_thr _ _ I) as T. unfold threads in T. unfold go in H. destruct (s_pc s) as [|i l] eqn:PC; [discriminate|].
  destruct i as [| i | i | | p | v].
  - destruct (s_sys s =? 1); injection H as <- <-; cbn [s_pc set_pc cost cost1]; lia.
  - injection H as <- <-. cbn [s_pc set_pc]. destruct i as [|i]; cbn [cost cost1]; [lia|].
    destruct (Nat.ltb_spec (S (S i)) n); cbn [cost cost1]; lia.
  - destruct (s_thr s i); try discriminate H. injection H as <- <-. cbn [s_pc set_pc].
    destruct i as [|i]; [destruct (Nat.ltb_spec 1 n); cbn [cost cost1]; lia|].
    destruct T as (_ & L & _). destruct (Nat.ltb_spec (S (S i)) n); cbn [cost cost1]; lia.
  - injection H as <- <-. cbn [s_pc set_pc cost cost1]. lia.
  - injection H as <- <-. cbn [s_pc set_pc cost cost1]. lia.
  - injection H as <- <-. cbn [s_pc set_pc cost cost1]. lia.
Qed.

Lemma over_keep k n e s s' o : s_over s = true -> step k n e s = Some (s', o) -> s_over s' = true /\ (e = UGo \/ s_pc s' = s_pc s).
Proof.
  intros OV H.
  assert (NI : idle s = false) by (unfold idle; rewrite OV; destruct (s_pc s); reflexivity).
  destruct e as [f| | | | |i|w|d|d|d|d|d| | ]; cbn [step] in *; try rewrite NI in H; try discriminate H.
  1: { split; [|left; reflexivity]. unfold go in H. destruct (s_pc s) as [|[| i | i | | p | v] l]; try discriminate H.
       - destruct (s_sys s =? 1); injection H as <- <-; exact OV.
       - injection H as <- <-. destruct (s_thr s i); exact OV.
       - destruct (s_thr s i); try discriminate H. injection H as <- <-. exact OV.
       - injection H as <- <-. exact OV.
       - injection H as <- <-. exact OV.
       - injection H as <- <-. exact OV. }
  all: repeat match type of H with
         | (if ?b then _ else _) = _ => destruct b; try discriminate H
         | match ?x with _ => _ end = _ => destruct x; try discriminate H
         end; injection H as <- <-; (split; [exact OV | right; reflexivity]).
Qed.

(** ** Runs *)

(** A run in which threads can be created, and a ClientNetwork is stopped before it is destroyed. *)
Definition careful (k : kind) (es : list ev) : Prop := starts_ok es /\ (k = KClient -> stops_first es).

Lemma careful_app k a b : careful k (a ++ b) -> careful k a.
Proof.
  intros [A B]. split; [intros j H; apply (A j), in_or_app; left; exact H|].
  intros K x f y z E. apply (B K x f y (z ++ b)). rewrite E, <- !app_assoc. cbn [app]. rewrite <- !app_assoc. reflexivity.
Qed.

Lemma started k n es : 1 <= n -> careful k es -> forall s o, run k n es init = Some (s, o) ->
  inv n s /\ (s_sys s = 1 -> s_over s = false -> s_pc s = [] -> exists a f b, es = a ++ UStart f :: b /\ ~ In UStop b).
Proof.
  intros N. induction es as [|e es IH] using rev_ind; intros CF s o R.
  - injection R as <- <-. split; [apply inv_init|]. discriminate.
  - destruct (run_snoc _ _ _ _ _ _ _ R) as (s1 & o1 & o2 & A & B & _).
    destruct (IH (careful_app _ _ _ CF) _ _ A) as [I1 J1].
    assert (NF : forall j, e <> UStart (Some j)) by (intros j ->; apply (proj1 CF j), in_or_app; right; left; reflexivity).
    split.
    + apply (inv_step k n e s1 s o2 N I1 NF); [|exact B]. intros ->. destruct k; [left; reflexivity | | left; reflexivity].
      right. intros S1. cbn [step] in B. unfold idle in B. destruct (s_pc s1) eqn:PC; [|discriminate]. destruct (s_over s1) eqn:OV; [discriminate|].
      destruct (J1 S1 eq_refl eq_refl) as (a & f & b & E & NB). apply NB. apply (proj2 CF eq_refl a f b []). rewrite E, <- app_assoc. reflexivity.
    + intros S1 OV PC.
      assert (X : (exists f, e = UStart f /\ s_sys s1 <> 1) \/ e <> UStop /\ s_sys s1 = 1 /\ s_over s1 = false /\ s_pc s1 = []).
      { destruct e as [f| | | | |i|w|d|d|d|d|d| | ]; cbn [step] in B.
        - destruct (Nat.eq_dec (s_sys s1) 1) as [E|E]; [right|left; exists f; auto].
          split; [discriminate|]. split; [exact E|]. unfold idle in B. destruct (s_pc s1); [|discriminate]. destruct (s_over s1); [discriminate | auto].
        - destruct (idle s1); [|discriminate]. injection B as <- <-. discriminate PC.
        - destruct (idle s1); [|discriminate]. injection B as <- <-. discriminate OV.
        - destruct (idle s1 && has_tab k); [|discriminate]. injection B as <- <-. right. split; [discriminate | auto].
        - exfalso. unfold go in B. pose proof (i_free _ _ I1) as FR. destruct (s_pc s1) as [|[| i | i | | p | v] l] eqn:PC1; try discriminate B.
          + destruct (Nat.eqb_spec (s_sys s1) 1); injection B as <- <-; [discriminate PC | contradiction].
          + injection B as <- <-. discriminate PC.
          + destruct (s_thr s1 i); try discriminate B. injection B as <- <-. discriminate PC.
          + injection B as <- <-. cbn [s_sys set_pc set_conn] in S1. pose proof (i_thr _ _ I1) as T. unfold threads in T.
            rewrite PC1 in T. destruct T as [T _]. congruence.
          + injection B as <- <-. cbn in OV. rewrite (FR (IFree p)) in OV; [discriminate OV | left; reflexivity | reflexivity | discriminate].
          + injection B as <- <-. cbn in OV. rewrite (FR (IAs v)) in OV; [discriminate OV | left; reflexivity | reflexivity | discriminate].
        - destruct (s_thr s1 i); try discriminate B. injection B as <- <-. right. split; [discriminate | auto].
        - destruct (disp s1 && (w <? n)); [|discriminate]. injection B as <- <-. right. split; [discriminate | auto].
        - right. split; [discriminate|]. destruct (s_conn s1 d); try discriminate B; destruct (work s1 d); try discriminate B; injection B as <- <-; auto.
        - right. split; [discriminate|]. destruct (s_conn s1 d); try discriminate B; destruct (disp s1); try discriminate B; injection B as <- <-; auto.
        - right. split; [discriminate|]. destruct (s_conn s1 d); try discriminate B; destruct (work s1 d); try discriminate B; injection B as <- <-; auto.
        - right. split; [discriminate|]. destruct (s_conn s1 d); try discriminate B; destruct (work s1 d); try discriminate B; injection B as <- <-; auto.
        - right. split; [discriminate|]. destruct (s_conn s1 d); try discriminate B; destruct (disp s1); try discriminate B; injection B as <- <-; auto.
        - right. split; [discriminate|]. destruct (s_task s1); [discriminate|]. destruct (disp s1); try discriminate B; injection B as <- <-; auto.
        - right. split; [discriminate|]. destruct k; try discriminate B. destruct (disp s1); try discriminate B; injection B as <- <-; auto. }
      destruct X as [(f & -> & _)|(NE & X1 & X2 & X3)].
      * exists es, f, []. split; [reflexivity | intros []].
      * destruct (J1 X1 X2 X3) as (a & f & b & E & NB). exists a, f, (b ++ [e]). split; [rewrite E, <- app_assoc; reflexivity|].
        intros H. apply in_app_or in H. destruct H as [H|[H|[]]]; [exact (NB H) | exact (NE H)].
Qed.

Lemma inv_run k n es s o : 1 <= n -> careful k es -> run k n es init = Some (s, o) -> inv n s.
Proof. intros N C R. apply (started k n es N C s o R). Qed.

(** ** C139 *)

(** Whenever the network is destroyed, whatever its threads are doing: nothing is used after it was
    destroyed, and the process is not aborted. *)
Theorem C139_safe_partial k n es s o : 1 <= n -> careful k es -> run k n es init = Some (s, o) -> harmless o.
Proof.
  intros N. revert s o. induction es as [|e es IH] using rev_ind; intros s o CF R.
  - injection R as <- <-. exact harmless_nil.
  - destruct (run_snoc _ _ _ _ _ _ _ R) as (s1 & o1 & o2 & A & B & ->).
    apply harmless_app; [exact (IH _ _ (careful_app _ _ _ CF) A)|].
    apply (step_harmless k n e s1 s o2 N (inv_run _ _ _ _ _ N (careful_app _ _ _ CF) A)); [|exact B].
    intros j ->. apply (proj1 CF j), in_or_app. right. left. reflexivity.
Qed.
Print Assumptions C139_safe_partial.

Lemma run_cost k n es : 1 <= n -> forall s s2 o, inv n s -> starts_ok es -> s_over s = true -> run k n es s = Some (s2, o) ->
  length (filter (fun e => match e with UGo => true | _ => false end) es) + cost n (s_pc s2) <= cost n (s_pc s).
Proof.
  intros N. induction es as [|e es IH]; intros s s2 o I SO OV R; cbn [run] in R.
  - injection R as <- <-. reflexivity.
  - destruct (step k n e s) as [[s1 o1]|] eqn:S; [|discriminate]. destruct (run k n es s1) as [[s3 o3]|] eqn:R1; [|discriminate].
    injection R as <- <-. destruct (over_keep k n e s s1 o1 OV S) as [OV1 PC].
    assert (I1 : inv n s1).
    { apply (inv_step k n e s s1 o1 N I); [intros j ->; apply (SO j); left; reflexivity | | exact S].
      intros ->. cbn [step] in S. unfold idle in S. rewrite OV in S. destruct (s_pc s); discriminate S. }
    specialize (IH s1 s3 o3 I1 (fun j H => SO j (or_intror H)) OV1 R1).
    assert (X : (if match e with UGo => true | _ => false end then 1 else 0) + cost n (s_pc s1) <= cost n (s_pc s)).
    { destruct PC as [->|PC]; [exact (go_cost k n s s1 o1 N I S)|].
      destruct e; rewrite PC; try (cbn; lia). pose proof (go_cost k n s s1 o1 N I S). rewrite PC in H. lia. }
    cbn [filter]. destruct e; cbn [length]; lia.
Qed.

Lemma go_on k n s : 1 <= n -> inv n s -> s_pc s <> [] ->
  step k n UGo s <> None \/ exists i s' o', step k n (TEnd i) s = Some (s', o') /\ step k n UGo s' <> None.
Proof.
  intros N I H. pose proof (i_thr _ _ I) as T. unfold threads in T. cbn [step]. unfold go.
  destruct (s_pc s) as [|[| i | i | | p | v] l] eqn:PC; [contradiction| | | | | | ].
  - left. destruct (s_sys s =? 1); discriminate.
  - left. discriminate.
  - assert (TI : told (s_thr s i)) by (destruct i; [apply T | destruct T as (_ & L & _ & T); apply T; lia]).
    destruct TI as [TI|TI].
    + right. exists i. rewrite TI. exists (set_thr (upd (s_thr s) i TDone) s), []. split; [reflexivity|].
      cbn [s_pc set_thr s_thr]. rewrite PC. unfold upd at 1. rewrite Nat.eqb_refl. discriminate.
    + left. rewrite TI. discriminate.
  - left. discriminate.
  - left. discriminate.
  - left. discriminate.
Qed.

(** The destructor ends: its thread takes at most [6 * n + 12] steps, and until then it can go on, or waits for a
    thread that can end. *)
Theorem C139_ends k n es1 es2 s o : 1 <= n -> careful k (es1 ++ UDestroy :: es2) ->
  run k n (es1 ++ UDestroy :: es2) init = Some (s, o) ->
  length (filter (fun e => match e with UGo => true | _ => false end) es2) <= 6 * n + 12 /\
  (s_pc s <> [] -> step k n UGo s <> None \/
     exists i s' o', step k n (TEnd i) s = Some (s', o') /\ step k n UGo s' <> None).
Proof.
  intros N CF R. pose proof (inv_run _ _ _ _ _ N CF R) as I. split; [|exact (go_on k n s N I)].
  change (es1 ++ UDestroy :: es2) with (es1 ++ [UDestroy] ++ es2) in *. rewrite app_assoc in CF, R.
  destruct (run_app _ _ _ _ _ _ _ R) as (s1 & o1 & o2 & A & B & _).
  pose proof (inv_run _ _ _ _ _ N (careful_app _ _ _ CF) A) as I1.
  assert (OV : s_over s1 = true /\ s_pc s1 = dtor k).
  { destruct (run_snoc _ _ _ _ _ _ _ A) as (s0 & o0 & o3 & _ & S & _). cbn [step] in S. destruct (idle s0); [|discriminate].
    injection S as <- <-. split; reflexivity. }
  destruct OV as [OV PC].
  assert (SO : starts_ok es2) by (intros j H; apply (proj1 CF j), in_or_app; right; exact H).
  pose proof (run_cost k n es2 N s1 s o2 I1 SO OV B) as C. rewrite PC in C.
  assert (D : cost n (dtor k) <= 6 * n + 12) by (destruct k; cbn [dtor app cost cost1]; lia).
  lia.
Qed.
Print Assumptions C139_ends.

(** When it has returned, all threads have ended and been joined, nothing happens any more, and every connection ever
    accepted or dialled has been closed, once. *)
Theorem C139_nothing_left k n es s o : 1 <= n -> careful k es -> run k n es init = Some (s, o) ->
  s_over s = true -> s_pc s = [] ->
  (forall i, s_thr s i = TNone \/ s_thr s i = TJoined) /\
  (forall e, step k n e s = None) /\
  (forall c, closed c o = if c <? accepted es then 1 else 0).
Proof.
  intros N CF R OV PC. pose proof (inv_run _ _ _ _ _ N CF R) as I.
  assert (S1 : s_sys s <> 1) by (intros S1; pose proof (i_guard _ _ I S1 OV) as G; rewrite PC in G; discriminate G).
  assert (TH : forall i, s_thr s i = TNone \/ s_thr s i = TJoined).
  { intros i. destruct (le_lt_dec n i) as [L|L]; [left; exact (i_out _ _ I i L)|].
    pose proof (i_thr _ _ I) as T. unfold threads in T. rewrite PC in T.
    destruct T as [[_ T]|[[T _]|[_ T]]]; [left; exact (T i L) | contradiction | right; exact (T i L)]. }
  assert (NA : forall i, act (s_thr s i) = false) by (intros i; destruct (TH i) as [->| ->]; reflexivity).
  split; [exact TH|]. split.
  - assert (NI : idle s = false) by (unfold idle; rewrite PC, OV; reflexivity).
    intros e. destruct e as [f| | | | |i|w|d|d|d|d|d| | ]; cbn [step]; try rewrite NI; try reflexivity.
    + unfold go. rewrite PC. reflexivity.
    + destruct (TH i) as [->| ->]; reflexivity.
    + unfold disp. rewrite NA. reflexivity.
    + destruct (s_conn s d); try reflexivity. unfold work. rewrite NA. reflexivity.
    + destruct (s_conn s d); try reflexivity; unfold disp; rewrite NA; reflexivity.
    + destruct (s_conn s d); try reflexivity. unfold work. rewrite NA. reflexivity.
    + destruct (s_conn s d); try reflexivity; unfold work; rewrite NA; reflexivity.
    + destruct (s_conn s d); try reflexivity. unfold disp. rewrite NA. reflexivity.
    + destruct (s_task s); [reflexivity|]. unfold disp. rewrite NA. reflexivity.
    + destruct k; try reflexivity. unfold disp. rewrite NA. reflexivity.
  - assert (X : forall es s o, careful k es -> run k n es init = Some (s, o) -> (forall c, closed c o = gone s c) /\ s_max s = accepted es).
    { clear - N. intros es. induction es as [|e es IH] using rev_ind; intros s o CF R.
      - injection R as <- <-. split; reflexivity.
      - destruct (run_snoc _ _ _ _ _ _ _ R) as (s1 & o1 & o2 & A & B & ->).
        pose proof (careful_app _ _ _ CF) as CF1. destruct (IH _ _ CF1 A) as [IH1 IH2]. split.
        + intros c. rewrite closed_app, IH1. exact (step_closed k n e s1 s o2 c (inv_run _ _ _ _ _ N CF1 A) B).
        + rewrite (step_max _ _ _ _ _ _ B), IH2. unfold accepted. rewrite filter_app, app_length. cbn [filter]. destruct (is_accept e); reflexivity. }
    destruct (X es s o CF R) as [X1 X2]. intros c. rewrite X1. unfold gone.
    destruct (Nat.ltb_spec c (accepted es)) as [L|L].
    + assert (NP : in_pool (s_conn s c) = false).
      { pose proof (i_thr _ _ I) as T. unfold threads in T. rewrite PC in T. destruct T as [[T _]|[[T _]|[T _]]].
        - rewrite <- X2, (i_zero _ _ I T) in L. lia.
        - contradiction.
        - apply (i_done _ _ I T). unfold instop. rewrite PC. reflexivity. }
      assert (NFR : s_conn s c <> Fresh) by (rewrite (i_conn _ _ I c); lia).
      destruct (s_conn s c); try discriminate NP; [contradiction | reflexivity].
    + replace (s_conn s c) with Fresh; [reflexivity|]. symmetry. apply (i_conn _ _ I). lia.
Qed.
Print Assumptions C139_nothing_left.

(** What is wanted: the same without conditions. *)
Definition C139_safe_full : Prop :=
  forall k n es s o, 1 <= n -> run k n es init = Some (s, o) -> harmless o.

(** A ClientNetwork that is destroyed while a client connects: the dispatcher enters the client into the table
    after that was destroyed. *)
Definition client_run : list ev :=
  [UStart None; DAccept 0; WFeed 0; UDestroy; UGo; DSetup 0].
Theorem C139_client_refuted : exists es s o, starts_ok es /\ run KClient 1 es init = Some (s, o) /\ In (OUse Tab false) o.
Proof.
  exists client_run. eexists. eexists. split; [|split; [vm_compute; reflexivity | cbn; tauto]].
  intros j. cbn. intuition discriminate.
Qed.
Print Assumptions C139_client_refuted.

(** The same with a message that the user sent before. *)
Theorem C139_client_send_refuted : exists es s o, starts_ok es /\ run KClient 1 es init = Some (s, o) /\ In (OUse Tab false) o /\
  forall e, In e es -> is_accept e = false.
Proof.
  exists [UStart None; UTask; UDestroy; UGo; UGo; UGo; UGo; DTask]. eexists. eexists.
  split; [|split; [vm_compute; reflexivity | split; [cbn; tauto|]]].
  - intros j. cbn. intuition discriminate.
  - cbn. intros e H. repeat (destruct H as [<-|H]; [reflexivity|]). destruct H.
Qed.
Print Assumptions C139_client_send_refuted.

(** A start() that throws because the second thread cannot be created leaves the first one running; the destructor does
    not stop it: the process is aborted, after members that thread uses were destroyed. *)
Theorem C139_start_refuted : exists es s o,
  run KPeer 2 es init = Some (s, o) /\ In OThrow o /\ In OAbort o /\ In (OUse Tab false) o.
Proof.
  exists ([UStart (Some 1); UDestroy; UGo; UGo; DTimer] ++ repeat UGo 6). eexists. eexists.
  split; [vm_compute; reflexivity|]. cbn. tauto.
Qed.
Print Assumptions C139_start_refuted.

Theorem C139_safe_full_refuted : ~ C139_safe_full.
Proof.
  intros F. destruct C139_client_refuted as (es & s & o & _ & R & H). destruct (F KClient 1 es s o (le_n 1) R) as [X _]. exact (X Tab H).
Qed.
Print Assumptions C139_safe_full_refuted.

(** The conditions are met, for instance, by a PeerNetwork with three threads that is destroyed while it accepts and
    loses connections, and by a ClientNetwork that is stopped first. *)
Definition peer_run : list ev :=
  [UStart None; UTask; DAccept 1; DAccept 2; WFeed 0; DSetup 0; UDestroy; UGo; DAccept 0; UGo; WRead 0; WTerm 0; DTask; DDel 0; WFeed 1; TEnd 0;
   UGo; WTerm 1; UGo; UGo; TEnd 2; TEnd 1; UGo; UGo] ++ repeat UGo 8.
Example C139_nonvacuous :
  (careful KPeer peer_run /\ exists s o, run KPeer 3 peer_run init = Some (s, o) /\ s_over s = true /\ s_pc s = [] /\ accepted peer_run = 3) /\
  (let es := [UStart None; DAccept 0; WFeed 0; DSetup 0; UStop; UGo; UGo; TEnd 0; UGo; UGo; UDestroy] ++ repeat UGo 7 in
   careful KClient es /\ exists s o, run KClient 1 es init = Some (s, o) /\ s_over s = true /\ s_pc s = []).
Proof.
  split; [split; [split|]|].
  - intros j. cbn. intuition discriminate.
  - discriminate.
  - eexists. eexists. split; [vm_compute; reflexivity|]. repeat split.
  - split; [split|].
    + intros j. cbn. intuition discriminate.
    + intros _ a f b c E. cbn [repeat app] in E.
      destruct a as [|x a]; cbn [app] in E; [injection E as _ E|exfalso; injection E as _ E].
      * do 4 (destruct b as [|y b]; cbn [app] in E; [discriminate E | injection E as <- E; try (left; reflexivity); right]).
      * assert (H : In (UStart f) (a ++ UStart f :: b ++ UDestroy :: c)) by (apply in_or_app; right; left; reflexivity).
        rewrite <- E in H. cbn in H. intuition discriminate.
    + eexists. eexists. split; [vm_compute; reflexivity|]. split; reflexivity.
Qed.

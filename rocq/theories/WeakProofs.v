(** The first block of the queue on weakly ordered memory: invariant of
    WeakModel for runs with no more calls than one block has slots. *)
From Coq Require Import Arith List Bool Lia.
From Verif Require Import QueueModel WeakModel.
Import ListNotations.

(** ** Lists *)
Lemma nth_repl {A} i j (x : A) l : nth_error (repl i x l) j = if j =? i then match nth_error l i with Some _ => Some x | None => None end else nth_error l j.
Proof.
  revert i j. induction l as [|y l IH]; intros [|i] [|j]; cbn [repl nth_error Nat.eqb]; try reflexivity.
  - destruct (j =? i); reflexivity.
  - apply IH.
Qed.

Lemma nth_repl_inv {A} i j (x y p : A) l : nth_error l i = Some p -> nth_error (repl i x l) j = Some y -> (j = i /\ y = x) \/ (j <> i /\ nth_error l j = Some y).
Proof.
  intros E. rewrite nth_repl, E. destruct (Nat.eqb_spec j i) as [->|NE]; [intros [= <-]; left; split; reflexivity|right; split; assumption].
Qed.

Lemma nth_repl_same {A} i (x p : A) l : nth_error l i = Some p -> nth_error (repl i x l) i = Some x.
Proof. intros E. rewrite nth_repl, Nat.eqb_refl, E. reflexivity. Qed.

Lemma nth_repl_other {A} i j (x : A) l : j <> i -> nth_error (repl i x l) j = nth_error l j.
Proof. intros NE. rewrite nth_repl. destruct (Nat.eqb_spec j i); [contradiction|reflexivity]. Qed.

Fixpoint cnt {A} (f : A -> bool) (l : list A) : nat :=
  match l with [] => 0 | x :: l => (if f x then 1 else 0) + cnt f l end.

Lemma cnt_repl {A} (f : A -> bool) l : forall i p q, nth_error l i = Some p ->
  cnt f (repl i q l) + (if f p then 1 else 0) = cnt f l + (if f q then 1 else 0).
Proof.
  induction l as [|y l IH]; intros [|i] p q E; cbn [nth_error] in E; try discriminate; cbn [repl cnt].
  - injection E as ->. destruct (f p), (f q); lia.
  - specialize (IH i p q E). lia.
Qed.

Lemma cnt_pos {A} (f : A -> bool) l : forall i p, nth_error l i = Some p -> f p = true -> 1 <= cnt f l.
Proof.
  induction l as [|y l IH]; intros [|i] p E F; cbn [nth_error] in E; try discriminate; cbn [cnt].
  - injection E as ->. rewrite F. lia.
  - specialize (IH i p E F). lia.
Qed.

(** ** Memory *)
Lemma leqb_refl l : leqb l l = true.
Proof. destruct l; cbn [leqb]; rewrite ?Nat.eqb_refl; reflexivity. Qed.

Lemma leqb_eq a b : leqb a b = true -> a = b.
Proof.
  destruct a, b; cbn [leqb]; intros H; try discriminate; try reflexivity;
    try (apply Nat.eqb_eq in H; subst; reflexivity);
    apply andb_true_iff in H; destruct H as (H1 & H2); apply Nat.eqb_eq in H1, H2; subst; reflexivity.
Qed.

Lemma vset_same V l t : vset V l t l = t.
Proof. unfold vset. rewrite leqb_refl. reflexivity. Qed.

Lemma vset_le V l t x : V l <= t -> V x <= vset V l t x.
Proof. intros L. unfold vset. destruct (leqb x l) eqn:E; [apply leqb_eq in E; subst; exact L|lia]. Qed.

Lemma mset_same M l ms : mset M l ms l = ms.
Proof. unfold mset. rewrite leqb_refl. reflexivity. Qed.

Lemma mset_other M l ms x : leqb x l = false -> mset M l ms x = M x.
Proof. intros E. unfold mset. rewrite E. reflexivity. Qed.

Lemma find_in t ms m : find t ms = Some m -> In m ms /\ m_ts m = t.
Proof. unfold find. intros H. apply find_some in H. destruct H as (H1 & H2). apply Nat.eqb_eq in H2. split; assumption. Qed.

Lemma used_in t ms : used t ms = true <-> exists m, In m ms /\ m_ts m = t.
Proof.
  unfold used. rewrite existsb_exists. split; intros (m & H1 & H2); exists m; (split; [exact H1|]); apply Nat.eqb_eq; exact H2.
Qed.

Lemma used_cons t m ms : used t ms = true -> used t (m :: ms) = true.
Proof. unfold used. cbn [existsb]. intros ->. apply orb_true_r. Qed.

Lemma used_head t v W ms : used t (mkMsg t v W :: ms) = true.
Proof. unfold used. cbn [existsb m_ts]. rewrite Nat.eqb_refl. reflexivity. Qed.

(** What the operations do. *)
Lemma ld_inv acq l r V M v V' : ld acq l r V M = Some (v, V') ->
  exists m, In m (M l) /\ m_ts m = r /\ m_val m = v /\ V l <= r /\ r <= V' l /\
            (forall x, V x <= V' x) /\ (acq = true -> forall x, m_view m x <= V' x) /\ (acq = false -> V' = vset V l r).
Proof.
  unfold ld. destruct (find r (M l)) as [m|] eqn:F; [|discriminate]. destruct (V l <=? r) eqn:L; [|discriminate]. intros [= <- <-].
  apply find_in in F. destruct F as (F1 & F2). apply Nat.leb_le in L. exists m. destruct acq.
  - repeat (split; [assumption || reflexivity|]). split; [unfold vjoin; rewrite vset_same; lia|]. split; [|split].
    + intros x. pose proof (vset_le V l r x L). unfold vjoin. lia.
    + intros _ x. unfold vjoin. lia.
    + discriminate.
  - repeat (split; [assumption || reflexivity|]). split; [rewrite vset_same; lia|]. split; [|split].
    + intros x. apply vset_le, L.
    + discriminate.
    + reflexivity.
Qed.

Lemma st_inv rel l v w V M V' M' : st rel l v w V M = Some (V', M') ->
  V l < w /\ used w (M l) = false /\ V' = vset V l w /\ (forall x, V x <= V' x) /\
  M' = mset M l (mkMsg w v (if rel then V' else vset vzero l w) :: M l).
Proof.
  unfold st. destruct ((V l <? w) && negb (used w (M l))) eqn:G; [|discriminate]. intros [= <- <-].
  apply andb_true_iff in G. destruct G as (G1 & G2). apply Nat.ltb_lt in G1. apply negb_true_iff in G2.
  repeat (split; [assumption || reflexivity|]). split; [intros x; apply vset_le; lia|reflexivity].
Qed.

Lemma rmw_inv acq rel l f r V M v V' M' : rmw acq rel l f r V M = Some (v, V', M') ->
  exists m, find r (M l) = Some m /\ In m (M l) /\ m_ts m = r /\ m_val m = v /\ V l <= r /\ used (S r) (M l) = false /\ S r <= V' l /\
            (forall x, V x <= V' x) /\ (acq = true -> forall x, m_view m x <= V' x) /\ (acq = false -> V' = vset V l (S r)) /\
            M' = mset M l (mkMsg (S r) (f v) (vjoin (m_view m) (if rel then V' else vset vzero l (S r))) :: M l).
Proof.
  unfold rmw. destruct (find r (M l)) as [m|] eqn:F; [|discriminate]. destruct ((V l <=? r) && negb (used (S r) (M l))) eqn:G; [|discriminate].
  intros [= <- <- <-]. apply andb_true_iff in G. destruct G as (G1 & G2). apply Nat.leb_le in G1. apply negb_true_iff in G2.
  pose proof (find_in _ _ _ F) as (F1 & F2). exists m. assert (L : V l <= S r) by lia. split; [reflexivity|]. destruct acq.
  - repeat (split; [assumption || reflexivity|]). split; [unfold vjoin; rewrite vset_same; lia|]. split; [|split; [|split]].
    + intros x. pose proof (vset_le V l (S r) x L). unfold vjoin. lia.
    + intros _ x. unfold vjoin. lia.
    + discriminate.
    + reflexivity.
  - repeat (split; [assumption || reflexivity|]). split; [rewrite vset_same; lia|]. split; [|split; [|split]].
    + intros x. apply vset_le, L.
    + discriminate.
    + reflexivity.
    + reflexivity.
Qed.

Lemma cas_inv acq rel spur l e n r V M ok V' M' : cas acq rel spur l e n r V M = Some (ok, V', M') ->
  if ok
  then exists m, In m (M l) /\ m_ts m = r /\ m_val m = e /\ V l <= r /\ used (S r) (M l) = false /\ S r <= V' l /\
            (forall x, V x <= V' x) /\ (acq = true -> forall x, m_view m x <= V' x) /\ (acq = false -> V' = vset V l (S r)) /\
            M' = mset M l (mkMsg (S r) n (vjoin (m_view m) (if rel then V' else vset vzero l (S r))) :: M l)
  else M' = M /\ forall x, V x <= V' x.
Proof.
  unfold cas. destruct (find r (M l)) as [m|] eqn:F; [|discriminate]. destruct ((m_val m =? e) && negb spur) eqn:G.
  - destruct (rmw acq rel l (fun _ => n) r V M) as [[[v V1] M1]|] eqn:R; [|discriminate]. intros [= <- <- <-].
    apply rmw_inv in R. destruct R as (m' & F' & I & T & VV & R). rewrite F in F'. injection F' as <-.
    exists m. split; [exact I|]. split; [exact T|]. split; [|exact R].
    apply andb_true_iff in G. destruct G as (G & _). apply Nat.eqb_eq in G. exact G.
  - destruct (ld acq l r V M) as [[v V1]|] eqn:R; [|discriminate]. intros [= <- <- <-]. apply ld_inv in R.
    destruct R as (_ & _ & _ & _ & _ & _ & R & _). split; [reflexivity|exact R].
Qed.

Lemma races_false l V M : (forall m, In m (M l) -> m_ts m <= V l) -> races l V M = false.
Proof.
  intros H. unfold races. destruct (existsb (fun m => V l <? m_ts m) (M l)) eqn:E; [|reflexivity].
  apply existsb_exists in E. destruct E as (m & I & L). apply Nat.ltb_lt in L. specialize (H m I). lia.
Qed.

(** ** The invariant *)

(** Places a producer can be in while only block 0 is used. *)
Definition pok (p : wprod) : Prop :=
  match wp_pc p with
  | Wq FIdle PReady | Wq FIdle P0 | WX | WN => True
  | Wq FIdle (P1 t) | Wq FIdle (P2 t _) | Wq FIdle (P3 t) | Wq FIdle (P4 t) => t = 0
  | Wq FIdle (P9 t _) | Wq FIdle (P10 t _) | Wq FIdle (P11 t _) => t = 0
  | Wq (RSub t KDone) WRetry | Wq (RSub t KDone) WTrue => t = 0
  | Wq FDone WRetry | Wq FDone WTrue => True
  | _ => False
  end.

(** Holds a temporary reference. *)
Definition holds (p : wprod) : bool :=
  match wp_pc p with
  | Wq FIdle (P3 _) | Wq FIdle (P4 _) | Wq FIdle (P9 _ _) | Wq FIdle (P10 _ _) | Wq FIdle (P11 _ _) | Wq (RSub _ _) _ => true
  | _ => false
  end.

(** In a call whose slot is not reserved yet. *)
Definition unres (p : wprod) : bool :=
  match wp_pc p with
  | Wq FIdle P0 | Wq FIdle (P1 _) | Wq FIdle (P2 _ _) | Wq FIdle (P3 _) | Wq FIdle (P4 _) | Wq FIdle (P9 _ _)
  | Wq (RSub _ _) WRetry | Wq FDone WRetry => true
  | _ => false
  end.

(** Has reserved a slot and not yet exchanged the signal. *)
Definition fly (p : wprod) : bool :=
  match wp_pc p with
  | Wq FIdle (P10 _ _) | Wq FIdle (P11 _ _) | Wq (RSub _ _) WTrue | Wq FDone WTrue | WX => true
  | _ => false
  end.

(** Value the consumer last stored in Block::head, with [h] elements taken. *)
Definition hval (pc : wcpc) (h : nat) : nat :=
  match pc with Kq _ FIdle (K5 _ _) | Kq _ FIdle (K6 _ _) => S h | _ => h end.

Inductive stage := SFree | SRes (i : nat) | SFull (i : nat) | SReady | STaken.

Definition single (M : mem) (l : loc) (v : nat) : Prop := forall m, In m (M l) -> m_val m = v.
Definition fresh (ms : list msg) : Prop := forall m, In m ms -> m_ts m = 0 /\ m_val m = 0.
Definition filled (ms : list msg) (w v : nat) : Prop := forall m, In m ms -> m_ts m <= w /\ (m_ts m = w -> m_val m = v).

(** Messages of slot [k] at each stage. *)
Definition slot (M : mem) (E : list nat) (Vc : view) (pc : wcpc) (k : nat) (g : stage) : Prop :=
  match g with
  | SFree | SRes _ => fresh (M (LEl 0 k)) /\ fresh (M (LAv 0 k))
  | SFull _ => fresh (M (LAv 0 k))
  | SReady => exists w v, nth_error E k = Some v /\ filled (M (LEl 0 k)) w v /\
                (forall m, In m (M (LAv 0 k)) -> m_val m <> 0 -> w <= m_view m (LEl 0 k)) /\
                (forall inh, pc = Kq inh FIdle (K6 0 k) -> w <= Vc (LEl 0 k))
  | STaken => True
  end.

(** What a producer at its slot knows. *)
Definition pslot (M : mem) (E : list nat) (st : nat -> stage) (i : nat) (p : wprod) : Prop :=
  match wp_pc p with
  | Wq FIdle (P10 _ k) => st k = SRes i /\ nth_error E k = Some (wp_v p)
  | Wq FIdle (P11 _ k) => st k = SFull i /\ nth_error E k = Some (wp_v p) /\
                          exists w, filled (M (LEl 0 k)) w (wp_v p) /\ w <= wp_view p (LEl 0 k)
  | _ => True
  end.

(** Places of the consumer, with [h] elements taken of [t] enqueued. *)
Definition cok (pc : wcpc) (Vc : view) (h t : nat) (st : nat -> stage) : Prop :=
  match pc with
  | KIdle | KSig | KNot | KFn false => True
  | KFn true => Vc (LBt 0) <= h
  | Kq _ FIdle K0 => True
  | Kq _ FIdle (K0a u) => u = 0
  | Kq _ FIdle (K0b u hh) => u = 0 /\ hh = h
  | Kq _ FIdle (K2 u) => u = 0 /\ Vc (LBt 0) <= h
  | Kq _ FIdle (K1 u hh) | Kq _ FIdle (K5 u hh) => u = 0 /\ hh = h /\ h < t
  | Kq _ FIdle (K6 u hh) => u = 0 /\ hh = h /\ st hh = SReady
  | Kq _ FIdle (K7 u hh e) => u = 0 /\ S hh = h
  | _ => False
  end.

Definition resting (pc : wcpc) : Prop := match pc with KIdle => True | Kq false _ _ => True | _ => False end.

Record inv (M : mem) (ps : list wprod) (pc : wcpc) (Vc : view) (nfd race : bool) (E D : list nat) (C : nat) : Prop := mkInv {
  i_tl : single M LTl 1;
  i_hd : single M LHd 1;
  i_fr : single M (LFreed 0) 0;
  i_bn : single M (LBn 0) 0;
  i_bt : forall m, In m (M (LBt 0)) -> m_val m = m_ts m /\ m_ts m <= length E;
  i_btu : forall j, j <= length E -> used j (M (LBt 0)) = true;
  i_rc : exists n, (forall j, j <= n -> used j (M (LRc 0)) = true) /\
                   forall m, In m (M (LRc 0)) -> m_ts m <= n /\ (m_ts m = n -> m_val m = 1 + cnt holds ps);
  i_bh : forall m, In m (M (LBh 0)) -> m_ts m <= Vc (LBh 0) /\ (m_ts m = Vc (LBh 0) -> m_val m = hval pc (length D));
  i_pok : forall i p, nth_error ps i = Some p -> pok p;
  i_calls : length E + cnt unres ps <= C;
  i_slots : exists st, (forall k, length E <= k <-> st k = SFree) /\ (forall k, k < length D <-> st k = STaken) /\
                       (forall k, slot M E Vc pc k (st k)) /\
                       (forall i p, nth_error ps i = Some p -> pslot M E st i p) /\
                       cok pc Vc (length D) (length E) st;
  i_out : exists rest, E = D ++ rest;
  i_sig : exists n x b, (forall j, j <= n -> used j (M LSig) = true) /\
                        (forall m, In m (M LSig) -> m_ts m <= n /\ m_view m (LBt 0) <= b /\ (m_ts m = n -> m_val m = x /\ m_view m (LBt 0) = b)) /\
                        (forall k, k < length E -> k < b \/ exists i p, nth_error ps i = Some p /\ fly p = true /\ k < wp_view p (LBt 0)) /\
                        (x = 0 -> nfd = true \/ (exists i p, nth_error ps i = Some p /\ wp_pc p = WN) \/ pc = KSig) /\
                        (x <> 0 -> pc <> KSig -> b <= Vc (LBt 0)) /\
                        (x <> 0 -> resting pc -> nfd = true \/ b <= length D);
  i_race : race = false }.

Lemma last_only n r ms : (forall j, j <= n -> used j ms = true) -> r <= n -> used (S r) ms = false -> r = n.
Proof. intros U L N. destruct (Nat.eq_dec r n) as [E|E]; [exact E|]. rewrite U in N by lia. discriminate. Qed.

Section Steps.
Variable B : nat.

(** A producer moves on without changing the memory. *)
Lemma inv_upd M ps pc Vc nfd race E D C i p p' : inv M ps pc Vc nfd race E D C -> nth_error ps i = Some p ->
  (forall x, wp_view p x <= wp_view p' x) -> pok p' -> holds p' = holds p -> (unres p' = true -> unres p = true) ->
  (fly p = true -> fly p' = true) -> wp_pc p <> WN -> (forall st, pslot M E st i p -> pslot M E st i p') ->
  inv M (repl i p' ps) pc Vc nfd race E D C.
Proof.
  intros I N LV PK HO UN FL WNN PS. destruct I. constructor; try assumption.
  - destruct i_rc0 as (n & U & L). exists n. split; [exact U|]. intros m Hm. destruct (L m Hm) as (L1 & L2). split; [exact L1|].
    intros e. rewrite (L2 e). f_equal. pose proof (cnt_repl holds ps i p p' N) as K. rewrite HO in K. lia.
  - intros j q Hq. destruct (nth_repl_inv i j p' q p ps N Hq) as [(-> & ->)|(_ & Hq')]; [exact PK|apply (i_pok0 j q Hq')].
  - pose proof (cnt_repl unres ps i p p' N) as K. destruct (unres p') eqn:U'.
    + rewrite (UN eq_refl) in K. lia.
    + destruct (unres p); lia.
  - destruct i_slots0 as (st & S1 & S2 & S3 & S4 & S5). exists st. repeat (split; [assumption|]). split; [|exact S5].
    intros j q Hq. destruct (nth_repl_inv i j p' q p ps N Hq) as [(-> & ->)|(_ & Hq')]; [apply PS, S4, N|apply (S4 j q Hq')].
  - destruct i_sig0 as (n & x & b & U & L & A & J1 & J2 & J3). exists n, x, b. split; [exact U|]. split; [exact L|]. split; [|split; [|split; assumption]].
    + intros k Hk. destruct (A k Hk) as [Hb|(j & q & Hq & F & V)]; [left; exact Hb|right].
      destruct (Nat.eq_dec j i) as [->|NE].
      * rewrite N in Hq. injection Hq as <-. exists i, p'. split; [apply (nth_repl_same i p' p ps N)|]. split; [apply FL, F|]. specialize (LV (LBt 0)). lia.
      * exists j, q. rewrite nth_repl_other by exact NE. split; [exact Hq|]. split; assumption.
    + intros e. destruct (J1 e) as [H|[(j & q & Hq & W)|H]]; [left; exact H|right; left|right; right; exact H].
      assert (NE : j <> i) by (intros ->; rewrite N in Hq; injection Hq as <-; contradiction).
      exists j, q. rewrite nth_repl_other by exact NE. split; assumption.
Qed.

(** A producer takes or drops a reference. *)
Lemma inv_rc M ps pc Vc nfd race E D C i p p' r V V' v W : inv M ps pc Vc nfd race E D C -> nth_error ps i = Some p ->
  (forall m, In m (M (LRc 0)) -> m_ts m = r -> v + (if holds p then 1 else 0) = m_val m + (if holds p' then 1 else 0)) ->
  (exists m, In m (M (LRc 0)) /\ m_ts m = r) ->
  used (S r) (M (LRc 0)) = false ->
  wp_view p = V -> wp_view p' = V' -> (forall x, V x <= V' x) -> pok p' -> unres p' = unres p ->
  fly p' = fly p -> wp_pc p <> WN -> (forall M' st, pslot M' E st i p') ->
  inv (mset M (LRc 0) (mkMsg (S r) v W :: M (LRc 0))) (repl i p' ps) pc Vc nfd race E D C.
Proof.
  intros I N HV (m0 & I0 & T0) UU EV EV' LV PK UN FL WNN PS. destruct I. constructor; try assumption.
  - rewrite mset_same. destruct i_rc0 as (n & U & L).
    assert (r = n) as -> by (apply (last_only n r _ U); [destruct (L m0 I0); lia|exact UU]).
    exists (S n). split.
    + intros j Hj. destruct (Nat.eq_dec j (S n)) as [->|NE]; [apply used_head|apply used_cons, U; lia].
    + intros m [<-|Hm]; cbn [m_ts m_val].
      * split; [lia|]. intros _. specialize (HV m0 I0 T0). destruct (L m0 I0) as (_ & L2). specialize (L2 T0).
        pose proof (cnt_repl holds ps i p p' N) as K. destruct (holds p), (holds p'); lia.
      * destruct (L m Hm) as (L1 & _). split; [lia|]. intros e. lia.
  - intros j q Hq. destruct (nth_repl_inv i j p' q p ps N Hq) as [(-> & ->)|(_ & Hq')]; [exact PK|apply (i_pok0 j q Hq')].
  - pose proof (cnt_repl unres ps i p p' N) as K. rewrite UN in K. lia.
  - destruct i_slots0 as (st & S1 & S2 & S3 & S4 & S5). exists st. repeat (split; [assumption|]). split; [|exact S5].
    intros j q Hq. destruct (nth_repl_inv i j p' q p ps N Hq) as [(-> & ->)|(_ & Hq')]; [apply PS|apply (S4 j q Hq')].
  - destruct i_sig0 as (n & x & b & U & L & A & J1 & J2 & J3). exists n, x, b. split; [exact U|]. split; [exact L|]. split; [|split; [|split; assumption]].
    + intros k Hk. destruct (A k Hk) as [Hb|(j & q & Hq & F & VV)]; [left; exact Hb|right].
      destruct (Nat.eq_dec j i) as [->|NE].
      * rewrite N in Hq. injection Hq as <-. exists i, p'. split; [apply (nth_repl_same i p' p ps N)|]. split; [rewrite FL; exact F|].
        specialize (LV (LBt 0)). rewrite EV'. rewrite EV in VV. lia.
      * exists j, q. rewrite nth_repl_other by exact NE. split; [exact Hq|]. split; assumption.
    + intros e. destruct (J1 e) as [H|[(j & q & Hq & WW)|H]]; [left; exact H|right; left|right; right; exact H].
      assert (NE : j <> i) by (intros ->; rewrite N in Hq; injection Hq as <-; contradiction).
      exists j, q. rewrite nth_repl_other by exact NE. split; assumption.
Qed.

Lemma nth_snoc {A} (l : list A) x k y : nth_error l k = Some y -> nth_error (l ++ [x]) k = Some y.
Proof. intros H. rewrite nth_error_app1; [exact H|]. apply nth_error_Some. rewrite H. discriminate. Qed.

Lemma nth_end {A} (l : list A) x : nth_error (l ++ [x]) (length l) = Some x.
Proof. rewrite nth_error_app2 by lia. rewrite Nat.sub_diag. reflexivity. Qed.

(** A producer reserves a slot. *)
Lemma inv_res M ps pc Vc nfd race E D C i v unb V V' k r W : inv M ps pc Vc nfd race E D C ->
  nth_error ps i = Some (mkWP (Wq FIdle (P9 0 k)) v unb V) ->
  (exists m, In m (M (LBt 0)) /\ m_ts m = r /\ m_val m = k) -> used (S r) (M (LBt 0)) = false ->
  (forall x, V x <= V' x) -> S r <= V' (LBt 0) ->
  inv (mset M (LBt 0) (mkMsg (S r) (k + 1) W :: M (LBt 0))) (repl i (mkWP (Wq FIdle (P10 0 k)) v unb V') ps) pc Vc nfd race (E ++ [v]) D C.
Proof.
  intros I N (m0 & I0 & T0 & V0) UU LV LT. destruct I.
  destruct (i_bt0 m0 I0) as (B1 & B2). assert (r = length E) as RE by (apply (last_only _ _ _ i_btu0); [lia|exact UU]).
  assert (k = length E) as -> by lia. rewrite RE in T0, UU, LT |- *. clear B1 B2 RE r.
  assert (LE : length (E ++ [v]) = S (length E)) by (rewrite app_length; cbn [length]; lia).
  constructor; try assumption.
  - rewrite mset_same. intros m [<-|Hm]; cbn [m_ts m_val]; [lia|]. destruct (i_bt0 m Hm). lia.
  - rewrite mset_same, LE. intros j Hj. destruct (Nat.eq_dec j (S (length E))) as [->|NE]; [apply used_head|apply used_cons, i_btu0; lia].
  - destruct i_rc0 as (n & U & L). exists n. split; [exact U|]. intros m Hm. destruct (L m Hm) as (L1 & L2). split; [exact L1|].
    intros e. rewrite (L2 e). f_equal.
    pose proof (cnt_repl holds ps i _ (mkWP (Wq FIdle (P10 0 (length E))) v unb V') N) as K. cbn [holds wp_pc] in K. lia.
  - intros j q Hq. destruct (nth_repl_inv i j _ q _ ps N Hq) as [(-> & ->)|(_ & Hq')]; [reflexivity|apply (i_pok0 j q Hq')].
  - pose proof (cnt_repl unres ps i _ (mkWP (Wq FIdle (P10 0 (length E))) v unb V') N) as K. cbn [unres wp_pc] in K. lia.
  - destruct i_slots0 as (st & S1 & S2 & S3 & S4 & S5).
    assert (FE : st (length E) = SFree) by (apply S1; lia).
    exists (fun j => if j =? length E then SRes i else st j). rewrite LE. split; [|split; [|split; [|split]]].
    + intros j. destruct (Nat.eqb_spec j (length E)) as [->|NE]; [split; [lia|discriminate]|]. rewrite <- S1. lia.
    + intros j. destruct (Nat.eqb_spec j (length E)) as [->|NE].
      * split; [|discriminate]. intros L. apply S2 in L. rewrite FE in L. discriminate.
      * apply S2.
    + intros j. destruct (Nat.eqb_spec j (length E)) as [->|NE].
      * specialize (S3 (length E)). rewrite FE in S3. exact S3.
      * specialize (S3 j). destruct (st j); try exact S3.
        destruct S3 as (w & u & X1 & X2 & X3 & X4). exists w, u. split; [apply nth_snoc, X1|]. split; [exact X2|]. split; [exact X3|exact X4].
    + intros j q Hq. destruct (nth_repl_inv i j _ q _ ps N Hq) as [(-> & ->)|(NE & Hq')].
      * unfold pslot. cbn [wp_pc wp_v]. rewrite Nat.eqb_refl. split; [reflexivity|apply nth_end].
      * specialize (S4 j q Hq'). unfold pslot in *. destruct (wp_pc q) as [[] []| |]; try exact S4.
        -- destruct S4 as (X1 & X2). split; [|apply nth_snoc, X2]. destruct (Nat.eqb_spec k (length E)) as [->|_]; [|exact X1].
           rewrite FE in X1. discriminate.
        -- destruct S4 as (X1 & X2 & w & X3 & X4). split; [|split; [apply nth_snoc, X2|]].
           ++ destruct (Nat.eqb_spec k (length E)) as [->|_]; [|exact X1]. rewrite FE in X1. discriminate.
           ++ exists w. split; [exact X3|exact X4].
    + unfold cok in *. destruct pc as [| |[]| |inh [] []]; try exact S5; try lia.
      destruct S5 as (-> & -> & X). split; [reflexivity|]. split; [reflexivity|]. destruct (Nat.eqb_spec (length D) (length E)) as [EQ|_]; [|exact X].
      rewrite EQ, FE in X. discriminate.
  - destruct i_out0 as (rest & ->). exists (rest ++ [v]). rewrite app_assoc. reflexivity.
  - destruct i_sig0 as (n & x & b & U & L & A & J1 & J2 & J3). exists n, x, b. split; [exact U|]. split; [exact L|]. split; [|split; [|split; assumption]].
    + intros j Hj. rewrite LE in Hj. destruct (Nat.eq_dec j (length E)) as [->|NE].
      * right. exists i. eexists. split; [apply (nth_repl_same i _ _ ps N)|]. split; [reflexivity|]. cbn [wp_view]. lia.
      * destruct (A j) as [Hb|(a & q & Hq & F & VV)]; [lia|left; exact Hb|right]. destruct (Nat.eq_dec a i) as [->|NA].
        -- rewrite N in Hq. injection Hq as <-. discriminate F.
        -- exists a, q. rewrite nth_repl_other by exact NA. split; [exact Hq|]. split; assumption.
    + intros e. destruct (J1 e) as [H|[(j & q & Hq & WW)|H]]; [left; exact H|right; left|right; right; exact H].
      assert (NE : j <> i) by (intros ->; rewrite N in Hq; injection Hq as <-; discriminate).
      exists j, q. rewrite nth_repl_other by exact NE. split; assumption.
Qed.

(** What a producer's move between two places of its slot leaves as it is. *)
Lemma keep_sig M ps nfd pc Vc E D i p p' : nth_error ps i = Some p -> fly p' = fly p -> (forall x, wp_view p x <= wp_view p' x) -> wp_pc p <> WN ->
  (exists n x b, (forall j, j <= n -> used j (M LSig) = true) /\
     (forall m, In m (M LSig) -> m_ts m <= n /\ m_view m (LBt 0) <= b /\ (m_ts m = n -> m_val m = x /\ m_view m (LBt 0) = b)) /\
     (forall k, k < length E -> k < b \/ exists i p, nth_error ps i = Some p /\ fly p = true /\ k < wp_view p (LBt 0)) /\
     (x = 0 -> nfd = true \/ (exists i p, nth_error ps i = Some p /\ wp_pc p = WN) \/ pc = KSig) /\
     (x <> 0 -> pc <> KSig -> b <= Vc (LBt 0)) /\ (x <> 0 -> resting pc -> nfd = true \/ b <= length D)) ->
  exists n x b, (forall j, j <= n -> used j (M LSig) = true) /\
     (forall m, In m (M LSig) -> m_ts m <= n /\ m_view m (LBt 0) <= b /\ (m_ts m = n -> m_val m = x /\ m_view m (LBt 0) = b)) /\
     (forall k, k < @length nat E -> k < b \/ exists j q, nth_error (repl i p' ps) j = Some q /\ fly q = true /\ k < wp_view q (LBt 0)) /\
     (x = 0 -> nfd = true \/ (exists j q, nth_error (repl i p' ps) j = Some q /\ wp_pc q = WN) \/ pc = KSig) /\
     (x <> 0 -> pc <> KSig -> b <= Vc (LBt 0)) /\ (x <> 0 -> resting pc -> nfd = true \/ b <= @length nat D).
Proof.
  intros N FL LV WNN (n & x & b & U & L & A & J1 & J2 & J3). exists n, x, b. split; [exact U|]. split; [exact L|]. split; [|split; [|split; assumption]].
  - intros k Hk. destruct (A k Hk) as [Hb|(j & q & Hq & F & VV)]; [left; exact Hb|right].
    destruct (Nat.eq_dec j i) as [->|NE].
    + rewrite N in Hq. injection Hq as <-. exists i, p'. split; [apply (nth_repl_same i p' p ps N)|]. split; [rewrite FL; exact F|].
      specialize (LV (LBt 0)). lia.
    + exists j, q. rewrite nth_repl_other by exact NE. split; [exact Hq|]. split; assumption.
  - intros e. destruct (J1 e) as [H|[(j & q & Hq & WW)|H]]; [left; exact H|right; left|right; right; exact H].
    assert (NE : j <> i) by (intros ->; rewrite N in Hq; injection Hq as <-; contradiction).
    exists j, q. rewrite nth_repl_other by exact NE. split; assumption.
Qed.

Lemma cok_stage pc Vc h t st k g : cok pc Vc h t st -> st k <> SReady -> cok pc Vc h t (fun j => if j =? k then g else st j).
Proof.
  intros H NR. unfold cok in *. destruct pc as [| |[]| |inh [] []]; try exact H.
  destruct H as (-> & -> & X). split; [reflexivity|]. split; [reflexivity|]. destruct (Nat.eqb_spec h k) as [<-|_]; [contradiction|exact X].
Qed.

(** A producer constructs its element. *)
Lemma inv_put M ps pc Vc nfd race E D C i v unb V V' k w W : inv M ps pc Vc nfd race E D C ->
  nth_error ps i = Some (mkWP (Wq FIdle (P10 0 k)) v unb V) -> V (LEl 0 k) < w -> V' = vset V (LEl 0 k) w ->
  races (LEl 0 k) V M = false /\
  inv (mset M (LEl 0 k) (mkMsg w v W :: M (LEl 0 k))) (repl i (mkWP (Wq FIdle (P11 0 k)) v unb V') ps) pc Vc nfd race E D C.
Proof.
  intros I N LW EV. destruct I. destruct i_slots0 as (st & S1 & S2 & S3 & S4 & S5).
  pose proof (S4 i _ N) as PK. unfold pslot in PK. cbn [wp_pc wp_v] in PK. destruct PK as (PK1 & PK2).
  pose proof (S3 k) as SK. rewrite PK1 in SK. destruct SK as (FR & FA).
  split. { apply races_false. intros m Hm. destruct (FR m Hm) as (-> & _). lia. }
  assert (LV : forall x, V x <= V' x) by (intros x; subst V'; apply vset_le; lia).
  constructor; try assumption.
  - destruct i_rc0 as (n & U & L). exists n. split; [exact U|]. intros m Hm. destruct (L m Hm) as (L1 & L2). split; [exact L1|].
    intros e. rewrite (L2 e). f_equal. pose proof (cnt_repl holds ps i _ (mkWP (Wq FIdle (P11 0 k)) v unb V') N) as K. cbn [holds wp_pc] in K. lia.
  - intros j q Hq. destruct (nth_repl_inv i j _ q _ ps N Hq) as [(-> & ->)|(_ & Hq')]; [reflexivity|apply (i_pok0 j q Hq')].
  - pose proof (cnt_repl unres ps i _ (mkWP (Wq FIdle (P11 0 k)) v unb V') N) as K. cbn [unres wp_pc] in K. lia.
  - exists (fun j => if j =? k then SFull i else st j). split; [|split; [|split; [|split]]].
    + intros j. destruct (Nat.eqb_spec j k) as [->|NE]; [|apply S1]. split; [|discriminate]. intros L. apply S1 in L. rewrite PK1 in L. discriminate.
    + intros j. destruct (Nat.eqb_spec j k) as [->|NE]; [|apply S2]. split; [|discriminate]. intros L. apply S2 in L. rewrite PK1 in L. discriminate.
    + intros j. destruct (Nat.eqb_spec j k) as [->|NE]; [exact FA|]. specialize (S3 j).
      assert (OT : mset M (LEl 0 k) (mkMsg w v W :: M (LEl 0 k)) (LEl 0 j) = M (LEl 0 j))
        by (apply mset_other; cbn [leqb]; apply Nat.eqb_neq in NE; rewrite NE; reflexivity).
      unfold slot. rewrite OT. exact S3.
    + intros j q Hq. destruct (nth_repl_inv i j _ q _ ps N Hq) as [(-> & ->)|(NE & Hq')].
      * unfold pslot. cbn [wp_pc wp_v wp_view]. rewrite Nat.eqb_refl. split; [reflexivity|]. split; [exact PK2|]. exists w. rewrite mset_same.
        split; [|subst V'; rewrite vset_same; lia]. intros m [<-|Hm]; cbn [m_ts m_val]; [split; [lia|reflexivity]|].
        destruct (FR m Hm) as (T & _). split; lia.
      * specialize (S4 j q Hq'). unfold pslot in *. destruct (wp_pc q) as [[] []| |]; try exact S4.
        -- destruct S4 as (X1 & X2). split; [|exact X2]. destruct (Nat.eqb_spec k0 k) as [->|_]; [|exact X1]. rewrite PK1 in X1. injection X1 as ->. contradiction.
        -- destruct S4 as (X1 & X2 & w' & X3 & X4). destruct (Nat.eqb_spec k0 k) as [->|NK]; [rewrite PK1 in X1; discriminate|].
           split; [exact X1|]. split; [exact X2|]. exists w'. rewrite mset_other by (cbn [leqb]; apply Nat.eqb_neq in NK; rewrite NK; reflexivity).
           split; assumption.
    + apply cok_stage; [exact S5|]. rewrite PK1. discriminate.
  - apply (keep_sig (mset M (LEl 0 k) (mkMsg w v W :: M (LEl 0 k))) ps nfd pc Vc E D i _ _ N); [reflexivity|exact LV|discriminate|exact i_sig0].
Qed.

(** A producer publishes its element. *)
Lemma inv_avail M ps pc Vc nfd race E D C i v unb V V' k w : inv M ps pc Vc nfd race E D C ->
  nth_error ps i = Some (mkWP (Wq FIdle (P11 0 k)) v unb V) -> (forall x, V x <= V' x) ->
  inv (mset M (LAv 0 k) (mkMsg w 1 V' :: M (LAv 0 k))) (repl i (mkWP (Wq (RSub 0 KDone) WTrue) v unb V') ps) pc Vc nfd race E D C.
Proof.
  intros I N LV. destruct I. destruct i_slots0 as (st & S1 & S2 & S3 & S4 & S5).
  pose proof (S4 i _ N) as PK. unfold pslot in PK. cbn [wp_pc wp_v wp_view] in PK. destruct PK as (PK1 & PK2 & w0 & PK3 & PK4).
  pose proof (S3 k) as SK. rewrite PK1 in SK. cbn [slot] in SK.
  constructor; try assumption.
  - destruct i_rc0 as (n & U & L). exists n. split; [exact U|]. intros m Hm. destruct (L m Hm) as (L1 & L2). split; [exact L1|].
    intros e. rewrite (L2 e). f_equal. pose proof (cnt_repl holds ps i _ (mkWP (Wq (RSub 0 KDone) WTrue) v unb V') N) as K. cbn [holds wp_pc] in K. lia.
  - intros j q Hq. destruct (nth_repl_inv i j _ q _ ps N Hq) as [(-> & ->)|(_ & Hq')]; [reflexivity|apply (i_pok0 j q Hq')].
  - pose proof (cnt_repl unres ps i _ (mkWP (Wq (RSub 0 KDone) WTrue) v unb V') N) as K. cbn [unres wp_pc] in K. lia.
  - exists (fun j => if j =? k then SReady else st j). split; [|split; [|split; [|split]]].
    + intros j. destruct (Nat.eqb_spec j k) as [->|NE]; [|apply S1]. split; [|discriminate]. intros L. apply S1 in L. rewrite PK1 in L. discriminate.
    + intros j. destruct (Nat.eqb_spec j k) as [->|NE]; [|apply S2]. split; [|discriminate]. intros L. apply S2 in L. rewrite PK1 in L. discriminate.
    + intros j. destruct (Nat.eqb_spec j k) as [->|NE].
      * exists w0, v. split; [exact PK2|]. split; [exact PK3|]. split.
        -- rewrite mset_same. intros m [<-|Hm]; cbn [m_val m_view].
           ++ intros _. specialize (LV (LEl 0 k)). lia.
           ++ destruct (SK m Hm) as (_ & Z). intros NZ. contradiction.
        -- intros inh ->. cbn [cok] in S5. destruct S5 as (_ & _ & X). rewrite PK1 in X. discriminate.
      * specialize (S3 j).
        assert (OT : mset M (LAv 0 k) (mkMsg w 1 V' :: M (LAv 0 k)) (LAv 0 j) = M (LAv 0 j))
          by (apply mset_other; cbn [leqb]; apply Nat.eqb_neq in NE; rewrite NE; reflexivity).
        unfold slot. rewrite OT. exact S3.
    + intros j q Hq. destruct (nth_repl_inv i j _ q _ ps N Hq) as [(-> & ->)|(NE & Hq')]; [exact Logic.I|].
      specialize (S4 j q Hq'). unfold pslot in *. destruct (wp_pc q) as [[] []| |]; try exact S4.
      * destruct S4 as (X1 & X2). split; [|exact X2]. destruct (Nat.eqb_spec k0 k) as [->|_]; [|exact X1]. rewrite PK1 in X1. discriminate.
      * destruct S4 as (X1 & X2 & X3). split; [|split; [exact X2|exact X3]]. destruct (Nat.eqb_spec k0 k) as [->|NK]; [|exact X1].
        rewrite PK1 in X1. injection X1 as ->. contradiction.
    + apply cok_stage; [exact S5|]. rewrite PK1. discriminate.
  - apply (keep_sig (mset M (LAv 0 k) (mkMsg w 1 V' :: M (LAv 0 k))) ps nfd pc Vc E D i _ _ N); [reflexivity|exact LV|discriminate|exact i_sig0].
Qed.

(** A producer exchanges the signal. *)
Lemma inv_exch M ps pc Vc nfd race E D C i v unb V V' r x f : inv M ps pc Vc nfd race E D C ->
  nth_error ps i = Some (mkWP WX v unb V) ->
  (exists m, In m (M LSig) /\ m_ts m = r /\ m_val m = x /\ (forall y, m_view m y <= V' y) /\ f = vjoin (m_view m) V') ->
  used (S r) (M LSig) = false -> (forall y, V y <= V' y) ->
  inv (mset M LSig (mkMsg (S r) 0 f :: M LSig))
      (repl i (mkWP (if x =? 0 then Wq FIdle PReady else WN) v unb V') ps) pc Vc nfd race E D C.
Proof.
  intros I N (m0 & I0 & T0 & V0 & W0 & ->) UU LV. destruct I.
  assert (PC : forall b : bool, holds (mkWP (if b then Wq FIdle PReady else WN) v unb V') = false /\
                                unres (mkWP (if b then Wq FIdle PReady else WN) v unb V') = false /\
                                pok (mkWP (if b then Wq FIdle PReady else WN) v unb V') /\
                                forall st M', pslot M' E st i (mkWP (if b then Wq FIdle PReady else WN) v unb V'))
    by (intros []; repeat split).
  specialize (PC (x =? 0)). destruct PC as (PC1 & PC2 & PC3 & PC4).
  constructor; try assumption.
  - destruct i_rc0 as (n & U & L). exists n. split; [exact U|]. intros m Hm. destruct (L m Hm) as (L1 & L2). split; [exact L1|].
    intros e. rewrite (L2 e). f_equal. pose proof (cnt_repl holds ps i _ (mkWP (if x =? 0 then Wq FIdle PReady else WN) v unb V') N) as K.
    rewrite PC1 in K. cbn [holds wp_pc] in K. lia.
  - intros j q Hq. destruct (nth_repl_inv i j _ q _ ps N Hq) as [(-> & ->)|(_ & Hq')]; [exact PC3|apply (i_pok0 j q Hq')].
  - pose proof (cnt_repl unres ps i _ (mkWP (if x =? 0 then Wq FIdle PReady else WN) v unb V') N) as K. rewrite PC2 in K. cbn [unres wp_pc] in K. lia.
  - destruct i_slots0 as (st & S1 & S2 & S3 & S4 & S5). exists st. repeat (split; [assumption|]). split; [|exact S5].
    intros j q Hq. destruct (nth_repl_inv i j _ q _ ps N Hq) as [(-> & ->)|(_ & Hq')]; [apply PC4|apply (S4 j q Hq')].
  - rewrite mset_same. destruct i_sig0 as (n & x0 & b & U & L & A & J1 & J2 & J3).
    destruct (L m0 I0) as (L1 & L2 & L3). assert (r = n) as RN by (apply (last_only _ _ _ U); [lia|exact UU]).
    destruct (L3 ltac:(lia)) as (L4 & L5). assert (LB : b <= V' (LBt 0)) by (rewrite <- L5; apply W0).
    exists (S n), 0, (V' (LBt 0)). split; [|split; [|split; [|split; [|split]]]].
    + intros j Hj. destruct (Nat.eq_dec j (S n)) as [->|NE]; [rewrite <- RN; apply used_head|apply used_cons, U; lia].
    + intros m [<-|Hm]; cbn [m_ts m_val m_view].
      * split; [lia|]. specialize (W0 (LBt 0)). unfold vjoin. split; [lia|]. intros _. split; [reflexivity|lia].
      * destruct (L m Hm) as (M1 & M2 & _). split; [lia|]. split; [lia|]. lia.
    + intros k Hk. destruct (A k Hk) as [Hb|(j & q & Hq & F & VV)]; [left; lia|]. destruct (Nat.eq_dec j i) as [->|NE].
      * rewrite N in Hq. injection Hq as <-. cbn [wp_view] in VV. specialize (LV (LBt 0)). left. lia.
      * right. exists j, q. rewrite nth_repl_other by exact NE. split; [exact Hq|]. split; assumption.
    + intros _. destruct (x =? 0) eqn:XZ.
      * apply Nat.eqb_eq in XZ. destruct (J1 ltac:(lia)) as [H|[(j & q & Hq & WW)|H]]; [left; exact H|right; left|right; right; exact H].
        assert (NE : j <> i) by (intros ->; rewrite N in Hq; injection Hq as <-; discriminate).
        exists j, q. rewrite nth_repl_other by exact NE. split; assumption.
      * right. left. exists i. eexists. split; [apply (nth_repl_same i _ _ ps N)|reflexivity].
    + intros H. contradiction H. reflexivity.
    + intros H. contradiction H. reflexivity.
Qed.

(** A producer notifies. *)
Lemma inv_notify M ps pc Vc nfd race E D C i v unb V : inv M ps pc Vc nfd race E D C -> nth_error ps i = Some (mkWP WN v unb V) ->
  inv M (repl i (mkWP (Wq FIdle PReady) v unb V) ps) pc Vc true race E D C.
Proof.
  intros I N. destruct I. constructor; try assumption.
  - destruct i_rc0 as (n & U & L). exists n. split; [exact U|]. intros m Hm. destruct (L m Hm) as (L1 & L2). split; [exact L1|].
    intros e. rewrite (L2 e). f_equal. pose proof (cnt_repl holds ps i _ (mkWP (Wq FIdle PReady) v unb V) N) as K. cbn [holds wp_pc] in K. lia.
  - intros j q Hq. destruct (nth_repl_inv i j _ q _ ps N Hq) as [(-> & ->)|(_ & Hq')]; [exact Logic.I|apply (i_pok0 j q Hq')].
  - pose proof (cnt_repl unres ps i _ (mkWP (Wq FIdle PReady) v unb V) N) as K. cbn [unres wp_pc] in K. lia.
  - destruct i_slots0 as (st & S1 & S2 & S3 & S4 & S5). exists st. repeat (split; [assumption|]). split; [|exact S5].
    intros j q Hq. destruct (nth_repl_inv i j _ q _ ps N Hq) as [(-> & ->)|(_ & Hq')]; [exact Logic.I|apply (S4 j q Hq')].
  - destruct i_sig0 as (n & x & b & U & L & A & J1 & J2 & J3). exists n, x, b. split; [exact U|]. split; [exact L|]. split; [|split; [|split]].
    + intros k Hk. destruct (A k Hk) as [Hb|(j & q & Hq & F & VV)]; [left; exact Hb|right].
      assert (NE : j <> i) by (intros ->; rewrite N in Hq; injection Hq as <-; discriminate).
      exists j, q. rewrite nth_repl_other by exact NE. split; [exact Hq|]. split; assumption.
    + intros _. left. reflexivity.
    + exact J2.
    + intros _ _. left. reflexivity.
Qed.

(** A producer calls enqueue. *)
Lemma inv_call M ps pc Vc nfd race E D C i v unb v0 u0 V : inv M ps pc Vc nfd race E D C ->
  nth_error ps i = Some (mkWP (Wq FIdle PReady) v0 u0 V) ->
  inv M (repl i (mkWP (Wq FIdle P0) v unb V) ps) pc Vc nfd race E D (S C).
Proof.
  intros I N. destruct I. constructor; try assumption.
  - destruct i_rc0 as (n & U & L). exists n. split; [exact U|]. intros m Hm. destruct (L m Hm) as (L1 & L2). split; [exact L1|].
    intros e. rewrite (L2 e). f_equal. pose proof (cnt_repl holds ps i _ (mkWP (Wq FIdle P0) v unb V) N) as K. cbn [holds wp_pc] in K. lia.
  - intros j q Hq. destruct (nth_repl_inv i j _ q _ ps N Hq) as [(-> & ->)|(_ & Hq')]; [exact Logic.I|apply (i_pok0 j q Hq')].
  - pose proof (cnt_repl unres ps i _ (mkWP (Wq FIdle P0) v unb V) N) as K. cbn [unres wp_pc] in K. lia.
  - destruct i_slots0 as (st & S1 & S2 & S3 & S4 & S5). exists st. repeat (split; [assumption|]). split; [|exact S5].
    intros j q Hq. destruct (nth_repl_inv i j _ q _ ps N Hq) as [(-> & ->)|(_ & Hq')]; [exact Logic.I|apply (S4 j q Hq')].
  - apply (keep_sig M ps nfd pc Vc E D i _ _ N); [reflexivity|intros x; apply le_n|discriminate|exact i_sig0].
Qed.

(** Values enqueued and dequeued in a list of observations. *)
Definition enqs (o : list (obs nat)) : list nat := flat_map (fun e => match e with OEnq _ v => [v] | _ => [] end) o.
Definition deqs (o : list (obs nat)) : list nat := flat_map (fun e => match e with ODeq _ v => [v] | _ => [] end) o.

Ltac upd := first [assumption | reflexivity | exact Logic.I | discriminate | intros; exact Logic.I | intros; discriminate | intros; apply le_n].

Lemma inv_pstep M n ps pc Vc nfd race E D C spur r w i p p' M' n' x nt o :
  inv M ps pc Vc nfd race E D C -> C <= B -> nth_error ps i = Some p -> wpstep B spur r w i p M n = Some (p', M', n', x, nt, o) ->
  x = false /\ deqs o = [] /\ inv M' (repl i p' ps) pc Vc (nt || nfd) race (E ++ enqs o) D C.
Proof.
  intros I CB N H. pose proof (i_pok _ _ _ _ _ _ _ _ _ I i p N) as PK. destruct p as [ppc v unb V].
  unfold pok in PK. cbn [wp_pc] in PK. cbv beta iota zeta delta [wpstep] in H.
  destruct ppc as [f m| |].
  - destruct f; try contradiction.
    + (* FIdle *)
      destruct m; try contradiction; try discriminate; try subst t.
      * (* P0 *)
        destruct (ld true LTl r V M) as [[t V1]|] eqn:L; [|discriminate]. injection H as <- <- <- <- <- <-.
        apply ld_inv in L. destruct L as (m & Im & _ & Vm & _ & _ & LV & _). rewrite (i_tl _ _ _ _ _ _ _ _ _ I m Im) in Vm. subst t.
        split; [reflexivity|]. split; [reflexivity|]. cbn [enqs flat_map orb]. rewrite app_nil_r.
        apply (inv_upd _ _ _ _ _ _ _ _ _ _ _ _ I N); upd.
      * (* P1 *)
        destruct (ld false (LRc 0) r V M) as [[c V1]|] eqn:L; [|discriminate]. injection H as <- <- <- <- <- <-.
        apply ld_inv in L. destruct L as (m & Im & _ & Vm & _ & _ & LV & _).
        split; [reflexivity|]. split; [reflexivity|]. cbn [enqs flat_map orb]. rewrite app_nil_r.
        apply (inv_upd _ _ _ _ _ _ _ _ _ _ _ _ I N); destruct (c =? 0); upd.
      * (* P2 *)
        destruct (cas false false spur (LRc 0) c (c + 1) r V M) as [[[ok V1] M1]|] eqn:L; [|discriminate]. injection H as <- <- <- <- <- <-.
        apply cas_inv in L. split; [reflexivity|]. split; [reflexivity|]. cbn [enqs flat_map orb]. rewrite app_nil_r. destruct ok.
        -- destruct L as (m & Im & Tm & Vm & _ & UU & _ & LV & _ & _ & ->).
           eapply (inv_rc _ _ _ _ _ _ _ _ _ i _ _ r V V1); [exact I|exact N| |exists m; split; assumption|exact UU|reflexivity|reflexivity|exact LV|reflexivity|reflexivity|reflexivity|discriminate|intros; exact Logic.I].
           intros m' Im' Tm'. cbn [holds wp_pc].
           destruct (i_rc _ _ _ _ _ _ _ _ _ I) as (n0 & U & L). destruct (L m Im) as (X1 & X2). destruct (L m' Im') as (Y1 & Y2).
           assert (r = n0) by (apply (last_only _ _ _ U); [lia|exact UU]). rewrite Y2 by lia. rewrite X2 in Vm by lia. lia.
        -- destruct L as (-> & LV). apply (inv_upd _ _ _ _ _ _ _ _ _ _ _ _ I N); upd.
      * (* P3 *)
        destruct (ld false (LFreed 0) r V M) as [[z V1]|] eqn:L; [|discriminate].
        apply ld_inv in L. destruct L as (m & Im & _ & Vm & _ & _ & LV & _). rewrite (i_fr _ _ _ _ _ _ _ _ _ I m Im) in Vm. subst z.
        cbn [Nat.eqb] in H. injection H as <- <- <- <- <- <-.
        split; [reflexivity|]. split; [reflexivity|]. cbn [enqs flat_map orb]. rewrite app_nil_r.
        apply (inv_upd _ _ _ _ _ _ _ _ _ _ _ _ I N); upd.
      * (* P4 *)
        destruct (ld false (LBt 0) r V M) as [[z V1]|] eqn:L; [|discriminate]. injection H as <- <- <- <- <- <-.
        apply ld_inv in L. destruct L as (m & Im & _ & Vm & _ & _ & LV & _). destruct (i_bt _ _ _ _ _ _ _ _ _ I m Im) as (X1 & X2).
        pose proof (i_calls _ _ _ _ _ _ _ _ _ I) as CC. pose proof (cnt_pos unres ps i _ N eq_refl) as UP.
        assert (LT : (B <=? z) = false) by (apply Nat.leb_gt; lia). rewrite LT.
        split; [reflexivity|]. split; [reflexivity|]. cbn [enqs flat_map orb]. rewrite app_nil_r.
        apply (inv_upd _ _ _ _ _ _ _ _ _ _ _ _ I N); upd.
      * (* P9 *)
        destruct (cas false false spur (LBt 0) k (k + 1) r V M) as [[[ok V1] M1]|] eqn:L; [|discriminate]. apply cas_inv in L. destruct ok.
        -- injection H as <- <- <- <- <- <-. destruct L as (m & Im & Tm & Vm & _ & UU & SR & LV & _ & _ & ->).
           split; [reflexivity|]. split; [reflexivity|]. cbn [enqs flat_map orb app].
           apply (inv_res _ _ _ _ _ _ _ _ _ _ _ _ V V1 k r _ I N); [exists m; repeat (split; [assumption|]); assumption|exact UU|exact LV|exact SR].
        -- injection H as <- <- <- <- <- <-. destruct L as (-> & LV).
           split; [reflexivity|]. split; [reflexivity|]. cbn [enqs flat_map orb]. rewrite app_nil_r.
           apply (inv_upd _ _ _ _ _ _ _ _ _ _ _ _ I N); upd.
      * (* P10 *)
        unfold put in H. destruct (st false (LEl 0 k) v w V M) as [[V1 M1]|] eqn:L; [|discriminate]. injection H as <- <- <- <- <- <-.
        apply st_inv in L. destruct L as (LW & _ & EV & _ & ->).
        destruct (inv_put M ps pc Vc nfd race E D C i v unb V V1 k w (vset vzero (LEl 0 k) w) I N LW EV) as (R & I').
        split; [exact R|]. split; [reflexivity|]. cbn [enqs flat_map orb]. rewrite app_nil_r. exact I'.
      * (* P11 *)
        destruct (st true (LAv 0 k) 1 w V M) as [[V1 M1]|] eqn:L; [|discriminate]. injection H as <- <- <- <- <- <-.
        apply st_inv in L. destruct L as (_ & _ & _ & LV & ->).
        split; [reflexivity|]. split; [reflexivity|]. cbn [enqs flat_map orb]. rewrite app_nil_r. apply (inv_avail _ _ _ _ _ _ _ _ _ _ _ _ V V1 k w I N LV).
    + (* RSub *)
      destruct k; try contradiction. destruct m; try contradiction; subst u; cbn [wfstep] in H;
        (destruct (rmw false false (LRc 0) (fun c => c - 1) r V M) as [[[c V1] M1]|] eqn:L; [|discriminate]);
        apply rmw_inv in L; destruct L as (m & _ & Im & Tm & Vm & _ & UU & _ & LV & _ & _ & ->);
        destruct (i_rc _ _ _ _ _ _ _ _ _ I) as (n0 & U & L); destruct (L m Im) as (X1 & X2);
        assert (RN : r = n0) by (apply (last_only _ _ _ U); [lia|exact UU]);
        pose proof (cnt_pos holds ps i _ N eq_refl) as HP; rewrite X2 in Vm by lia;
        assert (C1 : (c =? 1) = false) by (apply Nat.eqb_neq; lia); rewrite C1 in H; injection H as <- <- <- <- <- <-;
        (split; [reflexivity|]); (split; [reflexivity|]); cbn [enqs flat_map orb fin]; rewrite app_nil_r;
        (eapply (inv_rc _ _ _ _ _ _ _ _ _ i _ _ r V V1); [exact I|exact N| |exists m; split; assumption|exact UU|reflexivity|reflexivity|exact LV|exact Logic.I|reflexivity|reflexivity|discriminate|intros; exact Logic.I];
         intros m' Im' Tm'; cbn [holds wp_pc]; destruct (L m' Im') as (Y1 & Y2); rewrite Y2 by lia; lia).
    + (* FDone *)
      destruct m; try contradiction; injection H as <- <- <- <- <- <-; (split; [reflexivity|]); (split; [reflexivity|]); cbn [enqs flat_map orb]; rewrite app_nil_r.
      * apply (inv_upd _ _ _ _ _ _ _ _ _ _ _ _ I N); upd.
      * apply (inv_upd _ _ _ _ _ _ _ _ _ _ _ _ I N); upd.
  - (* WX *)
    destruct (rmw true true LSig (fun _ => 0) r V M) as [[[z V1] M1]|] eqn:L; [|discriminate].
    apply rmw_inv in L. destruct L as (m & _ & Im & Tm & Vm & _ & UU & _ & LV & AV & _ & ->). specialize (AV eq_refl).
    pose proof (inv_exch M ps pc Vc nfd race E D C i v unb V V1 r z _ I N
                  (ex_intro _ m (conj Im (conj Tm (conj Vm (conj AV eq_refl))))) UU LV) as I'.
    destruct (z =? 0); injection H as <- <- <- <- <- <-; (split; [reflexivity|]); (split; [reflexivity|]); cbn [enqs flat_map orb]; rewrite app_nil_r; exact I'.
  - (* WN *)
    injection H as <- <- <- <- <- <-. split; [reflexivity|]. split; [reflexivity|]. cbn [enqs flat_map orb]. rewrite app_nil_r.
    apply (inv_notify _ _ _ _ _ _ _ _ _ _ _ _ _ I N).
Qed.

(** The consumer moves on without changing the memory. *)
Definition notK6 (pc : wcpc) : Prop := match pc with Kq _ FIdle (K6 _ _) => False | _ => True end.

Lemma inv_cupd M ps pc pc' Vc Vc' nfd race E D C : inv M ps pc Vc nfd race E D C -> (forall x, Vc x <= Vc' x) ->
  hval pc' (length D) = hval pc (length D) -> pc <> KSig -> notK6 pc' ->
  (forall st, cok pc Vc (length D) (length E) st -> cok pc' Vc' (length D) (length E) st) ->
  (resting pc' -> resting pc \/ Vc (LBt 0) <= length D) ->
  inv M ps pc' Vc' nfd race E D C.
Proof.
  intros I LV HV NS NK CK RS. destruct I. constructor; try assumption.
  - intros m Hm. destruct (i_bh0 m Hm) as (L1 & L2). pose proof (LV (LBh 0)) as LB. split; [lia|]. intros e. rewrite HV. apply L2. lia.
  - destruct i_slots0 as (st & S1 & S2 & S3 & S4 & S5). exists st. repeat (split; [assumption|]). split; [|split; [exact S4|apply CK, S5]].
    intros k. specialize (S3 k). unfold slot in *. destruct (st k); try exact S3. destruct S3 as (w & v & X1 & X2 & X3 & X4). exists w, v.
    repeat (split; [assumption|]). intros inh ->. contradiction NK.
  - destruct i_sig0 as (n & x & b & U & L & A & J1 & J2 & J3). exists n, x, b. split; [exact U|]. split; [exact L|]. split; [exact A|]. split; [|split].
    + intros e. destruct (J1 e) as [H|[H|H]]; [left; exact H|right; left; exact H|contradiction].
    + intros e _. specialize (J2 e NS). specialize (LV (LBt 0)). lia.
    + intros e R. destruct (RS R) as [R'|R']; [apply (J3 e R')|]. specialize (J2 e NS). right. lia.
Qed.

(** The loop calls the handler. *)
Lemma inv_wake M ps Vc nfd race E D C : inv M ps KIdle Vc nfd race E D C -> inv M ps KSig Vc false race E D C.
Proof.
  intros I. destruct I. constructor; try assumption.
  - destruct i_slots0 as (st & S1 & S2 & S3 & S4 & S5). exists st. repeat (split; [assumption|]). split; [|split; [exact S4|exact S5]].
    intros k. specialize (S3 k). unfold slot in *. destruct (st k); try exact S3. destruct S3 as (w & v & X1 & X2 & X3 & X4). exists w, v.
    repeat (split; [assumption|]). discriminate.
  - destruct i_sig0 as (n & x & b & U & L & A & J1 & J2 & J3). exists n, x, b. split; [exact U|]. split; [exact L|]. split; [exact A|]. split; [|split].
    + intros _. right. right. reflexivity.
    + intros _ H. contradiction.
    + intros _ [].
Qed.

(** func returned true and the handler notifies. *)
Lemma inv_again M ps Vc nfd race E D C : inv M ps KNot Vc nfd race E D C -> inv M ps KIdle Vc true race E D C.
Proof.
  intros I. destruct I. constructor; try assumption.
  - destruct i_slots0 as (st & S1 & S2 & S3 & S4 & S5). exists st. repeat (split; [assumption|]). split; [|split; [exact S4|exact S5]].
    intros k. specialize (S3 k). unfold slot in *. destruct (st k); try exact S3. destruct S3 as (w & v & X1 & X2 & X3 & X4). exists w, v.
    repeat (split; [assumption|]). discriminate.
  - destruct i_sig0 as (n & x & b & U & L & A & J1 & J2 & J3). exists n, x, b. split; [exact U|]. split; [exact L|]. split; [exact A|]. split; [|split].
    + intros _. left. reflexivity.
    + intros e _. apply (J2 e). discriminate.
    + intros _ _. left. reflexivity.
Qed.

(** The handler exchanges the signal. *)
Lemma inv_sig M ps Vc V' nfd race E D C r f : inv M ps KSig Vc nfd race E D C ->
  (exists m, In m (M LSig) /\ m_ts m = r /\ (forall y, m_view m y <= V' y) /\ f = vjoin (m_view m) V') ->
  used (S r) (M LSig) = false -> (forall y, Vc y <= V' y) ->
  inv (mset M LSig (mkMsg (S r) 1 f :: M LSig)) ps (KFn false) V' nfd race E D C.
Proof.
  intros I (m0 & I0 & T0 & W0 & ->) UU LV. destruct I. constructor; try assumption.
  - intros m Hm. destruct (i_bh0 m Hm) as (L1 & L2). pose proof (LV (LBh 0)) as LB. split; [lia|]. intros e. apply L2. lia.
  - destruct i_slots0 as (st & S1 & S2 & S3 & S4 & S5). exists st. repeat (split; [assumption|]). split; [|split; [exact S4|exact S5]].
    intros k. specialize (S3 k). unfold slot in *. destruct (st k); try exact S3. destruct S3 as (w & v & X1 & X2 & X3 & X4). exists w, v.
    repeat (split; [assumption|]). discriminate.
  - rewrite mset_same. destruct i_sig0 as (n & x0 & b & U & L & A & J1 & J2 & J3).
    destruct (L m0 I0) as (L1 & L2 & L3). assert (r = n) as RN by (apply (last_only _ _ _ U); [lia|exact UU]).
    destruct (L3 ltac:(lia)) as (L4 & L5). assert (LB : b <= V' (LBt 0)) by (rewrite <- L5; apply W0).
    exists (S n), 1, (V' (LBt 0)). split; [|split; [|split; [|split; [|split]]]].
    + intros j Hj. destruct (Nat.eq_dec j (S n)) as [->|NE]; [rewrite <- RN; apply used_head|apply used_cons, U; lia].
    + intros m [<-|Hm]; cbn [m_ts m_val m_view].
      * split; [lia|]. specialize (W0 (LBt 0)). unfold vjoin. split; [lia|]. intros _. split; [reflexivity|lia].
      * destruct (L m Hm) as (M1 & M2 & _). split; [lia|]. split; lia.
    + intros k Hk. destruct (A k Hk) as [Hb|H]; [left; lia|right; exact H].
    + discriminate.
    + intros _ _. apply le_n.
    + intros _ [].
Qed.

(** The consumer claims the next slot. *)
Lemma inv_claim M ps Vc nfd race E D C inh hh w W : inv M ps (Kq inh FIdle (K1 0 hh)) Vc nfd race E D C -> Vc (LBh 0) < w ->
  inv (mset M (LBh 0) (mkMsg w (hh + 1) W :: M (LBh 0))) ps (Kq inh FIdle (K5 0 hh)) (vset Vc (LBh 0) w) nfd race E D C.
Proof.
  intros I LW. destruct I. destruct i_slots0 as (st & S1 & S2 & S3 & S4 & S5). cbn [cok] in S5. destruct S5 as (_ & -> & LT). constructor; try assumption.
  - rewrite mset_same, vset_same. intros m [<-|Hm]; cbn [m_ts m_val hval]; [lia|]. destruct (i_bh0 m Hm). lia.
  - exists st. repeat (split; [assumption|]). split; [|split; [exact S4|]].
    + intros k. specialize (S3 k). unfold slot in *. destruct (st k); try exact S3. destruct S3 as (w' & v & X1 & X2 & X3 & X4). exists w', v.
      repeat (split; [assumption|]). discriminate.
    + cbn [cok]. split; [reflexivity|]. split; [reflexivity|exact LT].
  - destruct i_sig0 as (n & x & b & U & L & A & J1 & J2 & J3). exists n, x, b. split; [exact U|]. split; [exact L|]. split; [exact A|]. split; [|split].
    + intros e. destruct (J1 e) as [H|[H|H]]; [left; exact H|right; left; exact H|discriminate].
    + intros e _. apply (J2 e). discriminate.
    + exact J3.
Qed.

(** The consumer sees its element available. *)
Lemma inv_seen M ps Vc V' nfd race E D C inh hh : inv M ps (Kq inh FIdle (K5 0 hh)) Vc nfd race E D C ->
  (exists m, In m (M (LAv 0 hh)) /\ m_val m <> 0 /\ forall y, m_view m y <= V' y) -> (forall y, Vc y <= V' y) ->
  inv M ps (Kq inh FIdle (K6 0 hh)) V' nfd race E D C.
Proof.
  intros I (m0 & I0 & NZ & W0) LV. destruct I. destruct i_slots0 as (st & S1 & S2 & S3 & S4 & S5). cbn [cok] in S5. destruct S5 as (_ & -> & LT).
  assert (R : st (length D) = SReady).
  { pose proof (S3 (length D)) as X. destruct (st (length D)) eqn:G; cbn [slot] in X; try reflexivity.
    - apply S1 in G. lia.
    - destruct X as (_ & X). destruct (X m0 I0). contradiction.
    - destruct (X m0 I0). contradiction.
    - apply S2 in G. lia. }
  constructor; try assumption.
  - intros m Hm. destruct (i_bh0 m Hm) as (L1 & L2). pose proof (LV (LBh 0)) as LB. split; [lia|]. intros e. apply L2. lia.
  - exists st. repeat (split; [assumption|]). split; [|split; [exact S4|]].
    + intros k. specialize (S3 k). unfold slot in *. destruct (st k); try exact S3. destruct S3 as (w' & v & X1 & X2 & X3 & X4). exists w', v.
      repeat (split; [assumption|]). intros inh' [= -> <-]. specialize (X3 m0 I0 NZ). specialize (W0 (LEl 0 (length D))). lia.
    + cbn [cok]. split; [reflexivity|]. split; [reflexivity|exact R].
  - destruct i_sig0 as (n & x & b & U & L & A & J1 & J2 & J3). exists n, x, b. split; [exact U|]. split; [exact L|]. split; [exact A|]. split; [|split].
    + intros e. destruct (J1 e) as [H|[H|H]]; [left; exact H|right; left; exact H|discriminate].
    + intros e _. specialize (J2 e ltac:(discriminate)). specialize (LV (LBt 0)). lia.
    + exact J3.
Qed.

(** The consumer takes its element. *)
Lemma inv_take M ps Vc V' nfd race E D C inh hh e r w : inv M ps (Kq inh FIdle (K6 0 hh)) Vc nfd race E D C ->
  (exists m, In m (M (LEl 0 hh)) /\ m_ts m = r /\ m_val m = e) -> Vc (LEl 0 hh) <= r -> V' = vset (vset Vc (LEl 0 hh) r) (LEl 0 hh) w -> r < w ->
  races (LEl 0 hh) Vc M = false /\
  inv (mset M (LEl 0 hh) (mkMsg w 0 (vset vzero (LEl 0 hh) w) :: M (LEl 0 hh))) ps (Kq inh FIdle (K7 0 hh e)) V' nfd race E (D ++ [e]) C.
Proof.
  intros I (m0 & I0 & T0 & V0) LR EV LW. destruct I. destruct i_slots0 as (st & S1 & S2 & S3 & S4 & S5). cbn [cok] in S5. destruct S5 as (_ & -> & R).
  pose proof (S3 (length D)) as X. rewrite R in X. destruct X as (w0 & v & X1 & X2 & X3 & X4). specialize (X4 inh eq_refl).
  split. { apply races_false. intros m Hm. destruct (X2 m Hm). lia. }
  destruct (X2 m0 I0) as (Y1 & Y2). assert (e = v) as -> by (rewrite <- V0; apply Y2; lia).
  assert (LV : forall x, leqb x (LEl 0 (length D)) = false -> V' x = Vc x).
  { intros x F. subst V'. unfold vset. rewrite !F. reflexivity. }
  destruct i_out0 as (rest & EE).
  assert (RR : exists rest', rest = v :: rest').
  { rewrite EE, nth_error_app2, Nat.sub_diag in X1 by lia. destruct rest as [|y rest]; [discriminate|]. injection X1 as ->. exists rest. reflexivity. }
  destruct RR as (rest' & ->).
  assert (LD : length (D ++ [v]) = S (length D)) by (rewrite app_length; cbn [length]; lia).
  assert (LE : length D < length E) by (rewrite EE, app_length; cbn [length]; lia).
  constructor; try assumption.
  - intros m Hm. destruct (i_bh0 m Hm) as (L1 & L2). rewrite (LV (LBh 0) eq_refl), LD. split; [exact L1|exact L2].
  - exists (fun j => if j =? length D then STaken else st j). rewrite LD. split; [|split; [|split; [|split]]].
    + intros j. destruct (Nat.eqb_spec j (length D)) as [->|NE]; [split; [lia|discriminate]|apply S1].
    + intros j. destruct (Nat.eqb_spec j (length D)) as [->|NE]; [split; [reflexivity|lia]|]. rewrite <- S2. lia.
    + intros j. destruct (Nat.eqb_spec j (length D)) as [->|NE]; [exact Logic.I|]. specialize (S3 j).
      assert (OT : mset M (LEl 0 (length D)) (mkMsg w 0 (vset vzero (LEl 0 (length D)) w) :: M (LEl 0 (length D))) (LEl 0 j) = M (LEl 0 j))
        by (apply mset_other; cbn [leqb]; apply Nat.eqb_neq in NE; rewrite NE; reflexivity).
      unfold slot in *. rewrite OT. destruct (st j); try exact S3. destruct S3 as (w' & v' & Z1 & Z2 & Z3 & Z4). exists w', v'.
      repeat (split; [assumption|]). discriminate.
    + intros j q Hq. specialize (S4 j q Hq). unfold pslot in *. destruct (wp_pc q) as [[] []| |]; try exact S4.
      * destruct S4 as (Z1 & Z2). split; [|exact Z2]. destruct (Nat.eqb_spec k (length D)) as [->|_]; [|exact Z1]. rewrite R in Z1. discriminate.
      * destruct S4 as (Z1 & Z2 & w' & Z3 & Z4). destruct (Nat.eqb_spec k (length D)) as [->|NK]; [rewrite R in Z1; discriminate|].
        split; [exact Z1|]. split; [exact Z2|]. exists w'. rewrite mset_other by (cbn [leqb]; apply Nat.eqb_neq in NK; rewrite NK; reflexivity).
        split; assumption.
    + cbn [cok]. split; reflexivity.
  - exists rest'. rewrite EE, <- app_assoc. reflexivity.
  - destruct i_sig0 as (n & x & b & U & L & A & J1 & J2 & J3). exists n, x, b. split; [exact U|]. split; [exact L|]. split; [exact A|]. split; [|split].
    + intros e. destruct (J1 e) as [H|[H|H]]; [left; exact H|right; left; exact H|discriminate].
    + intros e _. rewrite (LV (LBt 0) eq_refl). apply (J2 e). discriminate.
    + intros e RS. destruct (J3 e RS) as [H|H]; [left; exact H|right; lia].
Qed.

(** The consumer marks its slot empty and returns. *)
Lemma inv_done M ps Vc nfd race E D C inh hh e w W : inv M ps (Kq inh FIdle (K7 0 hh e)) Vc nfd race E D C -> Vc (LAv 0 hh) < w ->
  inv (mset M (LAv 0 hh) (mkMsg w 0 W :: M (LAv 0 hh))) ps (back inh false) (vset Vc (LAv 0 hh) w) nfd race E D C.
Proof.
  intros I LW. destruct I. destruct i_slots0 as (st & S1 & S2 & S3 & S4 & S5). cbn [cok] in S5. destruct S5 as (_ & HH).
  assert (TK : st hh = STaken) by (apply S2; lia).
  constructor; try assumption.
  - intros m Hm. destruct (i_bh0 m Hm) as (L1 & L2). split; [exact L1|]. intros e'. rewrite (L2 e'). destruct inh; reflexivity.
  - exists st. repeat (split; [assumption|]). split; [|split; [exact S4|]].
    + intros j. specialize (S3 j). destruct (Nat.eq_dec j hh) as [->|NE]; [rewrite TK; exact Logic.I|].
      assert (OT : mset M (LAv 0 hh) (mkMsg w 0 W :: M (LAv 0 hh)) (LAv 0 j) = M (LAv 0 j))
        by (apply mset_other; cbn [leqb]; apply Nat.eqb_neq in NE; rewrite NE; reflexivity).
      unfold slot in *. rewrite OT. destruct (st j); try exact S3. destruct S3 as (w' & v' & Z1 & Z2 & Z3 & Z4). exists w', v'.
      repeat (split; [assumption|]). destruct inh; discriminate.
    + destruct inh; exact Logic.I.
  - destruct i_sig0 as (n & x & b & U & L & A & J1 & J2 & J3). exists n, x, b. split; [exact U|]. split; [exact L|]. split; [exact A|]. split; [|split].
    + intros e'. destruct (J1 e') as [H|[H|H]]; [left; exact H|right; left; exact H|discriminate].
    + intros e' _. apply (J2 e'). discriminate.
    + intros e' RS. apply (J3 e'). destruct inh; [contradiction RS|exact Logic.I].
Qed.

Lemma inv_cstep M ps c nfd race E D C spur r w c' M' x nt o :
  inv M ps (wc_pc c) (wc_view c) nfd race E D C -> wcstep B spur r w c M = Some (c', M', x, nt, o) ->
  x = false /\ enqs o = [] /\ inv M' ps (wc_pc c') (wc_view c') (nt || nfd) race E (D ++ deqs o) C.
Proof.
  intros I H. destruct c as [pc V]. cbn [wc_pc wc_view] in *. cbv beta iota zeta delta [wcstep] in H.
  assert (CK : exists st, cok pc V (length D) (length E) st) by (destruct (i_slots _ _ _ _ _ _ _ _ _ I) as (st & _ & _ & _ & _ & S5); exists st; exact S5).
  destruct CK as (st0 & CK). destruct pc as [| |e| |inh f m]; try discriminate.
  - (* KSig *)
    destruct (rmw true true LSig (fun _ => 1) r V M) as [[[z V1] M1]|] eqn:L; [|discriminate]. injection H as <- <- <- <- <-.
    apply rmw_inv in L. destruct L as (m & _ & Im & Tm & Vm & _ & UU & _ & LV & AV & _ & ->). specialize (AV eq_refl).
    split; [reflexivity|]. split; [reflexivity|]. cbn [deqs flat_map orb wc_pc wc_view]. rewrite app_nil_r.
    apply (inv_sig M ps V V1 nfd race E D C r _ I); [exists m; repeat (split; [assumption|]); reflexivity|exact UU|exact LV].
  - (* KNot *)
    injection H as <- <- <- <- <-. split; [reflexivity|]. split; [reflexivity|]. cbn [deqs flat_map orb wc_pc wc_view]. rewrite app_nil_r.
    apply (inv_again _ _ _ nfd). exact I.
  - destruct f; try contradiction CK.
    destruct m; try contradiction CK; cbn [cok] in CK.
    + (* K0 *)
      destruct (ld false LHd r V M) as [[h V1]|] eqn:L; [|discriminate]. injection H as <- <- <- <- <-.
      apply ld_inv in L. destruct L as (m & Im & _ & Vm & _ & _ & LV & _). rewrite (i_hd _ _ _ _ _ _ _ _ _ I m Im) in Vm. subst h.
      split; [reflexivity|]. split; [reflexivity|]. cbn [deqs flat_map orb wc_pc wc_view]. rewrite app_nil_r.
      apply (inv_cupd _ _ _ _ _ _ _ _ _ _ _ I LV); [reflexivity|discriminate|exact Logic.I|intros; reflexivity|intros R; left; exact R].
    + (* K0a *)
      subst h. destruct (ld false (LBh 0) r V M) as [[h V1]|] eqn:L; [|discriminate]. injection H as <- <- <- <- <-.
      apply ld_inv in L. destruct L as (m & Im & Tm & Vm & LR & _ & LV & _). destruct (i_bh _ _ _ _ _ _ _ _ _ I m Im) as (X1 & X2).
      rewrite X2 in Vm by lia. cbn [hval] in Vm. subst h.
      split; [reflexivity|]. split; [reflexivity|]. cbn [deqs flat_map orb wc_pc wc_view]. rewrite app_nil_r.
      apply (inv_cupd _ _ _ _ _ _ _ _ _ _ _ I LV); [reflexivity|discriminate|exact Logic.I|intros; split; reflexivity|intros R; left; exact R].
    + (* K0b *)
      destruct CK as (-> & ->). destruct (ld false (LBt 0) r V M) as [[z V1]|] eqn:L; [|discriminate].
      apply ld_inv in L. destruct L as (m & Im & Tm & Vm & LR & _ & LV & _ & EV). specialize (EV eq_refl).
      destruct (i_bt _ _ _ _ _ _ _ _ _ I m Im) as (X1 & X2).
      assert (VT : V1 (LBt 0) = z) by (subst V1; rewrite vset_same; lia).
      destruct (z <=? length D) eqn:ZD.
      * apply Nat.leb_le in ZD. destruct (z <? B); injection H as <- <- <- <- <-;
          (split; [reflexivity|]); (split; [reflexivity|]); cbn [deqs flat_map orb wc_pc wc_view app]; rewrite app_nil_r.
        -- apply (inv_cupd _ _ _ _ _ _ _ _ _ _ _ I LV); destruct inh; cbn [back hval resting cok notK6]; try reflexivity; try discriminate;
             try exact Logic.I; try (intros; lia); intros R; left; exact Logic.I.
        -- apply (inv_cupd _ _ _ _ _ _ _ _ _ _ _ I LV); [reflexivity|discriminate|exact Logic.I|intros; cbn [cok]; split; [reflexivity|lia]|intros R; left; exact R].
      * apply Nat.leb_gt in ZD. injection H as <- <- <- <- <-.
        split; [reflexivity|]. split; [reflexivity|]. cbn [deqs flat_map orb wc_pc wc_view]. rewrite app_nil_r.
        apply (inv_cupd _ _ _ _ _ _ _ _ _ _ _ I LV); [reflexivity|discriminate|exact Logic.I|intros; cbn [cok]; repeat (split; [reflexivity|]); lia|intros R; left; exact R].
    + (* K2 *)
      destruct CK as (-> & CT). destruct (ld false (LBn 0) r V M) as [[z V1]|] eqn:L; [|discriminate].
      apply ld_inv in L. destruct L as (m & Im & Tm & Vm & LR & _ & LV & _ & EV). specialize (EV eq_refl). rewrite (i_bn _ _ _ _ _ _ _ _ _ I m Im) in Vm. subst z.
      cbn [Nat.eqb] in H. injection H as <- <- <- <- <-.
      assert (VT : V1 (LBt 0) = V (LBt 0)) by (subst V1; reflexivity).
      split; [reflexivity|]. split; [reflexivity|]. cbn [deqs flat_map orb wc_pc wc_view app]. rewrite app_nil_r.
      apply (inv_cupd _ _ _ _ _ _ _ _ _ _ _ I LV); destruct inh; cbn [back hval resting cok notK6]; try reflexivity; try discriminate;
        try exact Logic.I; try (intros; lia); intros R; left; exact Logic.I.
    + (* K1 *)
      destruct CK as (-> & CK). destruct (st false (LBh 0) (hh + 1) w V M) as [[V1 M1]|] eqn:L; [|discriminate]. injection H as <- <- <- <- <-.
      apply st_inv in L. destruct L as (LW & _ & EV & _ & ->). subst V1.
      split; [reflexivity|]. split; [reflexivity|]. cbn [deqs flat_map orb wc_pc wc_view]. rewrite app_nil_r. apply inv_claim; assumption.
    + (* K5 *)
      destruct CK as (-> & CK). destruct (ld true (LAv 0 hh) r V M) as [[z V1]|] eqn:L; [|discriminate]. injection H as <- <- <- <- <-.
      apply ld_inv in L. destruct L as (m & Im & Tm & Vm & LR & _ & LV & AV & _). specialize (AV eq_refl).
      split; [reflexivity|]. split; [reflexivity|]. cbn [deqs flat_map orb wc_pc wc_view]. rewrite app_nil_r. destruct (z =? 0) eqn:ZZ.
      * apply (inv_cupd _ _ _ _ _ _ _ _ _ _ _ I LV); [reflexivity|discriminate|exact Logic.I| |intros R; left; exact R].
        intros s0 Hs. cbn [cok] in *. exact Hs.
      * apply Nat.eqb_neq in ZZ. apply (inv_seen _ _ V _ _ _ _ _ _ _ _ I); [exists m; repeat (split; [congruence|]); exact AV|exact LV].
    + (* K6 *)
      destruct CK as (-> & CK). unfold take in H. destruct (ld false (LEl 0 hh) r V M) as [[z V1]|] eqn:L; [|discriminate].
      destruct (st false (LEl 0 hh) 0 w V1 M) as [[V2 M2]|] eqn:S; [|discriminate]. injection H as <- <- <- <- <-.
      apply ld_inv in L. destruct L as (m & Im & Tm & Vm & LR & _ & LV & _ & EV). specialize (EV eq_refl).
      apply st_inv in S. destruct S as (LW & _ & EV2 & _ & ->).
      assert (RW : r < w) by (rewrite EV, vset_same in LW; exact LW).
      destruct (inv_take M ps V V2 nfd race E D C inh hh z r w I ltac:(exists m; repeat (split; [assumption|]); assumption) LR ltac:(subst; reflexivity) RW) as (R & I').
      split; [exact R|]. split; [reflexivity|]. exact I'.
    + (* K7 *)
      destruct CK as (-> & CK). destruct (st false (LAv 0 hh) 0 w V M) as [[V1 M1]|] eqn:L; [|discriminate]. injection H as <- <- <- <- <-.
      apply st_inv in L. destruct L as (LW & _ & EV & _ & ->). subst V1.
      split; [reflexivity|]. split; [reflexivity|]. cbn [deqs flat_map orb wc_pc wc_view]. rewrite app_nil_r. apply (inv_done _ _ _ _ _ _ _ _ _ _ e); assumption.
Qed.

(** Number of calls in a list of events. *)
Definition is_call (ev : wev) : bool := match ev with WEnq _ _ _ => true | _ => false end.
Definition winv (s : wsys) (E D : list nat) (C : nat) : Prop :=
  inv (w_M s) (w_ps s) (wc_pc (w_c s)) (wc_view (w_c s)) (w_nfd s) (w_race s) E D C.

Lemma winv_step ev s s' o E D C : winv s E D C -> C + (if is_call ev then 1 else 0) <= B -> wstep B ev s = Some (s', o) ->
  winv s' (E ++ enqs o) (D ++ deqs o) (C + if is_call ev then 1 else 0).
Proof.
  intros I CB H. unfold winv in *. destruct s as [M n ps c nfd race]. cbn [w_M w_ps w_c w_nfd w_race] in *. cbv beta iota zeta delta [wstep] in H.
  destruct ev as [i v unb|i spur r w| | |more|spur r w]; cbn [is_call] in *; rewrite ?Nat.add_0_r in *.
  - destruct (nth_error ps i) as [[[[] []| |] v0 u0 V]|] eqn:N; try discriminate. injection H as <- <-.
    cbn [w_M w_ps w_c w_nfd w_race enqs deqs flat_map]. rewrite !app_nil_r, Nat.add_1_r. apply (inv_call _ _ _ _ _ _ _ _ _ _ _ _ v0 u0 V I N).
  - destruct (nth_error ps i) as [p|] eqn:N; [|discriminate]. destruct (wpstep B spur r w i p M n) as [[[[[[p' M'] n'] x] nt] o']|] eqn:P; [|discriminate].
    injection H as <- <-. destruct (inv_pstep _ _ _ _ _ _ _ _ _ _ _ _ _ _ _ _ _ _ _ _ _ I CB N P) as (-> & DE & I').
    cbn [w_M w_ps w_c w_nfd w_race orb]. rewrite DE, app_nil_r. exact I'.
  - destruct c as [[] V]; try discriminate. destruct nfd; [|discriminate]. injection H as <- <-.
    cbn [w_M w_ps w_c w_nfd w_race wc_pc wc_view enqs deqs flat_map]. rewrite !app_nil_r. apply (inv_wake _ _ _ _ _ _ _ _ I).
  - destruct c as [[] V]; try discriminate; injection H as <- <-; cbn [w_M w_ps w_c w_nfd w_race wc_pc wc_view enqs deqs flat_map] in *; rewrite !app_nil_r.
    + apply (inv_cupd _ _ _ _ _ _ _ _ _ _ _ I); [intros; apply le_n|reflexivity|discriminate|exact Logic.I|intros; exact Logic.I|intros R; left; exact R].
    + apply (inv_cupd _ _ _ _ _ _ _ _ _ _ _ I); [intros; apply le_n|reflexivity|discriminate|exact Logic.I|intros; exact Logic.I|intros []].
  - destruct c as [[] V]; try discriminate. destruct more.
    + injection H as <- <-. cbn [w_M w_ps w_c w_nfd w_race wc_pc wc_view enqs deqs flat_map] in *; rewrite !app_nil_r.
      apply (inv_cupd _ _ _ _ _ _ _ _ _ _ _ I); [intros; apply le_n|reflexivity|discriminate|exact Logic.I|intros; exact Logic.I|intros []].
    + destruct e; [|discriminate]. injection H as <- <-. cbn [w_M w_ps w_c w_nfd w_race wc_pc wc_view enqs deqs flat_map] in *; rewrite !app_nil_r.
      destruct (i_slots _ _ _ _ _ _ _ _ _ I) as (st & _ & _ & _ & _ & S5). cbn [cok] in S5.
      apply (inv_cupd _ _ _ _ _ _ _ _ _ _ _ I); [intros; apply le_n|reflexivity|discriminate|exact Logic.I|intros; exact Logic.I|intros _; right; exact S5].
  - destruct (wcstep B spur r w c M) as [[[[[c' M'] x] nt] o']|] eqn:P; [|discriminate]. injection H as <- <-.
    destruct (inv_cstep _ _ _ _ _ _ _ _ _ _ _ _ _ _ _ _ I P) as (-> & EE & I').
    cbn [w_M w_ps w_c w_nfd w_race orb]. rewrite EE, app_nil_r. exact I'.
Qed.

Lemma winv_run evs : forall s s' o E D C, winv s E D C -> C + length (filter is_call evs) <= B -> wrun B evs s = Some (s', o) ->
  winv s' (E ++ enqs o) (D ++ deqs o) (C + length (filter is_call evs)).
Proof.
  induction evs as [|ev evs IH]; intros s s' o E D C I CB H; cbn [wrun filter] in *.
  - injection H as <- <-. cbn [enqs deqs flat_map length]. rewrite !app_nil_r, Nat.add_0_r. exact I.
  - destruct (wstep B ev s) as [[s1 o1]|] eqn:S; [|discriminate]. destruct (wrun B evs s1) as [[s2 o2]|] eqn:R; [|discriminate]. injection H as <- <-.
    assert (CL : C + length (if is_call ev then ev :: filter is_call evs else filter is_call evs) =
                 (C + if is_call ev then 1 else 0) + length (filter is_call evs)) by (destruct (is_call ev); cbn [length]; lia).
    rewrite CL in *. pose proof (winv_step ev s s1 o1 E D C I ltac:(lia) S) as I1.
    specialize (IH s1 s2 o2 _ _ _ I1 CB R). unfold enqs, deqs in *. rewrite !flat_map_app, !app_assoc. exact IH.
Qed.

Lemma winv_init k np : winv (wsys0 k np) [] [] 0.
Proof.
  unfold winv, wsys0. cbn [w_M w_ps w_c w_nfd w_race wc_pc wc_view].
  assert (IN : forall i p, nth_error (repeat (mkWP (Wq FIdle PReady) 0 false vzero) np) i = Some p -> p = mkWP (Wq FIdle PReady) 0 false vzero).
  { intros i p H. apply nth_error_In in H. apply repeat_spec in H. exact H. }
  assert (C0 : forall f : wprod -> bool, f (mkWP (Wq FIdle PReady) 0 false vzero) = false -> cnt f (repeat (mkWP (Wq FIdle PReady) 0 false vzero) np) = 0).
  { intros f F. clear IN. induction np as [|np IH]; cbn [repeat cnt]; [reflexivity|]. rewrite F, IH. reflexivity. }
  constructor.
  - intros m [<-|[]]. reflexivity.
  - intros m [<-|[]]. reflexivity.
  - intros m [<-|[]]. reflexivity.
  - intros m [<-|[]]. reflexivity.
  - intros m [<-|[]]. split; [reflexivity|apply le_n].
  - intros j Hj. cbn [length] in Hj. assert (j = 0) as -> by lia. reflexivity.
  - exists 0. split; [intros j Hj; assert (j = 0) as -> by lia; reflexivity|]. intros m [<-|[]]. split; [apply le_n|]. intros _. rewrite C0 by reflexivity. reflexivity.
  - intros m [<-|[]]. split; [apply le_n|reflexivity].
  - intros i p H. rewrite (IN i p H). exact Logic.I.
  - rewrite C0 by reflexivity. apply le_n.
  - exists (fun _ => SFree). split; [|split; [|split; [|split]]].
    + intros j. split; [reflexivity|]. intros _. apply Nat.le_0_l.
    + intros j. split; [cbn [length]; lia|discriminate].
    + intros j. split; intros m [<-|[]]; split; reflexivity.
    + intros i p H. rewrite (IN i p H). exact Logic.I.
    + exact Logic.I.
  - exists []. reflexivity.
  - exists 0, 1, 0. split; [intros j Hj; assert (j = 0) as -> by lia; reflexivity|]. split; [|split; [|split; [|split]]].
    + intros m [<-|[]]. split; [apply le_n|]. split; [apply le_n|]. intros _. split; reflexivity.
    + intros j Hj. cbn [length] in Hj. lia.
    + discriminate.
    + intros _ _. apply le_n.
    + intros _ _. right. apply le_n.
  - reflexivity.
Qed.
End Steps.

(** The MPSC queue run by one thread at a time: every call returns, and
    draining returns everything (C37, C39). *)
From Coq Require Import Arith List Bool Lia Permutation.
From Verif Require Import QueueModel FreeProps QueueSpec QueueProofs QueueProps.
Import ListNotations.

Section Seq.
Context {V : Type}.
Variable B : nat.
Hypothesis HB : 0 < B.
Notation prod := (prod V).
Notation cons := (cons V).
Notation qmem := (qmem V).
Notation sys := (sys V).

Lemma qrun_app a b (s : sys) : qrun B (a ++ b) s =
  match qrun B a s with Some (s1, o1) => match qrun B b s1 with Some (s2, o2) => Some (s2, o1 ++ o2) | None => None end | None => None end.
Proof.
  revert s. induction a as [|ev a IH]; intros s; cbn [app qrun].
  - destruct (qrun B b s) as [(s2 & o2)|]; reflexivity.
  - destruct (qstep B ev s) as [(s1 & o1)|]; [|reflexivity]. rewrite IH. destruct (qrun B a s1) as [(s2 & o2)|]; [|reflexivity].
    destruct (qrun B b s2) as [(s3 & o3)|]; [|reflexivity]. rewrite app_assoc. reflexivity.
Qed.

(** ** The consumer alone *)
Definition csteps n := repeat (@QCons V false) n.
Lemma csteps_S n (s s1 s2 : sys) o1 o2 : qstep B (QCons false) s = Some (s1, o1) -> qrun B (csteps n) s1 = Some (s2, o2) -> qrun B (csteps (S n)) s = Some (s2, o1 ++ o2).
Proof. intros E F. cbn. cbn in E. rewrite E. unfold csteps in F. rewrite F. reflexivity. Qed.
Lemma csteps_app a b (s s1 s2 : sys) o1 o2 : qrun B (csteps a) s = Some (s1, o1) -> qrun B (csteps b) s1 = Some (s2, o2) -> qrun B (csteps (a + b)) s = Some (s2, o1 ++ o2).
Proof. intros E F. unfold csteps in *. rewrite repeat_app, qrun_app, E, F. reflexivity. Qed.

Lemma c_fl f pc (m : qmem) ps f' fl' : (forall r, f <> FRes r) -> fstep false f (q_fl m) = Some (f', fl') ->
  qstep B (QCons false) (mkSys m ps (mkC f pc)) = Some (mkSys (set_fl fl' m) ps (mkC f' pc), []).
Proof. intros N E. cbn [qstep cstep]. destruct f; try (rewrite E; reflexivity); unfold fstep in E; destruct (q_fl m); discriminate E. Qed.

Lemma qi_c_fl (m : qmem) ps f pc C L val f' fl' : QI B m ps (mkC f pc) C L val -> fstep false f (q_fl m) = Some (f', fl') -> exists L', QI B (set_fl fl' m) ps (mkC f' pc) C L' val.
Proof.
  intros H X. pose proof (qi_fl _ _ _ _ _ _ _ H) as Y. cbn [c_f] in Y. destruct (fstep_place B HB _ _ _ _ _ _ _ _ _ _ X Y) as (L' & Y1 & Y2). exists L'.
  apply (qi_fl_cons B HB m fl' f' ps (mkC f pc) C L L' val H); [exact Y1|exact Y2].
Qed.

(** release_ref alone returns. *)
Lemma c_release (m : qmem) ps h pc C L val : QI B m ps (mkC (RSub h KDone) pc) C L val ->
  exists n fl' L', qrun B (csteps n) (mkSys m ps (mkC (RSub h KDone) pc)) = Some (mkSys (set_fl fl' m) ps (mkC FDone pc), []) /\ QI B (set_fl fl' m) ps (mkC FDone pc) C L' val.
Proof.
  intros H. destruct (q_fl m) as [top nx rc0] eqn:F. destruct (rc0 h =? 1) eqn:R.
  - assert (E1 : fstep false (RSub h KDone) (q_fl m) = Some (RLoad h KDone, mkFl top nx (fset rc0 h (rc0 h - 1)))) by (rewrite F; cbn; rewrite R; reflexivity).
    destruct (qi_c_fl _ _ _ _ _ _ _ _ _ H E1) as (L1 & H1).
    assert (E2 : fstep false (RLoad h KDone) (q_fl (set_fl (mkFl top nx (fset rc0 h (rc0 h - 1))) m)) = Some (RSet h top KDone, mkFl top nx (fset rc0 h (rc0 h - 1)))) by reflexivity.
    destruct (qi_c_fl _ _ _ _ _ _ _ _ _ H1 E2) as (L2 & H2).
    assert (E3 : fstep false (RSet h top KDone) (q_fl (set_fl (mkFl top nx (fset rc0 h (rc0 h - 1))) (set_fl (mkFl top nx (fset rc0 h (rc0 h - 1))) m))) = Some (RCas h top KDone, mkFl top (fset nx h top) (fset rc0 h (rc0 h - 1)))) by reflexivity.
    destruct (qi_c_fl _ _ _ _ _ _ _ _ _ H2 E3) as (L3 & H3).
    assert (OT : oeqb top top = true) by (destruct top as [x|]; cbn; [apply Nat.eqb_refl|reflexivity]).
    assert (E4 : fstep false (RCas h top KDone) (mkFl top (fset nx h top) (fset rc0 h (rc0 h - 1))) = Some (RFix h KDone, mkFl (Some h) (fset nx h top) (fset rc0 h (rc0 h - 1)))) by (cbn; rewrite OT; reflexivity).
    destruct (qi_c_fl _ _ _ _ _ _ _ _ _ H3 E4) as (L4 & H4).
    assert (E5 : fstep false (RFix h KDone) (mkFl (Some h) (fset nx h top) (fset rc0 h (rc0 h - 1))) = Some (FDone, mkFl (Some h) (fset nx h top) (fset (fset rc0 h (rc0 h - 1)) h 1))) by reflexivity.
    destruct (qi_c_fl _ _ _ _ _ _ _ _ _ H4 E5) as (L5 & H5).
    exists 5, (mkFl (Some h) (fset nx h top) (fset (fset rc0 h (rc0 h - 1)) h 1)), L5. split; [|exact H5].
    replace (@nil (obs V)) with (@nil (obs V) ++ ([] ++ ([] ++ ([] ++ ([] ++ []))))) by reflexivity.
    eapply csteps_S; [apply c_fl; [discriminate|exact E1]|]. eapply csteps_S; [apply c_fl; [discriminate|exact E2]|]. eapply csteps_S; [apply c_fl; [discriminate|exact E3]|].
    eapply csteps_S; [apply c_fl; [discriminate|exact E4]|]. eapply csteps_S; [apply c_fl; [discriminate|exact E5]|]. reflexivity.
  - assert (E1 : fstep false (RSub h KDone) (q_fl m) = Some (FDone, mkFl top nx (fset rc0 h (rc0 h - 1)))) by (rewrite F; cbn; rewrite R; reflexivity).
    destruct (qi_c_fl _ _ _ _ _ _ _ _ _ H E1) as (L1 & H1). exists 1, (mkFl top nx (fset rc0 h (rc0 h - 1))), L1. split; [|exact H1].
    replace (@nil (obs V)) with (@nil (obs V) ++ []) by reflexivity. eapply csteps_S; [apply c_fl; [discriminate|exact E1]|]. reflexivity.
Qed.

Definition pidle (p : prod) : Prop := p_f p = FIdle /\ p_m p = PReady.

Lemma idle_w (w : prod -> nat) ps : (forall p, In p ps -> pidle p) -> (forall p, p_m p = PReady -> w p = 0) -> wsum w ps = 0.
Proof. intros I W. apply wsum_all0. intros p J. apply W. apply (I p J). Qed.

Definition deq_obs (l : list V) : list (obs V) := match l with [] => [OEmpty 0; ORetD 0 None] | v :: _ => [ODeq 0 v; ORetD 0 (Some v)] end.

(** try_dequeue alone returns the first element, or "empty". *)
Lemma deq_alone : forall n (m : qmem) ps C L val, length C <= n -> (forall p, In p ps -> pidle p) -> QI B m ps (mkC FIdle D0) C L val ->
  exists k m' C' L', qrun B (csteps k) (mkSys m ps (mkC FIdle D0)) = Some (mkSys m' ps (mkC FIdle CReady), deq_obs (content m (mkC FIdle D0) C val))
    /\ QI B m' ps (mkC FIdle CReady) C' L' val /\ content m' (mkC FIdle CReady) C' val = tl (content m (mkC FIdle D0) C val)
    /\ q_tl m' = q_tl m /\ q_freed m' (q_tl m) = q_freed m (q_tl m) /\ q_n m' = q_n m.
Proof.
  induction n as [|n IH]; intros m ps C L val LN ID H; pose proof (hd_in B _ _ _ _ _ _ H) as HC; [destruct C; [contradiction|cbn in LN; lia]|].
  pose proof (qi_bt _ _ _ _ _ _ _ H _ HC) as BT.
  assert (NL : forall h, c_m (mkC FIdle D0 : cons) = D4 h -> c_f (mkC FIdle D0 : cons) = FIdle -> forall p t, In p ps -> p_m p <> P8b t h) by (intros h X; discriminate X).
  destruct (Nat.leb_spec (q_bt m (q_hd m)) (q_bh m (q_hd m))) as [G|G].
  - destruct (Nat.ltb_spec (q_bt m (q_hd m)) B) as [G2|G2].
    + (* empty *)
      assert (E1 : qstep B (QCons false) (mkSys m ps (mkC FIdle D0)) = Some (mkSys m ps (mkC FIdle CReady), [OEmpty 0; ORetD 0 None])).
      { cbn [qstep cstep]. destruct (Nat.leb_spec (q_bt m (q_hd m)) (q_bh m (q_hd m))); [|lia]. destruct (Nat.ltb_spec (q_bt m (q_hd m)) B); [|lia]. reflexivity. }
      assert (CE : content m (mkC FIdle D0) C val = []).
      { apply (empty_content B HB _ _ _ _ _ _ H); auto. destruct (q_bnext m (q_hd m)) eqn:NX; [|reflexivity]. assert (q_bt m (q_hd m) = B) by (apply (qi_full _ _ _ _ _ _ _ H); [exact HC|congruence]). lia. }
      exists 1, m, C, L. rewrite CE. split; [|split; [|split; [|auto]]].
      * cbn [deq_obs]. replace [OEmpty 0; ORetD 0 None] with ([OEmpty 0; @ORetD V 0 None] ++ []) by reflexivity. eapply csteps_S; [exact E1|reflexivity].
      * apply (qi_cpc B HB m ps _ _ C L val H); cbn; auto; congruence.
      * cbn [tl]. rewrite <- CE. reflexivity.
    + assert (BH : q_bh m (q_hd m) = B /\ q_bt m (q_hd m) = B) by lia. destruct BH as (BH & BT').
      assert (E1 : qstep B (QCons false) (mkSys m ps (mkC FIdle D0)) = Some (mkSys m ps (mkC FIdle (D2 (q_hd m))), [])).
      { cbn [qstep cstep]. destruct (Nat.leb_spec (q_bt m (q_hd m)) (q_bh m (q_hd m))); [|lia]. destruct (Nat.ltb_spec (q_bt m (q_hd m)) B); [lia|]. reflexivity. }
      destruct (q_bnext m (q_hd m)) as [nx|] eqn:NX.
      * assert (E2 : qstep B (QCons false) (mkSys m ps (mkC FIdle (D2 (q_hd m)))) = Some (mkSys m ps (mkC FIdle (D3 (q_hd m) nx)), [])) by (cbn [qstep cstep]; rewrite NX; reflexivity).
        assert (H2 : QI B m ps (mkC FIdle (D3 (q_hd m) nx)) C L val) by (apply (qi_cpc B HB m ps _ _ C L val H); cbn; auto; congruence).
        destruct (s_D3 B HB _ _ _ _ _ _ _ _ H2 eq_refl eq_refl) as (H3 & C3).
        destruct (s_D4 B HB _ _ _ _ _ _ _ H3 eq_refl eq_refl) as (H4 & C4); [intros p t J; destruct (ID p J) as (_ & X); rewrite X; discriminate|].
        destruct (c_release _ _ _ _ _ _ _ H4) as (k1 & fl' & L' & R5 & H5).
        assert (H6 : QI B (set_fl fl' (set_freed (q_hd m) true (set_hd nx m))) ps (mkC FIdle D0) (tl C) L' val) by (apply (qi_cpc B HB _ ps _ _ _ _ val H5); cbn; auto; congruence).
        assert (CC : content (set_fl fl' (set_freed (q_hd m) true (set_hd nx m))) (mkC FIdle D0) (tl C) val = content m (mkC FIdle D0) C val) by (transitivity (content (set_hd nx m) (mkC FIdle (D4 (q_hd m))) (tl C) val); [reflexivity|rewrite C3; reflexivity]).
        assert (LT : length (tl C) <= n) by (clear - LN; destruct C; cbn in *; lia).
        destruct (IH _ ps (tl C) L' val LT ID H6) as (k2 & m' & C' & L'' & R7 & H7 & C7 & T7 & F7 & N7).
        assert (TN : q_tl m <> q_hd m). { destruct (qi_tl _ _ _ _ _ _ _ H) as [(p & t & nb & J & X)|(_ & X)]; [destruct (ID p J) as (_ & Y); congruence|congruence]. }
        rewrite CC in *. exists (4 + (k1 + (1 + k2))), m', C', L''. split; [|cbn in T7, F7, N7; rewrite fset_other in F7 by exact TN; auto].
        replace (deq_obs (content m (mkC FIdle D0) C val)) with (@nil (obs V) ++ ([] ++ ([] ++ ([] ++ ([] ++ ([] ++ deq_obs (content m (mkC FIdle D0) C val))))))) by reflexivity.
        cbn [Nat.add]. eapply csteps_S; [exact E1|]. eapply csteps_S; [exact E2|]. eapply csteps_S; [reflexivity|]. eapply csteps_S; [reflexivity|].
        eapply csteps_app; [exact R5|]. eapply csteps_S; [reflexivity|]. exact R7.
      * assert (E2 : qstep B (QCons false) (mkSys m ps (mkC FIdle (D2 (q_hd m)))) = Some (mkSys m ps (mkC FIdle CReady), [OEmpty 0; ORetD 0 None])) by (cbn [qstep cstep]; rewrite NX; reflexivity).
        assert (CE : content m (mkC FIdle D0) C val = []) by (apply (empty_content B HB _ _ _ _ _ _ H); auto).
        exists 2, m, C, L. rewrite CE. split; [|split; [|split; [|auto]]].
        -- cbn [deq_obs]. replace [OEmpty 0; ORetD 0 None] with (@nil (obs V) ++ ([OEmpty 0; @ORetD V 0 None] ++ [])) by reflexivity. eapply csteps_S; [exact E1|]. eapply csteps_S; [exact E2|reflexivity].
        -- apply (qi_cpc B HB m ps _ _ C L val H); cbn; auto; congruence.
        -- cbn [tl]. rewrite <- CE. reflexivity.
  - (* an element *)
    assert (AV : q_av m (q_hd m) (q_bh m (q_hd m)) = true).
    { pose proof (qi_slot _ _ _ _ _ _ _ H (q_hd m) (q_bh m (q_hd m))) as S. rewrite (idle_w _ ps ID) in S by (intros p X; unfold slot; rewrite X; reflexivity).
      rewrite (cnt_C1 B HB _ _ _ _ _ _ _ H HC) in S. unfold rng in S. destruct (Nat.leb_spec (q_bh m (q_hd m)) (q_bh m (q_hd m))); [|lia]. destruct (Nat.ltb_spec (q_bh m (q_hd m)) (q_bt m (q_hd m))); [|lia].
      unfold cslot in S. cbn in S. destruct (q_av m (q_hd m) (q_bh m (q_hd m))); [reflexivity|discriminate S]. }
    remember (q_hd m) as h eqn:EH. remember (q_bh m h) as hh eqn:EHH.
    assert (E1 : qstep B (QCons false) (mkSys m ps (mkC FIdle D0)) = Some (mkSys m ps (mkC FIdle (D1 h hh)), [])).
    { cbn [qstep cstep]. rewrite <- EH, <- EHH. destruct (Nat.leb_spec (q_bt m h) hh); [lia|]. reflexivity. }
    assert (H1 : QI B m ps (mkC FIdle (D1 h hh)) C L val) by (apply (qi_cpc B HB m ps _ _ C L val H); cbn; auto; congruence).
    destruct (s_D1 B HB _ _ _ _ _ _ _ _ H1 eq_refl eq_refl) as (H2 & C2).
    assert (H3 : QI B (set_bh h (hh + 1) m) ps (mkC FIdle (D6 h hh)) C L val).
    { apply (qi_cpc B HB _ ps _ _ C L val H2); cbn; auto; try congruence. unfold cok. cbn. rewrite fset_same. auto. }
    assert (EL : q_el m h hh = val h hh) by (apply (qi_val _ _ _ _ _ _ _ H); exact AV).
    assert (H4 : QI B (set_bh h (hh + 1) m) ps (mkC FIdle (D7 h hh (q_el m h hh))) C L val).
    { apply (qi_cpc B HB _ ps _ _ C L val H3); cbn; auto; try congruence. unfold cok. cbn. rewrite fset_same. auto. }
    destruct (s_D7 B HB _ _ _ _ _ _ _ _ _ H4 eq_refl eq_refl) as (H5 & C5).
    assert (CC : content m (mkC FIdle D0) C val = q_el m h hh :: flat_map (bvals (set_bh h (hh + 1) m) val) C).
    { transitivity (content m (mkC FIdle (D1 h hh)) C val); [reflexivity|]. rewrite <- C2. unfold content, pre. cbn [c_m app]. rewrite EL. reflexivity. }
    exists 5, (set_av h hh false (set_bh h (hh + 1) m)), C, L. rewrite CC. cbn [deq_obs tl]. split; [|split; [exact H5|split; [|auto]]].
    + replace [ODeq 0 (q_el m h hh); ORetD 0 (Some (q_el m h hh))] with (@nil (obs V) ++ ([] ++ ([] ++ ([ODeq 0 (q_el m h hh)] ++ ([ORetD 0 (Some (q_el m h hh))] ++ []))))) by reflexivity.
      assert (E3 : qstep B (QCons false) (mkSys (set_bh h (hh + 1) m) ps (mkC FIdle (D5 h hh))) = Some (mkSys (set_bh h (hh + 1) m) ps (mkC FIdle (D6 h hh)), [])).
      { cbn [qstep cstep]. replace (q_av (set_bh h (hh + 1) m) h hh) with true by (symmetry; exact AV). reflexivity. }
      eapply csteps_S; [exact E1|]. eapply csteps_S; [reflexivity|]. eapply csteps_S; [exact E3|]. eapply csteps_S; [reflexivity|]. eapply csteps_S; [reflexivity|]. reflexivity.
    + rewrite C5. reflexivity.
Qed.

(** Draining: with all producers idle, repeated try_dequeue returns exactly
    the contents, in order, and then "empty". *)
Lemma drain : forall l m ps, (forall p, In p ps -> pidle p) -> SI B (mkSys m ps (mkC FIdle CReady)) l ->
  exists evs m' o, qrun B evs (mkSys m ps (mkC FIdle CReady)) = Some (mkSys m' ps (mkC FIdle CReady), o)
    /\ (forall ev, In ev evs -> ev = QDeq \/ ev = QCons false) /\ o = flat_map (fun v => [ODeq 0 v; ORetD 0 (Some v)]) l ++ [OEmpty 0; ORetD 0 None].
Proof.
  induction l as [|v l IH]; intros m ps ID (C & L & val & H & CO); cbn [s_m s_ps s_c] in *.
  - assert (H0 : QI B m ps (mkC FIdle D0) C L val) by (apply (qi_cpc B HB m ps _ _ C L val H); cbn; auto; congruence).
    destruct (deq_alone (length C) _ _ _ _ _ (le_n _) ID H0) as (k & m' & C' & L' & R & H' & CO' & _).
    replace (content m (mkC FIdle D0) C val) with (@nil V) in R by (symmetry; exact CO).
    exists (QDeq :: csteps k), m', [OEmpty 0; ORetD 0 None]. split; [|split; [|reflexivity]].
    + cbn [qrun qstep]. rewrite R. reflexivity.
    + intros ev [<-|J]; [auto|]. right. apply repeat_spec in J. exact J.
  - assert (H0 : QI B m ps (mkC FIdle D0) C L val) by (apply (qi_cpc B HB m ps _ _ C L val H); cbn; auto; congruence).
    destruct (deq_alone (length C) _ _ _ _ _ (le_n _) ID H0) as (k & m' & C' & L' & R & H' & CO' & _).
    replace (content m (mkC FIdle D0) C val) with (v :: l) in R, CO' by (symmetry; exact CO).
    destruct (IH m' ps ID) as (evs & m'' & o & R2 & J2 & ->); [exists C', L', val; auto|].
    exists (QDeq :: csteps k ++ evs), m'', (flat_map (fun v => [ODeq 0 v; ORetD 0 (Some v)]) (v :: l) ++ [OEmpty 0; ORetD 0 None]). split; [|split; [|reflexivity]].
    + cbn [qrun qstep]. rewrite qrun_app, R, R2. reflexivity.
    + intros ev [<-|J]; [auto|]. apply in_app_or in J. destruct J as [J|J]; [right; apply repeat_spec in J; exact J|auto].
Qed.

(** ** A producer alone *)
Fixpoint prun (i n : nat) (p : prod) (m : qmem) : option (prod * qmem * list (obs V)) :=
  match n with
  | 0 => Some (p, m, [])
  | S n => match pstep B false i p m with
           | Some (p1, m1, o1) => match prun i n p1 m1 with Some (p2, m2, o2) => Some (p2, m2, o1 ++ o2) | None => None end
           | None => None
           end
  end.

Lemma repl_id {A} i (p : A) l : nth_error l i = Some p -> repl i p l = l.
Proof. revert l. induction i as [|i IH]; intros [|x l] E; cbn in *; try congruence. rewrite IH by exact E. reflexivity. Qed.
Lemma repl_repl {A} i (p q : A) l : repl i p (repl i q l) = repl i p l.
Proof. revert l. induction i as [|i IH]; intros [|x l]; cbn; congruence. Qed.

Lemma prun_qrun i n : forall p m p' m' o ps c, prun i n p m = Some (p', m', o) -> nth_error ps i = Some p ->
  qrun B (repeat (QProd i false) n) (mkSys m ps c) = Some (mkSys m' (repl i p' ps) c, o).
Proof.
  induction n as [|n IH]; cbn [prun repeat qrun]; intros p m p' m' o ps c E N.
  - injection E as <- <- <-. rewrite repl_id by exact N. reflexivity.
  - destruct (pstep B false i p m) as [((p1 & m1) & o1)|] eqn:PS; [|discriminate]. destruct (prun i n p1 m1) as [((p2 & m2) & o2)|] eqn:PR; [|discriminate]. injection E as <- <- <-.
    cbn [qstep]. rewrite N, PS. rewrite (IH p1 m1 p2 m2 o2 (repl i p1 ps) c PR); [rewrite repl_repl; reflexivity|]. rewrite nth_repl, Nat.eqb_refl, N. reflexivity.
Qed.

Lemma enqs_app (a b : list (obs V)) : enqs (a ++ b) = enqs a ++ enqs b.
Proof. unfold enqs. apply flat_map_app. Qed.

Lemma prun_inv i n : forall p m p' m' o r c C L val, prun i n p m = Some (p', m', o) -> QI B m (p :: r) c C L val ->
  exists C' L' val', QI B m' (p' :: r) c C' L' val' /\ content m' c C' val' = content m c C val ++ enqs o.
Proof.
  induction n as [|n IH]; cbn [prun]; intros p m p' m' o r c C L val E H.
  - injection E as <- <- <-. exists C, L, val. split; [exact H|]. cbn. rewrite app_nil_r. reflexivity.
  - destruct (pstep B false i p m) as [((p1 & m1) & o1)|] eqn:PS; [|discriminate]. destruct (prun i n p1 m1) as [((p2 & m2) & o2)|] eqn:PR; [|discriminate]. injection E as <- <- <-.
    destruct (pstep_inv B HB _ _ _ _ _ _ _ _ _ _ _ _ PS H) as (C1 & L1 & val1 & H1 & CO1). destruct (IH _ _ _ _ _ _ _ _ _ _ PR H1) as (C2 & L2 & val2 & H2 & CO2).
    exists C2, L2, val2. split; [exact H2|]. rewrite CO2, CO1, enqs_app, app_assoc. reflexivity.
Qed.

Lemma prun_app i a b : forall p m p1 m1 o1 p2 m2 o2, prun i a p m = Some (p1, m1, o1) -> prun i b p1 m1 = Some (p2, m2, o2) -> prun i (a + b) p m = Some (p2, m2, o1 ++ o2).
Proof.
  induction a as [|a IH]; cbn [prun Nat.add]; intros p m p1 m1 o1 p2 m2 o2 E F; [injection E as <- <- <-; rewrite F; reflexivity|].
  destruct (pstep B false i p m) as [((pa & ma) & oa)|]; [|discriminate]. destruct (prun i a pa ma) as [((pb & mb) & ob)|] eqn:PR; [|discriminate]. injection E as <- <- <-.
  rewrite (IH _ _ _ _ _ _ _ _ PR F), app_assoc. reflexivity.
Qed.
Lemma prun_S i n p m p1 m1 o1 p2 m2 o2 : pstep B false i p m = Some (p1, m1, o1) -> prun i n p1 m1 = Some (p2, m2, o2) -> prun i (S n) p m = Some (p2, m2, o1 ++ o2).
Proof. intros E F. cbn [prun]. rewrite E, F. reflexivity. Qed.

(** What is known when no other call is in progress. *)
Lemma at_tail (m : qmem) p r C L val : p_f p = FIdle -> (p_m p = PReady \/ p_m p = P0) -> (forall q, In q r -> pidle q) -> QI B m (p :: r) (mkC FIdle CReady) C L val ->
  In (q_tl m) C /\ q_bnext m (q_tl m) = None /\ (forall u, In u C -> rc m u <> 0) /\ (forall u, In u L -> rc m u <> 0 /\ ~ In u C /\ u < q_n m) /\ (forall u, u < q_n m -> In u C \/ In u L).
Proof.
  intros PF PM ID H.
  assert (W : forall w : prod -> nat, (forall p, p_m p = PReady \/ p_m p = P0 -> w p = 0) -> wsum w (p :: r) = 0).
  { intros w X. apply wsum_all0. intros q [<-|J]; [auto|]. apply X. left. apply (ID q J). }
  assert (WF : forall w : nat -> flpc -> nat, (forall u, w u FIdle = 0) -> forall u, wsum (w u) (FIdle :: map p_f (p :: r)) = 0).
  { intros w X u. apply wsum_all0. intros f [<-|J]; [auto|]. apply in_map_iff in J. destruct J as (q & <- & [<-|J]); [rewrite PF; auto|]. rewrite (proj1 (ID q J)). auto. }
  pose proof (qi_fl _ _ _ _ _ _ _ H) as F. cbn [c_f] in F.
  assert (OF : forall u, ownf C (p :: r) (mkC FIdle CReady) u = cnt C u).
  { intros u. unfold ownf, ownc, ownw. cbn [c_m]. rewrite (W (ownp u)); [lia|]. intros q [X|X]; unfold ownp; rewrite X; reflexivity. }
  assert (HF : forall u, holdf (p :: r) u = 0) by (intros u; apply W; intros q [X|X]; unfold hold; rewrite X; reflexivity).
  assert (CI : forall l u, In u l <-> 0 < cnt l u) by (intros l u; unfold cnt; apply (count_occ_In Nat.eq_dec)).
  assert (TL : In (q_tl m) C /\ q_bnext m (q_tl m) = None).
  { destruct (qi_tl _ _ _ _ _ _ _ H) as [(q & t & nb & [<-|J] & X)|X]; [destruct PM; congruence|destruct (ID q J) as (_ & Y); congruence|exact X]. }
  destruct TL as (TL1 & TL2). split; [exact TL1|]. split; [exact TL2|].
  assert (RC : forall u, u < q_n m -> rc m u = cnt C u + cnt L u).
  { intros u G. pose proof (fi_rc _ _ _ _ _ _ F u G) as X. rewrite OF, HF in X. rewrite !WF in X by reflexivity. unfold rc. lia. }
  split; [|split].
  - intros u I. assert (G : u < q_n m). { destruct (le_lt_dec (q_n m) u) as [G|G]; [|exact G]. destruct (fi_own _ _ _ _ _ _ F u G) as (X & _). rewrite OF in X. apply CI in I. lia. }
    rewrite RC by exact G. apply CI in I. lia.
  - intros u I. pose proof (fi_ltn _ _ _ _ _ _ F u I) as G. rewrite RC by exact G. pose proof (fi_place _ _ _ _ _ _ F u) as X. rewrite OF in X. pose proof (CI C u) as Y. apply CI in I. repeat split; [lia| |exact G]. intros J. apply Y in J. lia.
  - intros u G. pose proof (fi_live _ _ _ _ _ _ F u G) as X. rewrite OF, HF in X. rewrite !WF in X by reflexivity. rewrite !CI. lia.
Qed.

Lemma enq_fast i v unb (m : qmem) : rc m (q_tl m) <> 0 -> q_freed m (q_tl m) = false -> q_bt m (q_tl m) < B ->
  exists m', prun i 10 (mkP FIdle P0 v unb) m = Some (mkP FIdle PReady v unb, m', [OEnq i v; ORetE i true])
    /\ q_tl m' = q_tl m /\ q_freed m' = q_freed m /\ q_n m' = q_n m.
Proof.
  destruct m as [[top nx rcf] n fr bh bt bn el av hd t]. unfold rc. cbn [q_fl q_tl q_freed q_bt f_rc q_n]. intros R F T. eexists. split.
  - replace [OEnq i v; ORetE i true] with (@nil (obs V) ++ ([] ++ ([] ++ ([] ++ ([] ++ ([OEnq i v] ++ ([] ++ ([] ++ ([] ++ ([ORetE i true] ++ [])))))))))) by reflexivity.
    eapply prun_S; [reflexivity|]. cbn [q_tl].
    eapply prun_S. { cbn [pstep]. unfold rc. cbn [q_fl f_rc]. destruct (Nat.eqb_spec (rcf t) 0); [contradiction|]. reflexivity. }
    eapply prun_S. { cbn [pstep]. unfold rc. cbn [q_fl f_rc]. rewrite Nat.eqb_refl. cbn [andb negb]. reflexivity. }
    eapply prun_S. { cbn [pstep]. cbn [set_rc set_fl q_freed]. rewrite F. reflexivity. }
    eapply prun_S. { cbn [pstep]. cbn [set_rc set_fl q_bt]. destruct (Nat.leb_spec B (bt t)); [lia|]. reflexivity. }
    eapply prun_S. { cbn [pstep]. cbn [set_rc set_fl q_bt]. rewrite Nat.eqb_refl. cbn [andb negb]. reflexivity. }
    eapply prun_S; [reflexivity|]. eapply prun_S; [reflexivity|].
    eapply prun_S. { cbn [pstep]. cbn. rewrite fset_same. destruct (Nat.eqb_spec (rcf t + 1) 1); [lia|]. reflexivity. }
    eapply prun_S; [reflexivity|]. reflexivity.
  - cbn. auto.
Qed.

(** The tail block is full: up to the pop. *)
Lemma enq_to_pop i v unb (m : qmem) : rc m (q_tl m) <> 0 -> q_freed m (q_tl m) = false -> q_bt m (q_tl m) = B -> q_bnext m (q_tl m) = None ->
  prun i 6 (mkP FIdle P0 v unb) m = Some (mkP PLoad (P6 (q_tl m)) v unb, set_rc (q_tl m) (rc m (q_tl m) + 1) m, []).
Proof.
  destruct m as [[top nx rcf] n fr bh bt bn el av hd t]. unfold rc. cbn [q_fl q_tl q_freed q_bt f_rc q_n q_bnext]. intros R F T N.
  replace (@nil (obs V)) with (@nil (obs V) ++ ([] ++ ([] ++ ([] ++ ([] ++ ([] ++ [])))))) by reflexivity.
  eapply prun_S; [reflexivity|]. cbn [q_tl].
  eapply prun_S. { cbn [pstep]. unfold rc. cbn [q_fl f_rc]. destruct (Nat.eqb_spec (rcf t) 0); [contradiction|]. reflexivity. }
  eapply prun_S. { cbn [pstep]. unfold rc. cbn [q_fl f_rc]. rewrite Nat.eqb_refl. cbn [andb negb]. reflexivity. }
  eapply prun_S. { cbn [pstep]. cbn [set_rc set_fl q_freed]. rewrite F. reflexivity. }
  eapply prun_S. { cbn [pstep]. cbn [set_rc set_fl q_bt]. destruct (Nat.leb_spec B (bt t)); [|lia]. reflexivity. }
  eapply prun_S. { cbn [pstep]. cbn [set_rc set_fl q_bnext]. rewrite N. reflexivity. }
  reflexivity.
Qed.

(** With a new block: up to the next round. *)
Lemma enq_link i v unb (m : qmem) t nb : q_bnext m t = None -> t <> nb -> 1 < rc m t ->
  exists m', prun i 8 (mkP FIdle (P7a t nb) v unb) m = Some (mkP FIdle P0 v unb, m', [])
    /\ q_tl m' = nb /\ q_freed m' nb = false /\ q_n m' = q_n m /\ q_bt m' nb = 0.
Proof.
  destruct m as [[top nx rcf] n fr bh bt bn el av hd tl]. unfold rc. cbn [q_fl f_rc q_bnext]. intros N D R. eexists. split.
  - replace (@nil (obs V)) with (@nil (obs V) ++ ([] ++ ([] ++ ([] ++ ([] ++ ([] ++ ([] ++ ([] ++ [])))))))) by reflexivity.
    eapply prun_S; [reflexivity|]. eapply prun_S; [reflexivity|]. eapply prun_S; [reflexivity|].
    eapply prun_S. { cbn [pstep]. cbn [set_bh set_bt set_bnext q_bnext]. rewrite fset_other by exact D. rewrite N. cbn [oeqb andb negb]. reflexivity. }
    eapply prun_S; [reflexivity|]. eapply prun_S; [reflexivity|].
    eapply prun_S. { cbn [pstep]. cbn. destruct (Nat.eqb_spec (rcf t) 1); [lia|]. reflexivity. }
    eapply prun_S; [reflexivity|]. reflexivity.
  - cbn. rewrite !fset_same. auto.
Qed.

(** pop alone. *)
Lemma pop_alone i v unb pc (m : qmem) u : f_top (q_fl m) = Some u -> rc m u <> 0 ->
  exists fl', prun i 6 (mkP PLoad pc v unb) m = Some (mkP (FRes (Some u)) pc v unb, set_fl fl' m, []) /\ forall x, f_rc fl' x = rc m x.
Proof.
  destruct m as [[top nx rcf] n fr bh bt bn el av hd tl]. unfold rc. cbn [q_fl f_rc f_top]. intros -> R. eexists. split.
  - replace (@nil (obs V)) with (@nil (obs V) ++ ([] ++ ([] ++ ([] ++ ([] ++ ([] ++ [])))))) by reflexivity.
    eapply prun_S; [reflexivity|].
    eapply prun_S. { cbn. destruct (Nat.eqb_spec (rcf u) 0); [contradiction|]. reflexivity. }
    eapply prun_S. { cbn. rewrite Nat.eqb_refl. cbn [andb negb]. reflexivity. }
    eapply prun_S; [reflexivity|].
    eapply prun_S. { cbn. rewrite Nat.eqb_refl. cbn [andb negb]. reflexivity. }
    eapply prun_S. { cbn. rewrite fset_same. destruct (Nat.eqb_spec (rcf u + 1) 1); [lia|]. reflexivity. }
    reflexivity.
  - intros x. cbn. unfold fset. destruct (Nat.eqb_spec x u) as [->|]; lia.
Qed.

Definition enq_obs i (v : V) (b : bool) : list (obs V) := if b then [OEnq i v; ORetE i true] else [ORetE i false].

Lemma full_length (m : qmem) ps c C L val : QI B m ps c C L val -> (forall u, In u C -> q_bt m u = B) -> pre c val = [] -> (length C - 1) * B <= length (content m c C val).
Proof.
  intros H F P. unfold content. rewrite P. cbn [app]. pose proof (qi_chain _ _ _ _ _ _ _ H) as Y. inversion Y as [|u l Z]; subst. cbn [flat_map length]. rewrite app_length.
  pose proof (cnt_C1 B HB _ _ _ _ _ _ _ H (or_introl eq_refl)) as C1. rewrite cnt_cons, is_same in C1.
  assert (N : forall x, In x l -> x <> q_hd m). { intros x I ->. assert (0 < cnt l (q_hd m)) by (apply (count_occ_In Nat.eq_dec); exact I). lia. }
  assert (G : length (flat_map (bvals m val) l) = length l * B).
  { assert (K : forall x, In x l -> q_bt m x = B /\ q_bh m x = 0) by (intros x I; split; [apply F; right; exact I|apply (qi_head _ _ _ _ _ _ _ H); [right; exact I|apply N; exact I]]).
    clear - K. induction l as [|x l IH]; [reflexivity|]. cbn [flat_map length]. rewrite app_length, IH by (intros y I; apply K; right; exact I). unfold bvals. rewrite map_length, seq_length.
    destruct (K x (or_introl eq_refl)) as (-> & ->). lia. }
  rewrite G. lia.
Qed.

Lemma enq_alone i v unb (m : qmem) r C L val : (forall q, In q r -> pidle q) -> QI B m (mkP FIdle P0 v unb :: r) (mkC FIdle CReady) C L val -> q_freed m (q_tl m) = false ->
  exists b n m' C' L' val', prun i n (mkP FIdle P0 v unb) m = Some (mkP FIdle PReady v unb, m', enq_obs i v b)
    /\ QI B m' (mkP FIdle PReady v unb :: r) (mkC FIdle CReady) C' L' val' /\ q_freed m' (q_tl m') = false /\ q_n m <= q_n m'
    /\ content m' (mkC FIdle CReady) C' val' = content m (mkC FIdle CReady) C val ++ (if b then [v] else [])
    /\ (b = false -> unb = false /\ (q_n m - 1) * B <= length (content m (mkC FIdle CReady) C val)).
Proof.
  intros ID H F.
  (* fast path *)
  assert (FAST : forall (m : qmem) C L val, QI B m (mkP FIdle P0 v unb :: r) (mkC FIdle CReady) C L val -> q_freed m (q_tl m) = false -> q_bt m (q_tl m) < B ->
    exists m' C' L' val', prun i 10 (mkP FIdle P0 v unb) m = Some (mkP FIdle PReady v unb, m', enq_obs i v true)
      /\ QI B m' (mkP FIdle PReady v unb :: r) (mkC FIdle CReady) C' L' val' /\ q_freed m' (q_tl m') = false /\ q_n m' = q_n m
      /\ content m' (mkC FIdle CReady) C' val' = content m (mkC FIdle CReady) C val ++ [v]).
  { clear - ID HB. intros m C L val H F T. destruct (at_tail m (mkP FIdle P0 v unb) r C L val eq_refl (or_intror eq_refl) ID H) as (TC & TN & RC & _).
    destruct (enq_fast i v unb m (RC _ TC) F T) as (m' & E & E1 & E2 & E3). destruct (prun_inv _ _ _ _ _ _ _ _ _ _ _ _ E H) as (C' & L' & val' & H' & CO).
    exists m', C', L', val'. split; [exact E|]. split; [exact H'|]. split; [rewrite E2, E1; exact F|]. split; [exact E3|exact CO]. }
  destruct (at_tail m (mkP FIdle P0 v unb) r C L val eq_refl (or_intror eq_refl) ID H) as (TC & TN & RC & RL & AL).
  destruct (Nat.lt_ge_cases (q_bt m (q_tl m)) B) as [T|T].
  { destruct (FAST m C L val H F T) as (m' & C' & L' & val' & E & H' & F' & N' & CO). exists true, 10, m', C', L', val'. split; [exact E|]. split; [exact H'|]. split; [exact F'|]. split; [lia|]. split; [exact CO|discriminate]. }
  assert (T' : q_bt m (q_tl m) = B) by (pose proof (qi_bt _ _ _ _ _ _ _ H _ TC); lia).
  set (t := q_tl m) in *. pose proof (enq_to_pop i v unb m (RC _ TC) F T' TN) as E1. fold t in E1.
  set (m1 := set_rc t (rc m t + 1) m) in *. pose proof (RC t TC) as RT.
  assert (GROW : forall n2 m2 nb, prun i n2 (mkP PLoad (P6 t) v unb) m1 = Some (mkP FIdle (P7a t nb) v unb, m2, []) -> t <> nb -> q_bnext m2 t = None -> 1 < rc m2 t -> q_n m <= q_n m2 ->
    exists n m' C' L' val', prun i n (mkP FIdle P0 v unb) m = Some (mkP FIdle PReady v unb, m', enq_obs i v true)
      /\ QI B m' (mkP FIdle PReady v unb :: r) (mkC FIdle CReady) C' L' val' /\ q_freed m' (q_tl m') = false /\ q_n m <= q_n m'
      /\ content m' (mkC FIdle CReady) C' val' = content m (mkC FIdle CReady) C val ++ [v]).
  { intros n2 m2 nb E2 D N2 R2 Q2. destruct (enq_link i v unb m2 t nb N2 D R2) as (m3 & E3 & A1 & A2 & A3 & A4).
    pose proof (prun_app _ _ _ _ _ _ _ _ _ _ _ (prun_app _ _ _ _ _ _ _ _ _ _ _ E1 E2) E3) as E4. cbn [app] in E4.
    destruct (prun_inv _ _ _ _ _ _ _ _ _ _ _ _ E4 H) as (C3 & L3 & val3 & H3 & CO3). cbn in CO3. rewrite app_nil_r in CO3.
    destruct (FAST m3 C3 L3 val3 H3) as (m' & C' & L' & val' & E & H' & F' & N' & CO); [rewrite A1; exact A2|rewrite A1, A4; exact HB|].
    pose proof (prun_app _ _ _ _ _ _ _ _ _ _ _ E4 E) as E5. cbn [app] in E5.
    eexists _, m', C', L', val'. split; [exact E5|]. split; [exact H'|]. split; [exact F'|]. split; [lia|]. rewrite CO. f_equal. exact CO3. }
  destruct (f_top (q_fl m)) as [u|] eqn:TP.
  - assert (UL : In u L). { pose proof (fi_link _ _ _ _ _ _ (qi_fl _ _ _ _ _ _ _ H)) as X. rewrite TP in X. inversion X. left. reflexivity. }
    destruct (RL u UL) as (RU & NC & UN). assert (D : t <> u) by (intros ->; contradiction).
    destruct (pop_alone i v unb (P6 t) m1 u) as (fl' & E2 & R2); [exact TP|unfold m1, rc; cbn; rewrite fset_other by congruence; exact RU|].
    destruct (GROW 7 (set_fl fl' m1) u) as (n & m' & C' & L' & val' & E & H' & F' & N' & CO).
    + change 7 with (6 + 1). replace (@nil (obs V)) with (@nil (obs V) ++ []) by reflexivity. eapply prun_app; [exact E2|reflexivity].
    + exact D.
    + exact TN.
    + unfold rc. cbn [set_fl q_fl]. rewrite R2. unfold m1, rc. cbn. rewrite fset_same. unfold rc in RT. lia.
    + reflexivity.
    + exists true, n, m', C', L', val'. split; [exact E|]. split; [exact H'|]. split; [exact F'|]. split; [lia|]. split; [exact CO|discriminate].
  - assert (E2 : prun i 1 (mkP PLoad (P6 t) v unb) m1 = Some (mkP (FRes None) (P6 t) v unb, m1, [])).
    { cbn [prun pstep]. replace (fstep false PLoad (q_fl m1)) with (Some (FRes None, q_fl m1)); [destruct m1 as [fl1 a1 a2 a3 a4 a5 a6 a7 a8 a9]; reflexivity|]. unfold m1. cbn. rewrite TP. reflexivity. }
    destruct unb eqn:U.
    + destruct (GROW 2 (snd (alloc m1)) (q_n m1)) as (n & m' & C' & L' & val' & E & H' & F' & N' & CO).
      * change 2 with (1 + 1). replace (@nil (obs V)) with (@nil (obs V) ++ []) by reflexivity. eapply prun_app; [exact E2|reflexivity].
      * pose proof (qi_tlt _ _ _ _ _ _ _ H) as X. fold t in X. unfold m1. cbn. lia.
      * exact TN.
      * pose proof (qi_tlt _ _ _ _ _ _ _ H) as X. fold t in X. unfold m1, rc. cbn. rewrite fset_other by lia. rewrite fset_same. unfold rc in RT. lia.
      * unfold m1. cbn. lia.
      * exists true, n, m', C', L', val'. split; [exact E|]. split; [exact H'|]. split; [exact F'|]. split; [lia|]. split; [exact CO|discriminate].
    + assert (E3 : exists m', prun i 3 (mkP (FRes None) (P6 t) v false) m1 = Some (mkP FIdle PReady v false, m', [ORetE i false]) /\ q_tl m' = q_tl m /\ q_freed m' = q_freed m /\ q_n m' = q_n m).
      { eexists. split.
        - replace [ORetE i false] with (@nil (obs V) ++ ([] ++ ([@ORetE V i false] ++ []))) by reflexivity. eapply prun_S; [reflexivity|].
          eapply prun_S. { cbn [pstep]. unfold m1. cbn. rewrite fset_same. destruct (Nat.eqb_spec (rc m t + 1) 1) as [X|X]; [lia|]. reflexivity. }
          eapply prun_S; [reflexivity|]. reflexivity.
        - cbn. auto. }
      destruct E3 as (m' & E3 & A1 & A2 & A3).
      pose proof (prun_app _ _ _ _ _ _ _ _ _ _ _ (prun_app _ _ _ _ _ _ _ _ _ _ _ E1 E2) E3) as E4. cbn [app] in E4.
      destruct (prun_inv _ _ _ _ _ _ _ _ _ _ _ _ E4 H) as (C3 & L3 & val3 & H3 & CO3). cbn in CO3.
      exists false, (6 + 1 + 3), m', C3, L3, val3. split; [exact E4|]. split; [exact H3|]. split; [rewrite A2, A1; exact F|]. split; [lia|]. split; [exact CO3|]. intros _. split; [reflexivity|].
      assert (L = []) as ->. { pose proof (fi_link _ _ _ _ _ _ (qi_fl _ _ _ _ _ _ _ H)) as X. rewrite TP in X. inversion X. reflexivity. }
      assert (LC : q_n m <= length C).
      { rewrite <- (seq_length (q_n m) 0). apply NoDup_incl_length; [apply seq_NoDup|]. intros u J. apply in_seq in J. destruct (AL u) as [X|X]; [lia|exact X|destruct X]. }
      assert (FU : forall u, In u C -> q_bt m u = B).
      { intros u J. destruct (q_bnext m u) eqn:NX; [apply (qi_full _ _ _ _ _ _ _ H u J); congruence|]. replace u with t; [exact T'|]. apply (last_unique B _ _ _ _ _ _ _ _ H); auto. }
      pose proof (full_length _ _ _ _ _ _ H FU eq_refl) as G. transitivity ((length C - 1) * B); [apply Nat.mul_le_mono_r; lia|exact G].
Qed.

(** ** rewind alone *)
Lemma rew_tail e (m : qmem) ps hh : q_bh m (q_hd m) = hh -> exists m', qrun B (csteps 3) (mkSys m ps (mkC FIdle (W3 e))) = Some (mkSys m' ps (mkC FIdle CReady), [ORew e])
  /\ q_tl m' = q_tl m /\ q_freed m' = q_freed m /\ q_n m' = q_n m.
Proof.
  intros _. eexists. split.
  - replace [ORew e] with (@nil (obs V) ++ ([] ++ ([ORew e] ++ []))) by reflexivity.
    eapply csteps_S; [reflexivity|]. eapply csteps_S; [reflexivity|]. eapply csteps_S; [reflexivity|]. reflexivity.
  - cbn. auto.
Qed.

Lemma rew_link e (m : qmem) ps h nb : exists m', qrun B (csteps 4) (mkSys m ps (mkC FIdle (W2a e h nb))) = Some (mkSys m' ps (mkC FIdle (W3 e)), [])
  /\ q_tl m' = q_tl m /\ q_freed m' = q_freed m /\ q_n m' = q_n m.
Proof.
  eexists. split.
  - replace (@nil (obs V)) with (@nil (obs V) ++ ([] ++ ([] ++ ([] ++ [])))) by reflexivity.
    eapply csteps_S; [reflexivity|]. eapply csteps_S; [reflexivity|]. eapply csteps_S; [reflexivity|]. eapply csteps_S; [reflexivity|]. reflexivity.
  - cbn. auto.
Qed.

Lemma c_pop (m : qmem) ps pc u : f_top (q_fl m) = Some u -> rc m u <> 0 ->
  exists fl', qrun B (csteps 6) (mkSys m ps (mkC PLoad pc)) = Some (mkSys (set_fl fl' m) ps (mkC (FRes (Some u)) pc), []).
Proof.
  destruct m as [[top nx rcf] n fr bh bt bn el av hd tl]. unfold rc. cbn [q_fl f_rc f_top]. intros -> R. eexists.
  replace (@nil (obs V)) with (@nil (obs V) ++ ([] ++ ([] ++ ([] ++ ([] ++ ([] ++ [])))))) by reflexivity.
  eapply csteps_S; [reflexivity|].
  eapply csteps_S. { cbn. destruct (Nat.eqb_spec (rcf u) 0); [contradiction|]. reflexivity. }
  eapply csteps_S. { cbn. rewrite Nat.eqb_refl. cbn [andb negb]. reflexivity. }
  eapply csteps_S; [reflexivity|].
  eapply csteps_S. { cbn. rewrite Nat.eqb_refl. cbn [andb negb]. reflexivity. }
  eapply csteps_S. { cbn. rewrite fset_same. destruct (Nat.eqb_spec (rcf u + 1) 1); [lia|]. reflexivity. }
  reflexivity.
Qed.

Lemma rew_runs e (m : qmem) ps : (forall u, f_top (q_fl m) = Some u -> rc m u <> 0) -> q_tl m < q_n m ->
  exists n m', qrun B (csteps n) (mkSys m ps (mkC FIdle (W0 e))) = Some (mkSys m' ps (mkC FIdle CReady), [ORew e])
  /\ q_tl m' = q_tl m /\ q_freed m' (q_tl m) = q_freed m (q_tl m) /\ q_n m <= q_n m'.
Proof.
  intros R TN. destruct (Nat.eqb_spec (q_bh m (q_hd m)) 0) as [Z|Z].
  - assert (E1 : qstep B (QCons false) (mkSys m ps (mkC FIdle (W0 e))) = Some (mkSys m ps (mkC PLoad (WP e (q_hd m))), [])) by (cbn [qstep cstep]; rewrite Z; reflexivity).
    assert (G : exists n2 m2 nb, qrun B (csteps n2) (mkSys m ps (mkC PLoad (WP e (q_hd m)))) = Some (mkSys m2 ps (mkC FIdle (W2a e (q_hd m) nb)), [])
      /\ q_tl m2 = q_tl m /\ q_freed m2 (q_tl m) = q_freed m (q_tl m) /\ q_n m <= q_n m2).
    { destruct (f_top (q_fl m)) as [u|] eqn:TP.
      - destruct (c_pop m ps (WP e (q_hd m)) u TP (R u eq_refl)) as (fl' & E2). exists 7, (set_fl fl' m), u. split; [|cbn; auto].
        change 7 with (6 + 1). replace (@nil (obs V)) with (@nil (obs V) ++ []) by reflexivity. eapply csteps_app; [exact E2|reflexivity].
      - exists 2, (snd (alloc m)), (q_n m). split.
        + replace (@nil (obs V)) with (@nil (obs V) ++ ([] ++ [])) by reflexivity.
          eapply csteps_S. { cbn [qstep cstep]. replace (fstep false PLoad (q_fl m)) with (Some (FRes None, q_fl m)); [reflexivity|]. destruct (q_fl m) as [top nx rcf]. cbn in *. rewrite TP. reflexivity. }
          eapply csteps_S; [reflexivity|]. destruct m as [fl1 a1 a2 a3 a4 a5 a6 a7 a8 a9]. reflexivity.
        + cbn. rewrite fset_other by lia. auto. }
    destruct G as (n2 & m2 & nb & E2 & A1 & A2 & A3). destruct (rew_link e m2 ps (q_hd m) nb) as (m3 & E3 & B1 & B2 & B3). destruct (rew_tail e m3 ps _ eq_refl) as (m4 & E4 & D1 & D2 & D3).
    exists (S (n2 + (4 + 3))), m4. split; [|rewrite D1, D2, D3, B1, B2, B3; auto].
    replace [ORew e] with (@nil (obs V) ++ ([] ++ ([] ++ [ORew e]))) by reflexivity. eapply csteps_S; [exact E1|]. eapply csteps_app; [exact E2|]. eapply csteps_app; [exact E3|exact E4].
  - assert (E1 : qstep B (QCons false) (mkSys m ps (mkC FIdle (W0 e))) = Some (mkSys m ps (mkC FIdle (W3 e)), [])) by (cbn [qstep cstep]; destruct (Nat.eqb_spec (q_bh m (q_hd m)) 0); [contradiction|reflexivity]).
    destruct (rew_tail e m ps _ eq_refl) as (m4 & E4 & D1 & D2 & D3). exists 4, m4. split; [|rewrite D1, D2, D3; auto].
    replace [ORew e] with (@nil (obs V) ++ [ORew e]) by reflexivity. eapply csteps_S; [exact E1|exact E4].
Qed.

Lemma idle_timely evs : forall (s : sys), (forall p, In p (s_ps s) -> pidle p) -> (forall ev, In ev evs -> ev = QCons false) -> timely B evs s.
Proof.
  induction evs as [|ev evs IH]; intros s ID J; cbn [timely]; [exact I|]. assert (ev = QCons false) as -> by (apply J; left; reflexivity). split.
  - intros h _ _ p t I. destruct (ID p I) as (_ & X). congruence.
  - destruct s as [m ps c]. cbn [qstep]. destruct (cstep B false c m) as [((c' & m') & o')|]; [|exact I]. apply IH; [exact ID|]. intros ev I. apply J. right. exact I.
Qed.

Lemma rew_alone e (m : qmem) ps C L val : (forall p, In p ps -> pidle p) -> QI B m ps (mkC FIdle CReady) C L val ->
  exists n m' C' L' val', qrun B (csteps n) (mkSys m ps (mkC FIdle (W0 e))) = Some (mkSys m' ps (mkC FIdle CReady), [ORew e])
    /\ QI B m' ps (mkC FIdle CReady) C' L' val' /\ content m' (mkC FIdle CReady) C' val' = e :: content m (mkC FIdle CReady) C val
    /\ q_tl m' = q_tl m /\ q_freed m' (q_tl m) = q_freed m (q_tl m) /\ q_n m <= q_n m'.
Proof.
  intros ID H. assert (H0 : QI B m ps (mkC FIdle (W0 e)) C L val) by (apply (qi_cpc B HB m ps _ _ C L val H); cbn; auto; congruence).
  destruct (rew_runs e m ps) as (n & m' & E & A1 & A2 & A3).
  - intros u TP. pose proof (qi_fl _ _ _ _ _ _ _ H) as F. pose proof (fi_link _ _ _ _ _ _ F) as X. rewrite TP in X. inversion X as [|a l Y Z]; subst.
    pose proof (fi_ltn _ _ _ _ _ _ F u (or_introl eq_refl)) as G. pose proof (fi_rc _ _ _ _ _ _ F u G) as R. rewrite cnt_cons, is_same in R.
    assert (WF : wsum (c_fix u) (FIdle :: map p_f ps) = 0). { apply wsum_all0. intros f [<-|J]; [auto|]. apply in_map_iff in J. destruct J as (q & <- & J). rewrite (proj1 (ID q J)). auto. }
    cbn [c_f] in R. rewrite WF in R. unfold rc. lia.
  - apply (qi_tlt _ _ _ _ _ _ _ H).
  - destruct (qrun_inv B HB (csteps n) _ _ _ (content m (mkC FIdle (W0 e)) C val) E) as (l' & (C' & L' & val' & H' & CO) & HI).
    + exists C, L, val. split; [exact H0|reflexivity].
    + apply idle_timely; [exact ID|]. intros ev J. apply repeat_spec in J. exact J.
    + cbn [hist] in HI. subst l'. exists n, m', C', L', val'. split; [exact E|]. split; [exact H'|]. auto.
Qed.
End Seq.

(** ** C39 *)

(** Calls, one after the other. *)
Inductive op (V : Type) := SEnq (i : nat) (v : V) (unbounded : bool) | SDeq | SRew (v : V).
Arguments SEnq {V} i v unbounded.
Arguments SDeq {V}.
Arguments SRew {V} v.

(** What a queue does with a call: contents before, call, what the caller
    sees, contents after. An enqueue appends; only without leave to allocate,
    and only with at least cap elements in the queue, it may return false and
    leave everything as it is. *)
Inductive qspec {V} (cap : nat) : list V -> op V -> list (obs V) -> list V -> Prop :=
| QSEnq l i v u : qspec cap l (SEnq i v u) [OCall i v; OEnq i v; ORetE i true] (l ++ [v])
| QSFull l i v : cap <= length l -> qspec cap l (SEnq i v false) [OCall i v; ORetE i false] l
| QSDeq v l : qspec cap (v :: l) SDeq [ODeq 0 v; ORetD 0 (Some v)] l
| QSEmpty : qspec cap [] SDeq [OEmpty 0; ORetD 0 None] []
| QSRew l v : qspec cap l (SRew v) [ORew v] (v :: l).

Inductive qspecs {V} (cap : nat) : list V -> list (op V) -> list (list (obs V)) -> list V -> Prop :=
| QSNil l : qspecs cap l [] [] l
| QSCons l1 x o l2 xs os l3 : qspec cap l1 x o l2 -> qspecs cap l2 xs os l3 -> qspecs cap l1 (x :: xs) (o :: os) l3.

(** A call run to its end without interference, and a series of calls. *)
Definition start {V} (x : op V) : qev V := match x with SEnq i v u => QEnq i v u | SDeq => QDeq | SRew v => QRew v end.
Definition tick {V} (x : op V) : qev V := match x with SEnq i _ _ => QProd i false | _ => QCons false end.
Definition quiet {V} (s : sys V) : Prop := s_c s = mkC FIdle CReady /\ forall p, In p (s_ps s) -> pidle p.
Definition exec {V} (B : nat) (x : op V) (s s' : sys V) (o : list (obs V)) : Prop :=
  exists n, qrun B (start x :: repeat (tick x) n) s = Some (s', o) /\ quiet s'.
Inductive execs {V} (B : nat) : list (op V) -> sys V -> list (list (obs V)) -> sys V -> Prop :=
| ENil s : execs B [] s [] s
| ECons x xs s1 s2 s3 o os : exec B x s1 s2 o -> execs B xs s2 os s3 -> execs B (x :: xs) s1 (o :: os) s3.

Definition calls_of {V} (np : nat) (x : op V) : Prop := match x with SEnq i _ _ => i < np | _ => True end.

(** State between calls. *)
Definition between {V} (B cap np : nat) (s : sys V) (l : list V) : Prop :=
  quiet s /\ length (s_ps s) = np /\ cap < q_n (s_m s) /\ q_freed (s_m s) (q_tl (s_m s)) = false /\ SI B s l.

Lemma repl_length {A} i (p : A) l : length (repl i p l) = length l.
Proof. revert l. induction i as [|i IH]; intros [|x l]; cbn; auto. Qed.

Lemma exec_between {V} B k np (x : op V) s l : 0 < B -> calls_of np x -> between B k np s l ->
  exists o s' l', exec B x s s' o /\ between B k np s' l' /\ qspec (k * B) l x o l'.
Proof.
  intros HB CA ((EC & ID) & LN & CP & FR & C & L & val & H & CO). destruct s as [m ps c]. cbn [s_m s_ps s_c] in *. subst c. destruct x as [i v u| |v]; cbn [calls_of] in CA.
  - destruct (nth_error ps i) as [p|] eqn:N; [|apply nth_error_None in N; lia]. destruct (ID p (nth_error_In _ _ N)) as (PF & PM). destruct p as [f pc v0 u0]. cbn in PF, PM. subst f pc.
    destruct (pick i ps _ N) as (r & P1 & P2). pose proof (qi_perm B _ _ _ _ _ _ _ P1 H) as H1. pose proof (qi_call B HB _ _ _ _ _ _ _ v _ H1 u) as H2.
    assert (IR : forall q, In q r -> pidle q) by (intros q J; apply ID, (Permutation_in _ (Permutation_sym P1)); right; exact J).
    destruct (enq_alone B HB i v u m r C L val IR H2 FR) as (b & n & m' & C' & L' & val' & E & H' & F' & N' & CO' & BF). rewrite CO in *.
    assert (QR : qrun B (QEnq i v u :: repeat (QProd i false) n) (mkSys m ps (mkC FIdle CReady)) = Some (mkSys m' (repl i (mkP FIdle PReady v u) ps) (mkC FIdle CReady), OCall i v :: enq_obs i v b)).
    { cbn [qrun qstep]. rewrite N. rewrite (prun_qrun B i n _ _ _ _ _ (repl i (mkP FIdle P0 v u) ps) _ E); [rewrite repl_repl; reflexivity|]. rewrite nth_repl, Nat.eqb_refl, N. reflexivity. }
    assert (IQ : forall p, In p (repl i (mkP FIdle PReady v u) ps) -> pidle p). { intros p J. apply (Permutation_in _ (P2 _)) in J. destruct J as [<-|J]; [split; reflexivity|auto]. }
    exists (OCall i v :: enq_obs i v b), (mkSys m' (repl i (mkP FIdle PReady v u) ps) (mkC FIdle CReady)), (l ++ (if b then [v] else [])). split; [|split].
    + exists n. split; [exact QR|]. split; [reflexivity|exact IQ].
    + split; [split; [reflexivity|exact IQ]|]. cbn [s_m s_ps s_c]. split; [rewrite repl_length; exact LN|]. split; [lia|]. split; [exact F'|]. exists C', L', val'. split; [|exact CO'].
      cbn [s_m s_ps s_c]. apply (qi_perm B _ _ _ _ _ _ _ (Permutation_sym (P2 _))). exact H'.
    + destruct b; cbn [enq_obs]; [constructor|]. destruct (BF eq_refl) as (-> & G). rewrite app_nil_r. constructor. transitivity ((q_n m - 1) * B); [apply Nat.mul_le_mono_r; lia|exact G].
  - assert (H0 : QI B m ps (mkC FIdle D0) C L val) by (apply (qi_cpc B HB m ps _ _ C L val H); cbn; auto; congruence).
    destruct (deq_alone B HB (length C) _ _ _ _ _ (le_n _) ID H0) as (n & m' & C' & L' & E & H' & CO' & T' & F' & N'). replace (content m (mkC FIdle D0) C val) with l in * by (symmetry; exact CO).
    exists (deq_obs l), (mkSys m' ps (mkC FIdle CReady)), (tl l). split; [|split].
    + exists n. split; [|split; [reflexivity|exact ID]]. cbn [start tick qrun qstep]. unfold csteps in E. rewrite E. reflexivity.
    + split; [split; [reflexivity|exact ID]|]. cbn [s_m s_ps s_c]. split; [exact LN|]. split; [lia|]. split; [rewrite T', F'; exact FR|]. exists C', L', val. auto.
    + destruct l; constructor.
  - destruct (rew_alone B HB v m ps C L val ID H) as (n & m' & C' & L' & val' & E & H' & CO' & T' & F' & N'). rewrite CO in CO'.
    exists [ORew v], (mkSys m' ps (mkC FIdle CReady)), (v :: l). split; [|split].
    + exists n. split; [|split; [reflexivity|exact ID]]. cbn [start tick qrun qstep]. unfold csteps in E. rewrite E. reflexivity.
    + split; [split; [reflexivity|exact ID]|]. cbn [s_m s_ps s_c]. split; [exact LN|]. split; [lia|]. split; [rewrite T', F'; exact FR|]. exists C', L', val'. auto.
    + constructor.
Qed.

Lemma between_init {V} B (dflt : V) k np : 0 < B -> between B k np (sys0 dflt k np) [].
Proof.
  intros HB. split; [split; [reflexivity|]|].
  - intros p J. apply repeat_spec in J. subst p. split; reflexivity.
  - cbn. split; [apply repeat_length|]. split; [lia|]. split; [reflexivity|]. apply (si_init B HB).
Qed.

(** A run of a call is determined. *)
Lemma exec_fun {V} B (x : op V) s s1 o1 s2 o2 : exec B x s s1 o1 -> exec B x s s2 o2 -> s1 = s2 /\ o1 = o2.
Proof.
  assert (W : forall a b s s1 o1 s2 o2, a <= b -> qrun B (start x :: repeat (tick x) a) s = Some (s1, o1) -> quiet s1 -> qrun B (start x :: repeat (tick x) b) s = Some (s2, o2) -> s1 = s2 /\ o1 = o2).
  { clear. intros a b s s1 o1 s2 o2 G E Q F. replace b with (a + (b - a)) in F by lia. rewrite repeat_app, app_comm_cons, qrun_app, E in F. destruct (b - a) as [|d].
    - cbn in F. injection F as <- <-. rewrite app_nil_r. auto.
    - exfalso. cbn [repeat qrun] in F. destruct s1 as [m ps c]. destruct Q as (QC & QP). cbn in QC, QP. subst c.
      destruct x as [i v u| |v]; cbn [tick qstep cstep] in F; try discriminate. destruct (nth_error ps i) as [p|] eqn:N; [|discriminate]. destruct (QP p (nth_error_In _ _ N)) as (PF & PM). destruct p as [f pc v0 u0]. cbn in PF, PM. subst f pc. cbn in F. discriminate. }
  intros (a & E1 & Q1) (b & E2 & Q2). destruct (le_lt_dec a b) as [G|G]; [apply (W a b s); auto|]. destruct (W b a s s2 o2 s1 o1) as (-> & ->); auto. lia.
Qed.

(** From a queue with a pool of k blocks of size B: every series of calls
    made one after the other runs to its end, does what the specification
    says, and nothing else can happen. *)
Theorem C39_sequential : forall V B (dflt : V) k np xs, 0 < B -> (forall x, In x xs -> calls_of np x) ->
  exists os s l, execs B xs (sys0 dflt k np) os s /\ qspecs (k * B) [] xs os l.
Proof.
  intros V B dflt k np xs HB. pose proof (between_init B dflt k np HB) as H. revert H. generalize (sys0 dflt k np) (@nil V).
  induction xs as [|x xs IH]; intros s l H CA; [exists [], s, l; split; constructor|].
  destruct (exec_between B k np x s l HB (CA x (or_introl eq_refl)) H) as (o & s1 & l1 & E & H1 & Q). destruct (IH s1 l1 H1) as (os & s2 & l2 & ES & QS); [intros y J; apply CA; right; exact J|].
  exists (o :: os), s2, l2. split; econstructor; eauto.
Qed.
Print Assumptions C39_sequential.

Theorem C39_unique : forall V B (xs : list (op V)) s os1 s1 os2 s2, execs B xs s os1 s1 -> execs B xs s os2 s2 -> os1 = os2 /\ s1 = s2.
Proof.
  intros V B xs s os1 s1 os2 s2 E. revert os2 s2. induction E as [s|x xs sa sb sc o os X E IH]; intros os2 s2 F; inversion F; subst; [auto|].
  match goal with X1 : exec B x sa ?y ?p, X2 : exec B x sa ?z ?q |- _ => destruct (exec_fun B x sa y p z q X1 X2) as (-> & ->) end.
  match goal with X1 : execs B xs _ ?o s2 |- _ => destruct (IH o s2 X1) as (-> & ->) end. auto.
Qed.
Print Assumptions C39_unique.

(** With a pool of one block of size 2: four values fill the queue, the fifth
    is refused; it can be added with leave to allocate, or after a dequeue that
    gives a block back; a value put back comes out first. *)
Example C39_nonvacuous :
  option_map snd (qrun 2 ([QEnq 0 1 false] ++ st 0 10 ++ [QEnq 0 2 false] ++ st 0 10 ++ [QEnq 0 3 false] ++ st 0 31 ++ [QEnq 0 4 false] ++ st 0 10
     ++ [QEnq 0 5 false] ++ st 0 10 ++ [QEnq 0 6 true] ++ st 0 26 ++ [QDeq] ++ cs 5 ++ [QRew 7] ++ cs 4 ++ [QDeq] ++ cs 5 ++ [QDeq] ++ cs 5) (sys0 0 1 1))
  = Some ([OCall 0 1; OEnq 0 1; ORetE 0 true] ++ [OCall 0 2; OEnq 0 2; ORetE 0 true] ++ [OCall 0 3; OEnq 0 3; ORetE 0 true] ++ [OCall 0 4; OEnq 0 4; ORetE 0 true]
     ++ [OCall 0 5; ORetE 0 false] ++ [OCall 0 6; OEnq 0 6; ORetE 0 true] ++ [ODeq 0 1; ORetD 0 (Some 1)] ++ [ORew 7] ++ [ODeq 0 7; ORetD 0 (Some 7)] ++ [ODeq 0 2; ORetD 0 (Some 2)]).
Proof. vm_compute. reflexivity. Qed.

(** C34, C36, C37, C39: theorems about the MPSC queue. *)
From Coq Require Import Arith List Bool Lia Permutation.
From Verif Require Import QueueModel FreeProps QueueSpec QueueProofs.
Import ListNotations.

Section Props.
Context {V : Type}.
Variable B : nat.
Hypothesis HB : 0 < B.
Notation prod := (prod V).
Notation cons := (cons V).
Notation qmem := (qmem V).
Notation sys := (sys V).

(** ** The initial state *)

Fixpoint down (k : nat) : list nat := match k with 0 => [] | S k => S k :: down k end.
Lemma down_in k u : In u (down k) <-> 1 <= u <= k.
Proof. induction k as [|k IH]; cbn; [lia|]. rewrite IH. lia. Qed.
Lemma down_cnt k u : cnt (down k) u = if (1 <=? u) && (u <=? k) then 1 else 0.
Proof.
  induction k as [|k IH]; [destruct u; reflexivity|]. cbn [down]. rewrite cnt_cons, IH. unfold is.
  destruct (Nat.eqb_spec u (S k)), (Nat.leb_spec 1 u), (Nat.leb_spec u k), (Nat.leb_spec u (S k)); cbn; lia.
Qed.

Lemma down_linked nx k j : k <= j -> (forall u, nx u = if (2 <=? u) && (u <=? j) then Some (u - 1) else None) ->
  linked nx (if k =? 0 then None else Some k) (down k).
Proof.
  intros H N. induction k as [|k IH]; cbn [down Nat.eqb]; constructor. rewrite N. destruct k as [|k].
  - cbn. constructor.
  - destruct (Nat.leb_spec 2 (S (S k))); [|lia]. destruct (Nat.leb_spec (S (S k)) j); [|lia]. cbn [andb]. replace (S (S k) - 1) with (S k) by lia. apply IH. lia.
Qed.

Lemma qi_init (dflt : V) k np : QI B (qmem0 dflt k) (repeat (mkP FIdle PReady dflt false) np) (mkC FIdle CReady) [0] (down k) (fun _ _ => dflt).
Proof.
  assert (Z : forall w : prod -> nat, w (mkP FIdle PReady dflt false) = 0 -> wsum w (repeat (mkP FIdle PReady dflt false) np) = 0).
  { intros w E. apply wsum_all0. intros p I. apply repeat_spec in I. subst p. exact E. }
  assert (ZF : forall c : nat -> flpc -> nat, (forall u, c u FIdle = 0) -> forall u, wsum (c u) (FIdle :: map p_f (repeat (mkP FIdle PReady dflt false) np)) = 0).
  { intros c Hc u. apply wsum_all0. intros p [<-|I]; [auto|]. apply in_map_iff in I. destruct I as (q & <- & I). apply repeat_spec in I. subst q. auto. }
  assert (OF : forall u, ownf [0] (repeat (mkP FIdle PReady dflt false) np) (mkC FIdle CReady) u = is u 0).
  { intros u. unfold ownf. rewrite Z by reflexivity. rewrite cnt_cons. unfold ownc, ownw. cbn. lia. }
  constructor; cbn [qmem0 q_fl q_n q_freed q_bh q_bt q_bnext q_el q_av q_hd q_tl].
  - apply fli_ext with (fun u => is u 0) (fun _ => 0); [intros u; symmetry; apply OF|intros u; unfold holdf; symmetry; apply Z; reflexivity|].
    constructor; cbn [f_top f_next f_rc c_f].
    + apply (down_linked _ k k (le_n k)). reflexivity.
    + intros u I. apply down_in in I. lia.
    + intros u G. rewrite is_diff by lia. auto.
    + intros u. rewrite !ZF by reflexivity. rewrite down_cnt. unfold is. destruct (Nat.eqb_spec u 0) as [->|]; cbn; [lia|]. destruct (_ && _); lia.
    + intros u G. rewrite !ZF by reflexivity. rewrite down_cnt. unfold is. destruct (Nat.eqb_spec u 0), (Nat.leb_spec u k), (Nat.leb_spec 1 u); cbn; lia.
    + intros u. rewrite !ZF by reflexivity. lia.
    + intros u. rewrite !ZF by reflexivity. lia.
    + intros u. rewrite !ZF by reflexivity. lia.
    + intros p [<-|I]; [exact Logic.I|]. apply in_map_iff in I. destruct I as (q & <- & I). apply repeat_spec in I. subst q. exact Logic.I.
    + intros u G. rewrite !ZF by reflexivity. rewrite down_cnt. unfold is. destruct (Nat.eqb_spec u 0), (Nat.leb_spec u k), (Nat.leb_spec 1 u); cbn; lia.
  - constructor. constructor.
  - intros u _. lia.
  - intros u _ X. contradiction.
  - intros u [<-|[]] X; contradiction.
  - right. cbn. auto.
  - intros u. rewrite Z by reflexivity. lia.
  - lia.
  - intros u. rewrite Z by reflexivity. lia.
  - intros u G X. rewrite OF. unfold is. destruct (Nat.eqb_spec u 0); [lia|]. destruct (Nat.leb_spec 1 u), (Nat.leb_spec u k); cbn in X; try discriminate; lia.
  - intros u _ X. rewrite Z in X by reflexivity. unfold ownw in X. cbn in X. lia.
  - intros u X. rewrite Z in X by reflexivity. lia.
  - intros u k'. rewrite Z by reflexivity. assert (R : rng 0 0 k' = 0) by reflexivity. rewrite R. unfold cslot. cbn [c_m b2n]. lia.
  - intros u k' X. discriminate.
  - intros p I. apply repeat_spec in I. subst p. exact Logic.I.
  - exact Logic.I.
Qed.

(** ** Runs *)

Definition SI (s : sys) (l : list V) : Prop := exists C L val, QI B (s_m s) (s_ps s) (s_c s) C L val /\ content (s_m s) (s_c s) C val = l.

(** No producer is still about to execute the last store of linking block h
    (freed := false) when the consumer gives h back. *)
Definition no_late_store (s : sys) : Prop := forall h, c_m (s_c s) = D4 h -> c_f (s_c s) = FIdle -> forall p t, In p (s_ps s) -> p_m p <> P8b t h.

Lemma si_init (dflt : V) k np : SI (sys0 dflt k np) [].
Proof. exists [0], (down k), (fun _ _ => dflt). split; [apply qi_init|reflexivity]. Qed.

Lemma qi_call (m : qmem) (p : V) (r : list prod) c C L val (v : V) unb : QI B m (mkP FIdle PReady p unb :: r) c C L val -> forall unb', QI B m (mkP FIdle P0 v unb' :: r) c C L val.
Proof. intros H unb'. apply (qi_pc B HB m _ _ r c C L val H); cbn; auto; try congruence. Qed.

Lemma qstep_inv ev s s' o l : qstep B ev s = Some (s', o) -> SI s l -> ((exists spur, ev = QCons spur) -> no_late_store s) -> exists l', SI s' l' /\ hist l o l'.
Proof.
  intros E (C & L & val & H & <-) NL. destruct s as [m ps c]. cbn [s_m s_ps s_c] in *. destruct ev as [i v unb|i spur| |v|spur]; cbn [qstep] in E.
  - destruct (nth_error ps i) as [[f pc v0 u0]|] eqn:N; [|discriminate]. destruct f; try discriminate. destruct pc; try discriminate. injection E as <- <-.
    destruct (pick i ps _ N) as (r & P1 & P2). exists (content m c C val). split; [|reflexivity]. exists C, L, val. split; [|reflexivity]. cbn [s_m s_ps s_c].
    apply (qi_perm B _ _ _ _ _ _ _ (Permutation_sym (P2 _))). apply (qi_call m v0 r c C L val v u0). apply (qi_perm B _ _ _ _ _ _ _ P1). exact H.
  - destruct (nth_error ps i) as [p|] eqn:N; [|discriminate]. destruct (pstep B spur i p m) as [((p' & m') & o')|] eqn:PS; [|discriminate]. injection E as <- <-.
    destruct (pick i ps _ N) as (r & P1 & P2). destruct (pstep_inv B HB spur i p m p' m' o' r c C L val PS (qi_perm B _ _ _ _ _ _ _ P1 H)) as (C' & L' & val' & H' & CO).
    exists (content m' c C' val'). split; [|apply (enqs_hist B i p m p' m' o' spur _ _ PS CO)]. exists C', L', val'. split; [|reflexivity]. cbn [s_m s_ps s_c].
    apply (qi_perm B _ _ _ _ _ _ _ (Permutation_sym (P2 _))). exact H'.
  - destruct c as [f pc]. destruct f; try discriminate. destruct pc; try discriminate. injection E as <- <-. exists (content m (mkC FIdle CReady) C val). split; [|reflexivity].
    exists C, L, val. split; [|reflexivity]. apply (qi_cpc B HB m ps _ _ C L val H); cbn; auto; congruence.
  - destruct c as [f pc]. destruct f; try discriminate. destruct pc; try discriminate. injection E as <- <-. exists (content m (mkC FIdle CReady) C val). split; [|reflexivity].
    exists C, L, val. split; [|reflexivity]. apply (qi_cpc B HB m ps _ _ C L val H); cbn; auto; congruence.
  - destruct (cstep B spur c m) as [((c' & m') & o')|] eqn:CS; [|discriminate]. injection E as <- <-.
    destruct (cstep_inv B HB spur c m c' m' o' ps C L val CS H) as (C' & L' & val' & H' & CO).
    { intros h X Y. apply (NL (ex_intro _ spur eq_refl) h X Y). }
    exists (content m' c' C' val'). split; [|exact CO]. exists C', L', val'. split; [exact H'|reflexivity].
Qed.

(** The condition holds whenever the consumer moves. *)
Fixpoint timely (evs : list (qev V)) (s : sys) : Prop :=
  match evs with
  | [] => True
  | ev :: evs => (match ev with QCons _ => no_late_store s | _ => True end)
                 /\ match qstep B ev s with Some (s', _) => timely evs s' | None => True end
  end.

Lemma qrun_inv evs : forall s s' o l, qrun B evs s = Some (s', o) -> SI s l -> timely evs s -> exists l', SI s' l' /\ hist l o l'.
Proof.
  induction evs as [|ev evs IH]; cbn [qrun timely]; intros s s' o l E H T.
  - injection E as <- <-. exists l. split; [exact H|reflexivity].
  - destruct T as (T1 & T2). destruct (qstep B ev s) as [(s1 & o1)|] eqn:QS; [|discriminate]. destruct (qrun B evs s1) as [(s2 & o2)|] eqn:QR; [|discriminate]. injection E as <- <-.
    destruct (qstep_inv ev s s1 o1 l QS H) as (l1 & H1 & X1). { intros (spur & ->). exact T1. }
    destruct (IH s1 s2 o2 l1 QR H1 T2) as (l2 & H2 & X2). exists l2. split; [exact H2|]. apply hist_app with l1; auto.
Qed.

(** ** Calls that never allocate *)

(** A block taken from the free list has freed = true until the last store. *)
Definition pend (p : prod) (u : nat) : Prop :=
  match p_m p with P7a _ nb | P7b _ nb | P7c _ nb | P7d _ nb | PF _ nb | P8a _ nb | P8b _ nb => u = nb | _ => False end.
Definition BI (s : sys) : Prop := forall p, In p (s_ps s) -> p_unb p = false /\ forall u, pend p u -> q_freed (s_m s) u = true.

Definition bounded (ev : qev V) : bool := match ev with QEnq _ _ unb => negb unb | _ => true end.

Lemma pend_lt m ps c C L val p u : QI B m ps c C L val -> In p ps -> pend p u -> u < q_n m.
Proof.
  intros H I X. destruct (le_lt_dec (q_n m) u) as [G|G]; [|exact G]. pose proof (proj1 (fi_own _ _ _ _ _ _ (qi_fl _ _ _ _ _ _ _ H) u G)) as Z. unfold ownf in Z.
  pose proof (wsum_in (ownp u) ps p I) as W. pose proof (qi_pok _ _ _ _ _ _ _ H p I) as P. unfold pend in X. unfold ownp in W at 1. unfold pok in P.
  destruct (p_m p) eqn:E; try contradiction; subst u; rewrite ?is_same in W; try lia.
  destruct P as ([P|P] & _); [lia|]. unfold ownc in Z. rewrite P, is_same in Z. lia.
Qed.

(** Two threads are never about to use the same block. *)
Lemma pend_other m p r c C L val q u t : QI B m (p :: r) c C L val -> In q r -> pend q u -> p_m p = P8b t u -> False.
Proof.
  intros H I X E. pose proof (qi_link _ _ _ _ _ _ _ H u) as LK. cbn [wsum] in LK. unfold link in LK at 1. rewrite E, is_same in LK. pose proof (wsum_in (link u) r q I) as W.
  pose proof (qi_pok _ _ _ _ _ _ _ H p (or_introl eq_refl)) as P. unfold pok in P. rewrite E in P. destruct P as (P & _).
  pose proof (place B HB _ _ _ _ _ _ H u) as PL. cbn [wsum] in PL. pose proof (wsum_in (ownp u) r q I) as WO.
  assert (OC : 1 <= cnt C u + ownc u c) by (destruct P as [P|P]; [lia|]; unfold ownc; rewrite P, is_same; lia).
  unfold pend in X. unfold link in W at 1. unfold ownp in WO at 1. destruct (p_m q); try contradiction; subst u; rewrite ?is_same in *; lia.
Qed.

Lemma bi_step ev s s' o l : qstep B ev s = Some (s', o) -> SI s l -> BI s -> bounded ev = true -> BI s'.
Proof.
  intros E (C & L & val & H & _) HBI BD. destruct s as [m ps c]. unfold BI in *. cbn [s_m s_ps s_c] in *. destruct ev as [i v unb|i spur| |v|spur]; cbn [qstep] in E.
  - destruct (nth_error ps i) as [[f pc v0 u0]|] eqn:N; [|discriminate]. destruct f; try discriminate. destruct pc; try discriminate. injection E as <- <-. cbn [s_ps s_m].
    destruct (pick i ps _ N) as (r & P1 & P2). intros p I. apply (Permutation_in _ (P2 _)) in I. destruct I as [<-|I].
    + cbn in *. destruct unb; [discriminate|]. split; [reflexivity|]. intros u X. contradiction.
    + apply HBI. apply (Permutation_in _ (Permutation_sym P1)). right. exact I.
  - destruct (nth_error ps i) as [p|] eqn:N; [|discriminate]. destruct (pstep B spur i p m) as [((p' & m') & o')|] eqn:PS; [|discriminate]. injection E as <- <-. cbn [s_ps s_m].
    destruct (pick i ps _ N) as (r & P1 & P2). pose proof (qi_perm B _ _ _ _ _ _ _ P1 H) as H'.
    assert (HP : forall q, In q (p :: r) -> p_unb q = false /\ forall u, pend q u -> q_freed m u = true) by (intros q I; apply HBI, (Permutation_in _ (Permutation_sym P1)), I).
    assert (K : p_unb p' = false /\ (forall u, pend p' u -> q_freed m' u = true) /\ forall u, q_freed m u = true -> q_freed m' u = true \/ exists t, p_m p = P8b t u).
    { destruct (HP p (or_introl eq_refl)) as (U & F). pose proof (fun u => qi_freed _ _ _ _ _ _ _ H' u) as QF. pose proof (place B HB _ _ _ _ _ _ H') as PL. pose proof (qi_fl _ _ _ _ _ _ _ H') as FLX.
      destruct p as [f pc v unb]. cbn [p_unb] in U. subst unb. cbn [pstep] in PS. unfold pend in F. cbn [p_m] in *.
      destruct f; try (match goal with X : match fstep ?s ?f ?g with _ => _ end = _ |- _ => destruct (fstep s f g) as [(f1, fl1)|]; [injection PS as <- <- <-; unfold pend; cbn; auto|discriminate] end);
      destruct pc; try discriminate;
      repeat match goal with X : context [if ?b then _ else _] |- _ => destruct b | X : context [match ?b with Some _ => _ | None => _ end] |- _ => destruct b as [nb|] eqn:? end;
      injection PS as <- <- <-; unfold pend; cbn [p_unb p_m set_freed set_bh set_bt set_bnext set_el set_av set_tl set_rc set_fl q_freed]; repeat split; auto; try (intros u X; contradiction).
      - intros u X. left. unfold fset. destruct (u =? nb); auto.
      - intros u X. unfold fset. destruct (Nat.eqb_spec u nb) as [->|D]; eauto.
      - intros u X. subst u. destruct (q_freed m nb) eqn:FR; [reflexivity|]. exfalso. cbn [map p_f] in *.
        assert (NN : nb < q_n m). { pose proof (fi_pc _ _ _ _ _ _ FLX (FRes (Some nb))) as Y. apply Y. right. left. reflexivity. }
        pose proof (QF nb NN FR) as Z. specialize (PL nb). unfold ownf in Z. cbn [map p_f wsum c_got] in *. rewrite is_same in PL. lia. }
    destruct K as (K1 & K2 & K3). intros q I. apply (Permutation_in _ (P2 _)) in I. destruct I as [<-|I]; [auto|]. destruct (HP q (or_intror I)) as (Q1 & Q2). split; [exact Q1|].
    intros u X. destruct (K3 u (Q2 u X)) as [Y|(t & Y)]; [exact Y|]. destruct (pend_other _ _ _ _ _ _ _ _ _ _ H' I X Y).
  - destruct c as [f pc]. destruct f; try discriminate. destruct pc; try discriminate. injection E as <- <-. exact HBI.
  - destruct c as [f pc]. destruct f; try discriminate. destruct pc; try discriminate. injection E as <- <-. exact HBI.
  - destruct (cstep B spur c m) as [((c' & m') & o')|] eqn:CS; [|discriminate]. injection E as <- <-. cbn [s_ps s_m]. intros p I. destruct (HBI p I) as (U & F). split; [exact U|].
    intros u X. specialize (F u X). assert (N : u <> q_n m) by (pose proof (pend_lt _ _ _ _ _ _ _ _ H I X); lia).
    assert (K : forall u, u <> q_n m -> q_freed m u = true -> q_freed m' u = true).
    { clear - CS. intros u N F. destruct c as [f pc]. cbn [cstep] in CS.
      destruct f; try (match goal with X : match fstep ?s ?f ?g with _ => _ end = _ |- _ => destruct (fstep s f g) as [(f1, fl1)|]; [injection CS as <- <- <-; auto|discriminate] end);
      destruct pc; try discriminate; try match goal with r : option nat |- _ => destruct r end; repeat match type of CS with context [if ?b then _ else _] => destruct b | context [match ?b with Some _ => _ | None => _ end] => destruct b end;
      injection CS as <- <- <-; auto; cbn [set_freed q_freed alloc]; unfold fset; [destruct (u =? h); auto|destruct (Nat.eqb_spec u (q_n m)); [contradiction|auto]]. }
    auto.
Qed.

Lemma bi_timely s l : SI s l -> BI s -> no_late_store s.
Proof.
  intros (C & L & val & H & _) HBI h E EF p t I X. destruct (HBI p I) as (_ & F). specialize (F h). unfold pend in F. rewrite X in F. specialize (F eq_refl).
  pose proof (qi_pok _ _ _ _ _ _ _ H p I) as P. unfold pok in P. rewrite X in P. destruct P as (_ & P). destruct (P F) as (P1 & _).
  pose proof (place B HB _ _ _ _ _ _ H h) as PL. unfold ownc in PL. rewrite E, is_same in PL. lia.
Qed.

Lemma bounded_timely evs : forall s s' o l, qrun B evs s = Some (s', o) -> SI s l -> BI s -> forallb bounded evs = true -> timely evs s.
Proof.
  induction evs as [|ev evs IH]; cbn [qrun timely forallb]; intros s s' o l E H HBI BD; [exact I|].
  apply andb_prop in BD as (BD1 & BD2). pose proof (bi_timely s l H HBI) as NL. split; [destruct ev; auto|].
  destruct (qstep B ev s) as [(s1 & o1)|] eqn:QS; [|exact I]. destruct (qrun B evs s1) as [(s2 & o2)|] eqn:QR; [|discriminate].
  destruct (qstep_inv ev s s1 o1 l QS H) as (l1 & H1 & _); [auto|]. apply (IH s1 s2 o2 l1); auto. apply (bi_step ev s s1 o1 l); auto.
Qed.

(** ** Life of a call *)
Definition pstof (p : prod) : pst :=
  match p_m p with PReady => PIdle | P10 _ _ | P11 _ _ | WTrue => PDone | _ => PCalled (p_v p) end.
Definition pst_at (s : sys) (i : nat) : pst := match nth_error (s_ps s) i with Some p => pstof p | None => PIdle end.
Definition cst_at (s : sys) : cst := match c_m (s_c s) with D7 _ _ e => CTook e | _ => CIdle end.

Lemma nth_repl {A} i j (x : A) l : nth_error (repl i x l) j = if j =? i then match nth_error l i with Some _ => Some x | None => None end else nth_error l j.
Proof.
  revert i j. induction l as [|y l IH]; intros [|i] [|j]; cbn; try reflexivity; try (destruct (_ =? _); reflexivity). apply IH.
Qed.

Lemma proto_step ev s s' o o' i : qstep B ev s = Some (s', o) -> proto i (pst_at s' i) o' -> proto i (pst_at s i) (o ++ o').
Proof.
  intros E H. destruct s as [m ps c]. destruct ev as [j v unb|j spur| |v|spur]; cbn [qstep] in E.
  - destruct (nth_error ps j) as [[f pc v0 u0]|] eqn:N; [|discriminate]. destruct f; try discriminate. destruct pc; try discriminate. injection E as <- <-.
    unfold pst_at in *. cbn [s_ps app proto] in *. rewrite nth_repl, N in H. destruct (Nat.eqb_spec j i) as [<-|D]; [rewrite Nat.eqb_refl in H; rewrite N; auto|].
    destruct (Nat.eqb_spec i j); [congruence|exact H].
  - destruct (nth_error ps j) as [p|] eqn:N; [|discriminate]. destruct (pstep B spur j p m) as [((p' & m') & o1)|] eqn:PS; [|discriminate]. injection E as <- <-.
    unfold pst_at in *. cbn [s_ps] in *. rewrite nth_repl, N in H.
    assert (K : o1 = [] /\ pstof p' = pstof p \/ (exists v, o1 = [OEnq j v] /\ pstof p = PCalled v /\ pstof p' = PDone)
      \/ o1 = [ORetE j true] /\ pstof p = PDone /\ pstof p' = PIdle \/ o1 = [ORetE j false] /\ (exists v, pstof p = PCalled v) /\ pstof p' = PIdle).
    { clear - PS. destruct p as [f pc v unb]. cbn [pstep] in PS.
      destruct f; try (match goal with X : match fstep ?s ?f ?g with _ => _ end = _ |- _ => destruct (fstep s f g) as [(f1, fl1)|]; [injection PS as <- <- <-; left; auto|discriminate] end);
      destruct pc; try discriminate;
      repeat match goal with X : context [if ?b then _ else _] |- _ => destruct b | X : context [match ?b with Some _ => _ | None => _ end] |- _ => destruct b end;
      injection PS as <- <- <-; unfold pstof; cbn [p_m p_v]; auto 8; try (right; left; eauto; fail); try (right; right; right; eauto). }
    destruct (Nat.eqb_spec i j) as [->|D].
    + rewrite N. destruct K as [(-> & K)|[(v & -> & K1 & K2)|[(-> & K1 & K2)|(-> & K1 & K2)]]]; cbn [app proto]; rewrite ?Nat.eqb_refl; rewrite <- ?K, <- ?K1, <- ?K2; auto.
    + assert (N1 : (j =? i) = false) by (apply Nat.eqb_neq; congruence).
      destruct K as [(-> & K)|[(v & -> & K1 & K2)|[(-> & K1 & K2)|(-> & K1 & K2)]]]; cbn [app proto]; rewrite ?N1; exact H.
  - destruct c as [f pc]. destruct f; try discriminate. destruct pc; try discriminate. injection E as <- <-. exact H.
  - destruct c as [f pc]. destruct f; try discriminate. destruct pc; try discriminate. injection E as <- <-. exact H.
  - destruct (cstep B spur c m) as [((c' & m') & o1)|] eqn:CS; [|discriminate]. injection E as <- <-. unfold pst_at in *. cbn [s_ps] in *.
    assert (K : o1 = [] \/ o1 = [OEmpty 0; ORetD 0 None] \/ (exists v, o1 = [ODeq 0 v]) \/ (exists v, o1 = [ORetD 0 (Some v)]) \/ exists v, o1 = [ORew v]).
    { clear - CS. destruct c as [f pc]. cbn [cstep] in CS.
      destruct f; try (match goal with X : match fstep ?s ?f ?g with _ => _ end = _ |- _ => destruct (fstep s f g) as [(f1, fl1)|]; [injection CS as <- <- <-; auto|discriminate] end);
      destruct pc; try discriminate; try match goal with r : option nat |- _ => destruct r end; repeat match type of CS with context [if ?b then _ else _] => destruct b | context [match ?b with Some _ => _ | None => _ end] => destruct b end;
      injection CS as <- <- <-; eauto 8. }
    destruct K as [->|[->|[(v & ->)|[(v & ->)|(v & ->)]]]]; exact H.
Qed.

Lemma cproto_step ev s s' o o' : qstep B ev s = Some (s', o) -> cproto 0 (cst_at s') o' -> cproto 0 (cst_at s) (o ++ o').
Proof.
  intros E H. destruct s as [m ps c]. destruct ev as [j v unb|j spur| |v|spur]; cbn [qstep] in E.
  - destruct (nth_error ps j) as [[f pc v0 u0]|] eqn:N; [|discriminate]. destruct f; try discriminate. destruct pc; try discriminate. injection E as <- <-. exact H.
  - destruct (nth_error ps j) as [p|] eqn:N; [|discriminate]. destruct (pstep B spur j p m) as [((p' & m') & o1)|] eqn:PS; [|discriminate]. injection E as <- <-.
    assert (S : o1 = [] \/ (exists v, o1 = [OEnq j v]) \/ exists b, o1 = [ORetE j b]).
    { clear - PS. destruct p as [f pc v unb]. cbn [pstep] in PS.
      destruct f; try (match goal with X : match fstep ?s ?f ?g with _ => _ end = _ |- _ => destruct (fstep s f g) as [(f1, fl1)|]; [injection PS as <- <- <-; auto|discriminate] end);
      destruct pc; try discriminate; repeat match goal with X : context [if ?b then _ else _] |- _ => destruct b | X : context [match ?b with Some _ => _ | None => _ end] |- _ => destruct b end; try (injection PS as <- <- <-; eauto). }
    destruct S as [->|[(v & ->)|(b & ->)]]; exact H.
  - destruct c as [f pc]. destruct f; try discriminate. destruct pc; try discriminate. injection E as <- <-. exact H.
  - destruct c as [f pc]. destruct f; try discriminate. destruct pc; try discriminate. injection E as <- <-. exact H.
  - destruct (cstep B spur c m) as [((c' & m') & o1)|] eqn:CS; [|discriminate]. injection E as <- <-. unfold cst_at in *. cbn [s_c] in *.
    destruct c as [f pc]. cbn [cstep] in CS. cbn [c_m].
    destruct f; try (match goal with X : match fstep ?s ?f ?g with _ => _ end = _ |- _ => destruct (fstep s f g) as [(f1, fl1)|]; [injection CS as <- <- <-; exact H|discriminate] end);
    destruct pc; try discriminate; try match goal with r : option nat |- _ => destruct r end; repeat match type of CS with context [if ?b then _ else _] => destruct b | context [match ?b with Some _ => _ | None => _ end] => destruct b end;
    injection CS as <- <- <-; cbn [c_m app cproto Nat.eqb] in *; auto.
Qed.

Lemma run_protocol evs : forall s s' o, qrun B evs s = Some (s', o) -> (forall i, proto i (pst_at s i) o) /\ cproto 0 (cst_at s) o.
Proof.
  induction evs as [|ev evs IH]; cbn [qrun]; intros s s' o E; [injection E as <- <-; split; [intros i|]; exact I|].
  destruct (qstep B ev s) as [(s1 & o1)|] eqn:QS; [|discriminate]. destruct (qrun B evs s1) as [(s2 & o2)|] eqn:QR; [|discriminate]. injection E as <- <-.
  destruct (IH s1 s2 o2 QR) as (X & Y). split; [intros i; apply (proto_step _ _ _ _ _ _ QS); auto|apply (cproto_step _ _ _ _ _ QS); exact Y].
Qed.

Lemma protocol0 (dflt : V) k np evs s (o : list (obs V)) : qrun B evs (sys0 dflt k np) = Some (s, o) -> (forall i, proto i PIdle o) /\ cproto 0 CIdle o.
Proof.
  intros E. destruct (run_protocol evs _ _ _ E) as (X & Y). split; [|exact Y]. intros i. specialize (X i). unfold pst_at in X. cbn [sys0 s_ps] in X.
  destruct (nth_error (repeat _ np) i) as [p|] eqn:N; [|exact X]. apply nth_error_In, repeat_spec in N. subst p. exact X.
Qed.

Lemma bi_init (dflt : V) k np : BI (sys0 dflt k np).
Proof. intros p I. apply repeat_spec in I. subst p. split; [reflexivity|]. intros u X. contradiction. Qed.
End Props.

(** ** C36 *)

(** With any number of producers and one consumer, interleaved arbitrarily,
    the effects on the queue are those of a first-in first-out queue (with
    rewind putting an element back in front); every enqueue call takes effect
    once and returns true or not at all and returns false; try_dequeue returns
    what it took. *)
Theorem C36_fifo : forall V B (dflt : V) k np evs s o, 0 < B -> forallb bounded evs = true ->
  qrun B evs (sys0 dflt k np) = Some (s, o) ->
  (exists l, hist [] o l) /\ (forall i, proto i PIdle o) /\ cproto 0 CIdle o.
Proof.
  intros V B dflt k np evs s o HB BD E. split; [|apply (protocol0 B dflt k np evs s o E)].
  destruct (qrun_inv B HB evs _ _ _ [] E (si_init B HB dflt k np)) as (l & _ & H); [|exists l; exact H].
  apply (bounded_timely B HB evs _ _ _ [] E); [apply (si_init B HB)|apply bi_init|exact BD].
Qed.
Print Assumptions C36_fifo.

(** Without rewind: the values come out in the order in which they went in,
    each exactly once. *)
Corollary C36_order : forall V B (dflt : V) k np evs s o, 0 < B -> forallb bounded evs = true ->
  qrun B evs (sys0 dflt k np) = Some (s, o) -> rewound o = [] -> exists l, enqueued o = dequeued o ++ l.
Proof.
  intros V B dflt k np evs s o HB BD E R. destruct (C36_fifo V B dflt k np evs s o HB BD E) as ((l & H) & _). exists l. apply (hist_fifo o [] l H R).
Qed.
Print Assumptions C36_order.

(** When try_dequeue reports an empty queue, every value enqueued or put back
    so far has been dequeued, exactly once. *)
Corollary C36_all_out : forall V B (dflt : V) k np evs s o o', 0 < B -> forallb bounded evs = true ->
  qrun B evs (sys0 dflt k np) = Some (s, o) -> forall i o'', o = o' ++ OEmpty i :: o'' -> Permutation (enqueued o' ++ rewound o') (dequeued o').
Proof.
  intros V B dflt k np evs s o o' HB BD E i o'' ->. destruct (C36_fifo V B dflt k np evs s _ HB BD E) as ((l & H) & _).
  assert (S : forall o' l0 l, hist l0 (o' ++ OEmpty i :: o'') l -> hist l0 o' []).
  { clear. induction o' as [|x o' IH]; cbn; intros l0 l H; [destruct H as (-> & _); reflexivity|]. destruct x; eauto.
    - destruct H as (l1 & -> & H). eauto.
    - destruct H as (-> & H). eauto. }
  pose proof (hist_multiset o' [] [] (S o' [] l H)) as P. rewrite app_nil_r in P. exact P.
Qed.
Print Assumptions C36_all_out.

(** Two producers (the second one preempted while it links a block of the
    pool), a consumer that drains, puts one element back and takes it again:
    block size 2, pool of one block. *)
Definition st {V} (i n : nat) : list (qev V) := repeat (QProd i false) n.
Definition cs {V} (n : nat) : list (qev V) := repeat (QCons false) n.
Example C36_nonvacuous :
  option_map snd (qrun 2 ([QEnq 0 10 false] ++ st 0 10 ++ [QEnq 0 11 false] ++ st 0 10 ++ [QEnq 1 12 false] ++ st 1 18 ++ [QEnq 0 13 false] ++ st 0 1 ++ st 1 9 ++ st 0 9 ++ st 1 4
          ++ [QDeq] ++ cs 5 ++ [QRew 10] ++ cs 4 ++ [QDeq] ++ cs 5 ++ [QDeq] ++ cs 5 ++ [QDeq] ++ cs 15 ++ [QDeq] ++ cs 5 ++ [QDeq] ++ cs 2
          ++ [QEnq 0 14 false] ++ st 0 31 ++ [QDeq] ++ cs 15) (sys0 0 1 2))
  = Some [OCall 0 10; OEnq 0 10; ORetE 0 true; OCall 0 11; OEnq 0 11; ORetE 0 true; OCall 1 12; OCall 0 13; OEnq 1 12; OEnq 0 13; ORetE 0 true; ORetE 1 true;
          ODeq 0 10; ORetD 0 (Some 10); ORew 10; ODeq 0 10; ORetD 0 (Some 10); ODeq 0 11; ORetD 0 (Some 11); ODeq 0 12; ORetD 0 (Some 12); ODeq 0 13; ORetD 0 (Some 13);
          OEmpty 0; ORetD 0 None; OCall 0 14; OEnq 0 14; ORetE 0 true; ODeq 0 14; ORetD 0 (Some 14)].
Proof. vm_compute. reflexivity. Qed.

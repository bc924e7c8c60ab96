(** C38: MPMCQueue::try_dequeue, with several consumers. *)
From Coq Require Import Arith List Bool Lia Permutation.
From Verif Require Import QueueModel FreeProps QueueSpec QueueProofs QueueProps QueueSeq QueueCap.
Import ListNotations.

Section MPMC.
Context {V : Type}.
Variable B : nat.
Hypothesis HB : 0 < B.
Variable d : V.
Notation prod := (prod V).
Notation cons := (cons V).
Notation qmem := (qmem V).
Notation sys := (sys V).
Notation mcons := (mcons V).
Notation msys := (msys V).

(** A consumer of the MPMC queue acts like the consumer of the MPSC queue
    together with a thread that takes and gives back the references. *)
Definition ph (c : mcons) : prod :=
  match k_f c with
  | FIdle => mkP FIdle (match k_m c with M0 => P0 | M1 h => P1 h | M2 h k => P2 h k
                        | M3 h | M4 h _ | M5 h | M6 h _ | M6p h | M7 h _ | M8 h _ | M9 h _ | M10 h _ _ => P3 h | _ => PReady end) d false
  | f => match k_m c with MPushed h => mkP FIdle (P3 h) d false | _ => mkP f WRetry d false end
  end.
Definition cc (c : mcons) : cons :=
  match k_f c with
  | FIdle => mkC FIdle (match k_m c with M5 h => D2 h | M6 h n => D3 h n | M6p h => D4 h | M7 h hh => D1 h hh | M8 h hh => D5 h hh | M9 h hh => D6 h hh | M10 h hh e => D7 h hh e | _ => CReady end)
  | f => match k_m c with MPushed h => mkC f WD | _ => mkC FIdle CReady end
  end.
Definition mok (m : qmem) (c : mcons) : Prop :=
  match k_f c, k_m c with
  | FIdle, M1 h | FIdle, M3 h => h = q_hd m
  | FIdle, M2 h k => h = q_hd m /\ k <> 0
  | FIdle, M4 h hh => h = q_hd m /\ hh = q_bh m h
  | FIdle, (MRetry | MPushed _ | MEmpty | MGot _) => False
  | _, _ => True
  end.

(** The reference thread starts with the head block. *)
Lemma ph_head (m : qmem) r c C L val : (forall q u, In q r -> pend q u -> q_freed m u = true) -> QI B m (mkP FIdle P0 d false :: r) c C L val -> QI B m (mkP FIdle (P1 (q_hd m)) d false :: r) c C L val.
Proof.
  intros BF H. pose proof H as [H1 H2 H3 H4 H5 H6 H7 H8 H9 H10 H11 H12 H13 H14 H15 H16].
  pose proof (hd_in B _ _ _ _ _ _ H) as HI. pose proof (cnt_C1 B HB _ _ _ _ _ _ _ H HI) as C1.
  assert (HN : q_hd m < q_n m).
  { destruct (le_lt_dec (q_n m) (q_hd m)) as [G|G]; [|exact G]. destruct (fi_own _ _ _ _ _ _ H1 _ G) as (X & _). unfold ownf in X. lia. }
  assert (TG : forall u, wsum (tgt u) (mkP FIdle (P1 (q_hd m)) d false :: r) = is u (q_hd m) + wsum (tgt u) r) by reflexivity.
  constructor; auto.
  - destruct H6 as [(q & t & nb & [<-|J] & X)|X]; [discriminate| |auto]. left. exists q, t, nb. split; [right; exact J|exact X].
  - intros u X. rewrite TG in X. destruct (Nat.eq_dec u (q_hd m)) as [->|N]; [exact HN|]. rewrite is_diff in X by exact N. apply H9. exact X.
  - intros u X Y. pose proof (place B HB _ _ _ _ _ _ H u) as P. assert (N : u <> q_hd m). { intros ->. cbn [wsum] in *. unfold ownp in Y at 1, P at 1. cbn in Y, P. unfold ownc in P. unfold ownw in Y, P. destruct (c_m c); lia. }
    rewrite TG, is_diff by exact N. apply (H11 u X Y).
  - intros q [<-|J]; [exact Logic.I|]. specialize (H15 q (or_intror J)). specialize (BF q). unfold pok, pend in *. destruct (p_m q); auto.
    destruct H15 as (A1 & A2 & A3 & A4 & A5 & A6 & A7). repeat split; auto.
Qed.

Definition bok (m : qmem) (ps : list prod) : Prop := forall p, In p ps -> p_unb p = false /\ forall u, pend p u -> q_freed m u = true.

Lemma bok_bi m ps c : bok m ps -> BI (mkSys m (ph c :: ps) (cc c)).
Proof.
  intros H p [<-|I]; [|apply (H p I)]. unfold ph. destruct c as [f pc]. cbn [k_f k_m]. destruct f, pc; (split; [reflexivity|]); intros w X; contradiction.
Qed.

Lemma qi_ph m c c' ps k C L val : ph c' = ph c -> QI B m (ph c :: ps) k C L val -> QI B m (ph c' :: ps) k C L val.
Proof. intros ->. auto. Qed.

Lemma rel_ph (m : qmem) h pc r k C L val : pc = WRetry -> QI B m (mkP FIdle (P3 h) d false :: r) k C L val -> QI B m (mkP (RSub h KDone) pc d false :: r) k C L val.
Proof.
  intros -> H. apply (qi_release B HB _ _ _ _ _ _ _ _ h H); cbn; auto; try (intros; reflexivity).
Qed.

Lemma fstep_busy spur f g f' g' : fstep spur f g = Some (f', g') -> f' <> FIdle.
Proof.
  intros E. destruct g as [t n r]. destruct f; cbn in E; try discriminate;
  repeat match type of E with context [if ?b then _ else _] => destruct b | context [match ?b with Some _ => _ | None => _ end] => destruct b end; injection E as <- <-;
  repeat match goal with |- context [fin ?k _] => is_var k; destruct k end; cbn; congruence.
Qed.

Lemma mstep_inv spur i c m c' m' o ps C L val : mstep B spur i c m = Some (c', m', o) -> bok m ps -> mok m c -> QI B m (ph c :: ps) (cc c) C L val ->
  exists C' L' val', QI B m' (ph c' :: ps) (cc c') C' L' val' /\ hist (content m (cc c) C val) o (content m' (cc c') C' val') /\ mok m' c' /\ (forall u, q_freed m u = true -> q_freed m' u = true).
Proof.
  intros E BK MK H.
  assert (NL : no_late_store (mkSys m (ph c :: ps) (cc c))). { apply (bi_timely B HB _ (content m (cc c) C val)); [exists C, L, val; auto|apply bok_bi; exact BK]. }
  assert (CST : forall c1 m1 o1, cstep B spur (cc c) m = Some (c1, m1, o1) -> exists C' L' val', QI B m1 (ph c :: ps) c1 C' L' val' /\ hist (content m (cc c) C val) o1 (content m1 c1 C' val')).
  { intros c1 m1 o1 X. apply (cstep_inv B HB spur _ m c1 m1 o1 (ph c :: ps) C L val X H). intros h X1 X2 p t I. apply (NL h X1 X2 p t I). }
  assert (PST : forall p1 m1 o1, pstep B spur 0 (ph c) m = Some (p1, m1, o1) -> enqs o1 = [] -> exists C' L' val', QI B m1 (p1 :: ps) (cc c) C' L' val' /\ content m1 (cc c) C' val' = content m (cc c) C val).
  { intros p1 m1 o1 X Y. destruct (pstep_inv B HB spur 0 _ m p1 m1 o1 ps (cc c) C L val X H) as (C' & L' & val' & H' & CO). exists C', L', val'. split; [exact H'|]. rewrite CO, Y, app_nil_r. reflexivity. }
  destruct c as [f pc]. unfold mok in MK. cbn [k_f k_m] in MK. cbn [mstep] in E.
  destruct f.
  1: { (* FIdle *)
    destruct pc; try discriminate; unfold ph, cc in *; cbn [k_f k_m] in *.
    - (* M0 *) injection E as <- <- <-. exists C, L, val. cbn [k_f k_m]. split; [apply ph_head; [intros q u I X; apply (BK q I), X|exact H]|]. split; [reflexivity|]. split; [reflexivity|auto].
    - (* M1 *) injection E as <- <- <-. subst h. destruct (PST _ _ _ eq_refl eq_refl) as (C' & L' & val' & H' & CO). exists C', L', val'. 
      destruct (Nat.eqb_spec (rc m (q_hd m)) 0); (split; [exact H'|]; split; [cbn [hist]; exact CO|]; split; [cbn; auto|auto]).
    - (* M2 *) destruct MK as (-> & K0). cbn [pstep] in PST. destruct ((rc m (q_hd m) =? c) && negb spur); injection E as <- <- <-; destruct (PST _ _ _ eq_refl eq_refl) as (C' & L' & val' & H' & CO);
      exists C', L', val'; (split; [exact H'|]; split; [cbn [hist]; exact CO|]; split; [cbn; auto|auto]).
    - (* M3 *) injection E as <- <- <-. exists C, L, val. split; [exact H|]. split; [reflexivity|]. split; [cbn; auto|auto].
    - (* M4 *) destruct MK as (-> & ->). pose proof (qi_bt _ _ _ _ _ _ _ H _ (hd_in B _ _ _ _ _ _ H)) as BT.
      destruct (Nat.leb_spec (q_bt m (q_hd m)) (q_bh m (q_hd m))) as [G|G].
      + destruct (Nat.ltb_spec (q_bt m (q_hd m)) B) as [G2|G2]; injection E as <- <- <-; exists C, L, val; cbn [k_f k_m].
        * split; [apply rel_ph; auto|]. split; [|split; [exact I|auto]]. cbn [hist]. split; [|reflexivity]. apply (empty_content B HB _ _ _ _ _ _ H); auto.
          destruct (q_bnext m (q_hd m)) eqn:NX; [|reflexivity]. assert (q_bt m (q_hd m) = B) by (apply (qi_full _ _ _ _ _ _ _ H); [apply (hd_in B _ _ _ _ _ _ H)|congruence]). lia.
        * split; [|split; [reflexivity|split; [exact I|auto]]]. apply (qi_cpc B HB m _ _ _ C L val H); cbn; auto; try congruence. repeat split; lia.
      + injection E as <- <- <-; exists C, L, val; cbn [k_f k_m]. split; [|split; [reflexivity|split; [exact I|auto]]]. apply (qi_cpc B HB m _ _ _ C L val H); cbn; auto; congruence.
    - (* M5 *) pose proof (qi_cok _ _ _ _ _ _ _ H) as (K1 & K2 & K3). destruct (q_bnext m h) as [n|] eqn:NX; injection E as <- <- <-; exists C, L, val; cbn [k_f k_m].
      + split; [|split; [reflexivity|split; [exact I|auto]]]. apply (qi_cpc B HB m _ _ _ C L val H); cbn; auto; congruence.
      + split; [|split; [|split; [exact I|auto]]]; [apply rel_ph; auto; apply (qi_cpc B HB m _ _ _ C L val H); cbn; auto; congruence|]. cbn [hist].
        assert (CE : content m (mkC FIdle (D2 h)) C val = []) by (apply (empty_content B HB _ _ _ _ _ _ H); auto; subst h; auto; lia). split; [exact CE|reflexivity].
    - (* M6 *) pose proof (qi_cok _ _ _ _ _ _ _ H) as (K1 & K2 & K3 & K4). rewrite <- K1, Nat.eqb_refl in E. cbn [andb] in E. destruct spur; cbn [negb] in E; injection E as <- <- <-; cbn [k_f k_m].
      + exists C, L, val. split; [|split; [reflexivity|split; [exact I|auto]]]. apply rel_ph; auto. apply (qi_cpc B HB m _ _ _ C L val H); cbn; auto; congruence.
      + destruct (CST _ _ _ eq_refl) as (C' & L' & val' & H' & HI). exists C', L', val'. split; [exact H'|]. split; [exact HI|]. split; [exact I|auto].
    - (* M6p *) injection E as <- <- <-. destruct (CST _ _ _ eq_refl) as (C' & L' & val' & H' & HI). exists C', L', val'. split; [exact H'|]. split; [exact HI|]. split; [exact I|].
      intros u X. cbn. unfold fset. destruct (u =? h); auto.
    - (* M7 *) pose proof (qi_cok _ _ _ _ _ _ _ H) as (K1 & K2 & K3). rewrite <- K2, Nat.eqb_refl in E. cbn [andb] in E. destruct spur; cbn [negb] in E; injection E as <- <- <-; cbn [k_f k_m].
      + exists C, L, val. split; [|split; [reflexivity|split; [exact I|auto]]]. apply rel_ph; auto. apply (qi_cpc B HB m _ _ _ C L val H); cbn; auto; congruence.
      + destruct (CST _ _ _ eq_refl) as (C' & L' & val' & H' & HI). exists C', L', val'. split; [exact H'|]. split; [exact HI|]. split; [exact I|auto].
    - (* M8 *) injection E as <- <- <-. destruct (CST _ _ _ eq_refl) as (C' & L' & val' & H' & HI). exists C', L', val'. destruct (q_av m h hh); (split; [exact H'|]; split; [exact HI|]; split; [exact I|auto]).
    - (* M9 *) injection E as <- <- <-. destruct (CST _ _ _ eq_refl) as (C' & L' & val' & H' & HI). exists C', L', val'. split; [exact H'|]. split; [exact HI|]. split; [exact I|auto].
    - (* M10 *) injection E as <- <- <-. destruct (CST _ _ _ eq_refl) as (C' & L' & val' & H' & HI). exists C', L', val'. split; [apply rel_ph; auto|]. split; [exact HI|]. split; [exact I|auto]. }
  all: cycle 10.
  1: { (* FDone *)
    destruct pc; try discriminate; unfold ph, cc in *; cbn [k_f k_m] in *.
    - (* MRetry *) injection E as <- <- <-. destruct (PST _ _ _ eq_refl eq_refl) as (C' & L' & val' & H' & CO). exists C', L', val'. split; [exact H'|]. split; [exact CO|]. split; [exact I|auto].
    - (* MPushed *) injection E as <- <- <-. exists C, L, val. split; [|split; [reflexivity|split; [exact I|auto]]]. cbn [k_f k_m]. apply rel_ph; auto. apply (qi_cpc B HB m _ _ _ C L val H); cbn; auto; congruence.
    - (* MEmpty *) injection E as <- <- <-. exists C, L, val. split; [|split; [reflexivity|split; [exact I|auto]]]. apply (qi_pc B HB m _ _ _ _ C L val H); cbn; auto; congruence.
    - (* MGot *) injection E as <- <- <-. exists C, L, val. split; [|split; [reflexivity|split; [exact I|auto]]]. apply (qi_pc B HB m _ _ _ _ C L val H); cbn; auto; congruence. }
  1: discriminate.
  all: destruct (fstep spur _ (q_fl m)) as [(f1 & fl1)|] eqn:FS; [|discriminate]; injection E as <- <- <-; pose proof (fstep_busy _ _ _ _ _ FS) as FB;
    destruct pc; unfold ph, cc in *; cbn [k_f k_m] in *; cbn [cstep] in CST; cbn [pstep] in PST; rewrite ?FS in CST; rewrite ?FS in PST;
    first [destruct (PST _ _ _ eq_refl eq_refl) as (C' & L' & val' & H' & CO); exists C', L', val'; split; [destruct f1; try exact H'; congruence|]; split; [destruct f1; try exact CO; congruence|]
          |destruct (CST _ _ _ eq_refl) as (C' & L' & val' & H' & CO); exists C', L', val'; split; [destruct f1; try exact H'; congruence|]; split; [destruct f1; try exact CO; congruence|]];
    (split; [unfold mok; cbn [k_f k_m]; destruct f1; auto; congruence|auto]).
Qed.

(** ** The system *)

Lemma pstep_idx spur i j p (m : qmem) p' m' o : pstep B spur i p m = Some (p', m', o) -> exists o', pstep B spur j p m = Some (p', m', o').
Proof.
  intros E. destruct p as [f pc v u]. cbn [pstep] in *.
  destruct f; try (destruct (fstep spur _ (q_fl m)) as [(f1 & fl1)|]; [injection E as <- <- <-; eauto|discriminate]); destruct pc; try discriminate;
  repeat match type of E with context [if ?b then _ else _] => destruct b | context [match ?b with Some _ => _ | None => _ end] => destruct b end; try discriminate; injection E as <- <- <-; eexists; reflexivity.
Qed.

Lemma pstep_hd spur i p (m : qmem) p' m' o r c C L val : pstep B spur i p m = Some (p', m', o) -> QI B m (p :: r) c C L val -> q_hd m' = q_hd m /\ q_bh m' (q_hd m) = q_bh m (q_hd m).
Proof.
  intros E H. pose proof (qi_pok _ _ _ _ _ _ _ H _ (or_introl eq_refl)) as K. pose proof (place B HB _ _ _ _ _ _ H (q_hd m)) as PL.
  assert (HC : In (q_hd m) C) by apply (hd_in B _ _ _ _ _ _ H).
  destruct p as [f pc v u]. cbn [pstep] in *.
  destruct f; try (destruct (fstep spur _ (q_fl m)) as [(f1 & fl1)|]; [injection E as <- <- <-; auto|discriminate]); destruct pc; try discriminate;
  repeat match type of E with context [if ?b then _ else _] => destruct b | context [match ?b with Some _ => _ | None => _ end] => destruct b end; try discriminate; injection E as <- <- <-; auto.
  cbn. split; [reflexivity|]. unfold fset. destruct (Nat.eqb_spec (q_hd m) nb) as [<-|D]; [|reflexivity]. exfalso. apply cnt_in in HC. cbn [wsum] in PL. unfold ownp in PL at 1. cbn in PL. rewrite is_same in PL. lia.
Qed.

Definition idle : mcons := mkM FIdle MReady.
Definition MI (s : msys) (l : list V) : Prop := exists i, (forall j c, j <> i -> nth_error (y_cs s) j = Some c -> c = idle) /\
  (let c := nth i (y_cs s) idle in mok (y_m s) c /\ bok (y_m s) (y_ps s) /\ exists C L val, QI B (y_m s) (ph c :: y_ps s) (cc c) C L val /\ content (y_m s) (cc c) C val = l).

Definition ybounded (ev : mev V) : bool := match ev with YEnq _ _ unb => negb unb | _ => true end.

(** No call of try_dequeue is made while another one is in progress. *)
Fixpoint alone (evs : list (mev V)) (s : msys) : Prop :=
  match evs with
  | [] => True
  | ev :: evs => (match ev with YDeq _ => forall c, In c (y_cs s) -> c = idle | _ => True end)
                 /\ match ystep B ev s with Some (s', _) => alone evs s' | None => True end
  end.

Lemma bok_of m ps c : BI (mkSys m (ph c :: ps) (cc c)) -> bok m ps.
Proof. intros H p I. apply (H p). right. exact I. Qed.

Lemma nth_repl_same (c : mcons) cs i c0 : nth_error cs i = Some c0 -> nth i (repl i c cs) idle = c.
Proof. intros N. apply nth_error_nth. rewrite nth_repl, N, Nat.eqb_refl. reflexivity. Qed.

Lemma ystep_inv ev s s' o l : ystep B ev s = Some (s', o) -> MI s l -> ybounded ev = true -> (forall i, ev = YDeq i -> forall c, In c (y_cs s) -> c = idle) -> exists l', MI s' l' /\ hist l o l'.
Proof.
  intros E (a & OT & MK & BK & C & L & val & H & <-) BD AL. destruct s as [m ps cs]. cbn [y_m y_ps y_cs] in *. destruct ev as [i v unb|i spur|i|i spur]; cbn [ystep] in E.
  - destruct (nth_error ps i) as [[f pc v0 u0]|] eqn:N; [|discriminate]. destruct f; try discriminate. destruct pc; try discriminate. injection E as <- <-.
    set (c := nth a cs idle) in *. assert (Q : qstep B (QEnq (S i) v unb) (mkSys m (ph c :: ps) (cc c)) = Some (mkSys m (ph c :: repl i (mkP FIdle P0 v unb) ps) (cc c), [OCall (S i) v])) by (cbn; rewrite N; reflexivity).
    assert (S0 : SI B (mkSys m (ph c :: ps) (cc c)) (content m (cc c) C val)) by (exists C, L, val; auto).
    destruct (qstep_inv B HB _ _ _ _ _ Q S0) as (l' & (C' & L' & val' & H' & CO) & HI); [intros (x & X); discriminate|]. exists l'. split; [|exact HI].
    exists a. cbn [y_m y_ps y_cs]. fold c. split; [exact OT|]. split; [exact MK|]. split; [|exists C', L', val'; auto]. apply (bok_of _ _ c), (bi_step B HB _ _ _ _ _ Q S0); [apply bok_bi; exact BK|exact BD].
  - destruct (nth_error ps i) as [p|] eqn:N; [|discriminate]. destruct (pstep B spur i p m) as [((p' & m') & o')|] eqn:PS; [|discriminate]. injection E as <- <-. set (c := nth a cs idle) in *.
    destruct (pstep_idx spur i (S i) _ _ _ _ _ PS) as (o1 & PS1).
    assert (Q : qstep B (QProd (S i) spur) (mkSys m (ph c :: ps) (cc c)) = Some (mkSys m' (ph c :: repl i p' ps) (cc c), o1)) by (cbn [qstep nth_error]; rewrite N, PS1; reflexivity).
    assert (S0 : SI B (mkSys m (ph c :: ps) (cc c)) (content m (cc c) C val)) by (exists C, L, val; auto).
    destruct (pick i ps _ N) as (r & P1 & P2).
    assert (H1 : QI B m (p :: ph c :: r) (cc c) C L val). { apply (qi_perm B _ (ph c :: ps)); [|exact H]. rewrite P1. apply perm_swap. }
    destruct (pstep_hd spur i _ _ _ _ _ _ _ _ _ _ PS H1) as (HD & HH).
    destruct (pstep_inv B HB spur i p m p' m' o' _ _ C L val PS H1) as (C' & L' & val' & H' & CO).
    exists (content m' (cc c) C' val'). split; [|apply (enqs_hist B i p m p' m' o' spur _ _ PS CO)].
    exists a. cbn [y_m y_ps y_cs]. fold c. split; [exact OT|]. split; [unfold mok in *; destruct (k_f c); auto; destruct (k_m c); rewrite ?HD; auto; destruct MK as (-> & ->); auto|].
    split; [apply (bok_of _ _ c), (bi_step B HB _ _ _ _ _ Q S0); [apply bok_bi; exact BK|reflexivity]|]. exists C', L', val'. split; [|reflexivity].
    apply (qi_perm B _ (p' :: ph c :: r)); [|exact H']. rewrite (P2 p'). apply perm_swap.
  - destruct (nth_error cs i) as [[f pc]|] eqn:N; [|discriminate]. destruct f; try discriminate. destruct pc; try discriminate. injection E as <- <-. specialize (AL i eq_refl).
    exists (content m (cc (nth a cs idle)) C val). split; [|reflexivity]. exists i. cbn [y_m y_ps y_cs]. rewrite (nth_repl_same _ _ _ _ N).
    assert (X : nth a cs idle = idle). { destruct (nth_in_or_default a cs idle) as [J|J]; [apply AL, J|exact J]. } rewrite X in *.
    split. { intros j c D J. rewrite nth_repl in J. destruct (Nat.eqb_spec j i); [congruence|]. apply AL. apply nth_error_In in J. exact J. }
    split; [exact Logic.I|]. split; [exact BK|]. exists C, L, val. split; [|reflexivity]. apply (qi_pc B HB m _ _ _ _ C L val H); cbn; auto; congruence.
  - destruct (nth_error cs i) as [c|] eqn:N; [|discriminate]. destruct (mstep B spur i c m) as [((c' & m') & o')|] eqn:MS; [|discriminate]. injection E as <- <-.
    destruct (Nat.eq_dec i a) as [->|D]; [|rewrite (OT i c D N) in MS; cbn in MS; congruence]. assert (X : nth a cs idle = c) by (apply nth_error_nth; exact N). rewrite X in *.
    destruct (mstep_inv spur a c m c' m' o' ps C L val MS BK MK H) as (C' & L' & val' & H' & HI & MK' & FR). exists (content m' (cc c') C' val'). split; [|exact HI].
    exists a. cbn [y_m y_ps y_cs]. rewrite (nth_repl_same _ _ _ _ N). split. { intros j k D J. rewrite nth_repl in J. destruct (Nat.eqb_spec j a); [congruence|]. apply (OT j _ D J). }
    split; [exact MK'|]. split; [intros p I; destruct (BK p I) as (B1 & B2); split; auto|]. exists C', L', val'. auto.
Qed.

Lemma yrun_inv evs : forall s s' o l, yrun B evs s = Some (s', o) -> MI s l -> forallb ybounded evs = true -> alone evs s -> exists l', MI s' l' /\ hist l o l'.
Proof.
  induction evs as [|ev evs IH]; intros s s' o l E H BD AL; cbn [yrun] in E; [injection E as <- <-; exists l; split; [exact H|reflexivity]|].
  cbn [alone forallb] in *. apply andb_true_iff in BD. destruct BD as (B1 & B2). destruct AL as (A1 & A2). destruct (ystep B ev s) as [(s1 & o1)|] eqn:YS; [|discriminate]. destruct (yrun B evs s1) as [(s2 & o2)|] eqn:YR; [|discriminate]. injection E as <- <-.
  destruct (ystep_inv _ _ _ _ _ YS H B1) as (l1 & H1 & HI1); [intros i -> ; exact A1|]. destruct (IH _ _ _ _ YR H1 B2 A2) as (l2 & H2 & HI2). exists l2. split; [exact H2|]. apply hist_app with l1; auto.
Qed.

Definition mst (c : mcons) : cst :=
  match k_m c with M10 _ _ e | MGot e => CTook e | MEmpty => CEmpty | _ => CIdle end.
Definition mst_at (s : msys) (i : nat) : cst := match nth_error (y_cs s) i with Some c => mst c | None => CIdle end.
Definition mpst_at (s : msys) (i : nat) : pst := match nth_error (y_ps s) i with Some p => pstof p | None => PIdle end.

Lemma mstep_obs spur j c m c' m' o : mstep B spur j c m = Some (c', m', o) ->
  o = [] /\ mst c' = mst c \/ (exists v, o = [ODeq j v] /\ mst c = CIdle /\ mst c' = CTook v) \/ (o = [OEmpty j] /\ mst c = CIdle /\ mst c' = CEmpty)
  \/ exists r, o = [ORetD j r] /\ mst c = (match r with Some v => CTook v | None => CEmpty end) /\ mst c' = CIdle.
Proof.
  intros E. destruct c as [f pc]. cbn [mstep] in E.
  destruct f; try (destruct (fstep spur _ (q_fl m)) as [(f1 & fl1)|]; [injection E as <- <- <-; left; auto|discriminate]); try discriminate;
  destruct pc; try discriminate; repeat match type of E with context [if ?b then _ else _] => destruct b | context [match ?b with Some _ => _ | None => _ end] => destruct b end; injection E as <- <- <-; unfold mst; cbn [k_m]; auto.
  all: first [solve [right; left; eauto] | solve [right; right; left; auto] | solve [right; right; right; exists None; auto] | right; right; right; exists (Some e); auto].
Qed.

Lemma mproto_step ev s s' o o' i : ystep B ev s = Some (s', o) -> proto i (mpst_at s' i) o' /\ cproto i (mst_at s' i) o' -> proto i (mpst_at s i) (o ++ o') /\ cproto i (mst_at s i) (o ++ o').
Proof.
  intros E (H & HC). destruct s as [m ps cs]. destruct ev as [j v unb|j spur|j|j spur]; cbn [ystep] in E.
  - split.
    + apply (proto_step B (QEnq j v unb) (mkSys m ps (mkC FIdle CReady)) (mkSys (y_m s') (y_ps s') (mkC FIdle CReady))); [|exact H]. cbn [qstep].
      destruct (nth_error ps j) as [[f pc v0 u0]|] eqn:N; [|discriminate]. destruct f; try discriminate. destruct pc; try discriminate. injection E as <- <-. reflexivity.
    + destruct (nth_error ps j) as [[f pc v0 u0]|] eqn:N; [|discriminate]. destruct f; try discriminate. destruct pc; try discriminate. injection E as <- <-. exact HC.
  - destruct (nth_error ps j) as [p|] eqn:N; [|discriminate]. destruct (pstep B spur j p m) as [((p' & m') & o1)|] eqn:PS; [|discriminate]. injection E as <- <-. split.
    + apply (proto_step B (QProd j spur) (mkSys m ps (mkC FIdle CReady)) (mkSys m' (repl j p' ps) (mkC FIdle CReady))); [|exact H]. cbn [qstep]. rewrite N, PS. reflexivity.
    + assert (S : o1 = [] \/ (exists v, o1 = [OEnq j v]) \/ exists b, o1 = [ORetE j b]).
      { clear - PS. destruct p as [f pc v unb]. cbn [pstep] in PS.
        destruct f; try (match goal with X : match fstep ?s ?f ?g with _ => _ end = _ |- _ => destruct (fstep s f g) as [(f1, fl1)|]; [injection PS as <- <- <-; auto|discriminate] end);
        destruct pc; try discriminate; repeat match goal with X : context [if ?b then _ else _] |- _ => destruct b | X : context [match ?b with Some _ => _ | None => _ end] |- _ => destruct b end; try (injection PS as <- <- <-; eauto). }
      destruct S as [->|[(v & ->)|(b & ->)]]; exact HC.
  - destruct (nth_error cs j) as [[f pc]|] eqn:N; [|discriminate]. destruct f; try discriminate. destruct pc; try discriminate. injection E as <- <-. split; [exact H|].
    unfold mst_at in *. cbn [y_cs app] in *. rewrite nth_repl, N in HC. destruct (Nat.eqb_spec i j) as [->|D]; [rewrite N|]; exact HC.
  - destruct (nth_error cs j) as [c|] eqn:N; [|discriminate]. destruct (mstep B spur j c m) as [((c' & m') & o1)|] eqn:MS; [|discriminate]. injection E as <- <-.
    pose proof (mstep_obs _ _ _ _ _ _ _ MS) as K. unfold mst_at in *. cbn [y_cs app] in *. rewrite nth_repl, N in HC. destruct (Nat.eqb_spec i j) as [->|D].
    + rewrite N. destruct K as [(-> & K)|[(v & -> & K1 & K2)|[(-> & K1 & K2)|(r & -> & K1 & K2)]]]; cbn [app proto cproto]; rewrite ?Nat.eqb_refl; (split; [exact H|]); rewrite <- ?K, <- ?K1, <- ?K2; auto.
    + assert (N1 : (j =? i) = false) by (apply Nat.eqb_neq; congruence).
      destruct K as [(-> & K)|[(v & -> & K1 & K2)|[(-> & K1 & K2)|(r & -> & K1 & K2)]]]; cbn [app proto cproto]; rewrite ?N1; auto.
Qed.

Lemma mproto_run evs : forall s s' o, yrun B evs s = Some (s', o) -> forall i, proto i (mpst_at s i) o /\ cproto i (mst_at s i) o.
Proof.
  induction evs as [|ev evs IH]; cbn [yrun]; intros s s' o E i; [injection E as <- <-; split; exact I|].
  destruct (ystep B ev s) as [(s1 & o1)|] eqn:QS; [|discriminate]. destruct (yrun B evs s1) as [(s2 & o2)|] eqn:QR; [|discriminate]. injection E as <- <-.
  apply (mproto_step _ _ _ _ _ _ QS). apply (IH _ _ _ QR).
Qed.

Lemma mi_init k np nc : MI (msys0 d k np nc) [].
Proof.
  exists nc. cbn [msys0 y_m y_ps y_cs]. split; [intros j c D N; apply nth_error_In, repeat_spec in N; exact N|].
  assert (X : nth nc (repeat (mkM FIdle MReady) nc) idle = idle). { apply nth_overflow. rewrite repeat_length. lia. }
  rewrite X. split; [exact I|]. split; [intros p J; apply repeat_spec in J; subst p; split; [reflexivity|intros u Y; contradiction]|].
  destruct (si_init B HB d k (S np)) as (C & L & val & H & CO). exists C, L, val. split; [exact H|exact CO].
Qed.
End MPMC.

(** ** C38: MPMC queue is a FIFO.

    Refuted for consumers in parallel.  A consumer that has loaded [head] and
    not yet taken its reference (202-203) may find, when it goes on, that the
    block is a new one: emptied, recycled and appended again at the end.  It
    holds a reference then, but nothing tells it that the block is not the
    first any more (209-231 compare only the positions within the block). *)

Definition ye i v n : list (mev nat) := YEnq i v false :: repeat (YProd i false) n.
Definition yd i n : list (mev nat) := YDeq i :: repeat (YCons i false) n.

(** Enqueue 10, 11, 12; consumer 0 loads [head]; consumer 1 dequeues 10 and 11. *)
Definition C38_begin : list (mev nat) := ye 0 10 10 ++ ye 0 11 31 ++ ye 0 12 31.
Definition C38_load : list (mev nat) := YDeq 0 :: [YCons 0 false].
Definition C38_others : list (mev nat) := yd 1 11 ++ yd 1 27.

(** One producer enqueues 10, 11, 12, 13, each call returning true before the
    next one is made.  13 has been returned before the call that returns 12
    is made. *)
Theorem C38_order_refuted : exists evs s o last s' o',
  yrun 1 evs (msys0 0 2 1 2) = Some (s, o) /\ (forall c, In c (y_cs s) -> c = mkM FIdle MReady)
  /\ enqueued o = [10; 11; 12; 13] /\ dequeued o = [10; 11; 13] /\ In (ORetE 0 true) o /\ In (ORetD 0 (Some 13)) o
  /\ yrun 1 last s = Some (s', o') /\ o' = [ODeq 1 12; ORetD 1 (Some 12)] /\ forall l, ~ hist [] o l.
Proof.
  set (evs := C38_begin ++ C38_load ++ C38_others ++ ye 0 13 31 ++ repeat (YCons 0 false) 10).
  destruct (yrun 1 evs (msys0 0 2 1 2)) as [(s & o)|] eqn:E; [|vm_compute in E; discriminate].
  destruct (yrun 1 (yd 1 27) s) as [(s' & o')|] eqn:E'.
  - assert (EO : Some o = option_map snd (yrun 1 evs (msys0 0 2 1 2))) by (rewrite E; reflexivity). vm_compute in EO. injection EO as EO.
    assert (ES : option_map (fun x => y_cs (fst x)) (yrun 1 evs (msys0 0 2 1 2)) = Some [mkM FIdle MReady; mkM FIdle MReady]) by (vm_compute; reflexivity). rewrite E in ES. cbn [option_map fst] in ES. injection ES as ES.
    assert (EO' : Some o' = option_map snd (match yrun 1 evs (msys0 0 2 1 2) with Some (s, _) => yrun 1 (yd 1 27) s | None => None end)) by (rewrite E, E'; reflexivity). vm_compute in EO'. injection EO' as EO'.
    exists evs, s, o, (yd 1 27), s', o'. split; [exact E|]. split; [rewrite ES; intros c [<-|[<-|[]]]; reflexivity|]. split; [subst o; reflexivity|]. split; [subst o; reflexivity|].
    split; [subst o; cbn; tauto|]. split; [subst o; cbn; tauto|]. split; [exact E'|]. split; [exact EO'|].
    intros l. subst o. cbn. intros (l1 & X1 & l2 & X2 & l3 & X3 & _). injection X1 as <-. injection X2 as <-. discriminate X3.
  - assert (Y : None = match yrun 1 evs (msys0 0 2 1 2) with Some (s, _) => yrun 1 (yd 1 27) s | None => None end) by (rewrite E, E'; reflexivity). vm_compute in Y. discriminate.
Qed.
Print Assumptions C38_order_refuted.

(** The producer is stopped just before it takes its place in the block that it
    has appended: now consumer 0 reports "empty" although from its call to its
    return there are more elements enqueued than dequeued. *)
Theorem C38_empty_refuted : exists before during s1 o1 s2 o2,
  yrun 1 before (msys0 0 2 1 2) = Some (s1, o1) /\ yrun 1 (YDeq 0 :: during) s1 = Some (s2, o2) /\ In (ORetD 0 None) o2
  /\ forall n, length (dequeued (o1 ++ firstn n o2)) < length (enqueued (o1 ++ firstn n o2)).
Proof.
  set (dur := YCons 0 false :: C38_others ++ ye 0 13 26 ++ repeat (YCons 0 false) 6).
  destruct (yrun 1 C38_begin (msys0 0 2 1 2)) as [(s & o)|] eqn:E; [|vm_compute in E; discriminate].
  destruct (yrun 1 (YDeq 0 :: dur) s) as [(s' & o')|] eqn:E'.
  - assert (EO : Some o = option_map snd (yrun 1 C38_begin (msys0 0 2 1 2))) by (rewrite E; reflexivity). vm_compute in EO. injection EO as EO.
    assert (EO' : Some o' = option_map snd (match yrun 1 C38_begin (msys0 0 2 1 2) with Some (s, _) => yrun 1 (YDeq 0 :: dur) s | None => None end)) by (rewrite E, E'; reflexivity). vm_compute in EO'. injection EO' as EO'.
    exists C38_begin, dur, s, o, s', o'. split; [exact E|]. split; [exact E'|]. split; [subst o'; cbn; tauto|].
    intros n. subst o o'. do 8 (destruct n as [|n]; [vm_compute; lia|]). cbn [firstn]. destruct n; vm_compute; lia.
  - assert (Y : None = match yrun 1 C38_begin (msys0 0 2 1 2) with Some (s, _) => yrun 1 (YDeq 0 :: dur) s | None => None end) by (rewrite E, E'; reflexivity). vm_compute in Y. discriminate.
Qed.
Print Assumptions C38_empty_refuted.

(** Proved for consumers that take turns (no call of try_dequeue while another
    is in progress; producers as they like): whatever the interleaving, the
    block size and the size of the pool, the effects are those of a list,
    "empty" meaning empty, and every call has one effect, which is what it
    returns. *)
Theorem C38_turns_partial : forall V B (dflt : V) k np nc evs s o, 0 < B -> forallb ybounded evs = true -> alone B evs (msys0 dflt k np nc) ->
  yrun B evs (msys0 dflt k np nc) = Some (s, o) -> (exists l, hist [] o l) /\ forall i, proto i PIdle o /\ cproto i CIdle o.
Proof.
  intros V B dflt k np nc evs s o HB BD AL E. split.
  - destruct (yrun_inv B HB dflt evs _ _ _ [] E (mi_init B HB dflt k np nc) BD AL) as (l & _ & HI). exists l. exact HI.
  - intros i. pose proof (mproto_run B evs _ _ _ E i) as (X & Y). unfold mpst_at, mst_at in *. cbn [msys0 y_ps y_cs] in *. split.
    + destruct (nth_error (repeat _ np) i) as [p|] eqn:N; [|exact X]. apply nth_error_In, repeat_spec in N. subst p. exact X.
    + destruct (nth_error (repeat _ nc) i) as [p|] eqn:N; [|exact Y]. apply nth_error_In, repeat_spec in N. subst p. exact Y.
Qed.
Print Assumptions C38_turns_partial.

(** Two consumers taking turns while the producer is appending a block. *)
Definition C38_turns : list (mev nat) := C38_begin ++ yd 1 11 ++ yd 0 27 ++ ye 0 13 17 ++ yd 1 27 ++ yd 0 19 ++ repeat (YProd 0 false) 18 ++ yd 0 11 ++ yd 1 8.
Example C38_nonvacuous : alone 1 C38_turns (msys0 0 2 1 2) /\ forallb ybounded C38_turns = true
  /\ option_map snd (yrun 1 C38_turns (msys0 0 2 1 2)) =
     Some [OCall 0 10; OEnq 0 10; ORetE 0 true; OCall 0 11; OEnq 0 11; ORetE 0 true; OCall 0 12; OEnq 0 12; ORetE 0 true;
           ODeq 1 10; ORetD 1 (Some 10); ODeq 0 11; ORetD 0 (Some 11); OCall 0 13; ODeq 1 12; ORetD 1 (Some 12); OEmpty 0; ORetD 0 None;
           OEnq 0 13; ORetE 0 true; ODeq 0 13; ORetD 0 (Some 13); OEmpty 1; ORetD 1 None].
Proof.
  split; [|split; vm_compute; reflexivity]. vm_compute.
  repeat match goal with |- True => exact I | |- _ /\ _ => split | |- forall c, _ \/ _ -> _ => intros c [<-|[<-|[]]]; reflexivity end.
Qed.

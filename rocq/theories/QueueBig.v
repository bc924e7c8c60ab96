(** The livelock of QueueLive for every block size, in particular that of the
    code (queue.h 90: 4096): the run of C147_evs, with blocks filled and emptied by
    calls that run alone. *)
From Coq Require Import Arith Bool List Lia.
From Verif Require Import QueueModel QueueSpec QueueProofs QueueProps QueueSeq QueueDelModel QueueDelProps QueueOne QueueLive.
Import ListNotations.

(** Memories that agree at every place; states of such memories. *)
Definition meq (m m' : qmem nat) : Prop :=
  (f_top (q_fl m) = f_top (q_fl m') /\ (forall u, f_next (q_fl m) u = f_next (q_fl m') u) /\ (forall u, f_rc (q_fl m) u = f_rc (q_fl m') u))
  /\ q_n m = q_n m' /\ (forall u, q_freed m u = q_freed m' u) /\ (forall u, q_bh m u = q_bh m' u) /\ (forall u, q_bt m u = q_bt m' u)
  /\ (forall u, q_bnext m u = q_bnext m' u) /\ (forall u j, q_el m u j = q_el m' u j) /\ (forall u j, q_av m u j = q_av m' u j) /\ q_hd m = q_hd m' /\ q_tl m = q_tl m'.
Definition seq (s s' : sys nat) : Prop := meq (s_m s) (s_m s') /\ s_ps s = s_ps s' /\ s_c s = s_c s'.

Lemma meq_refl m : meq m m.
Proof. unfold meq. repeat split. Qed.
Lemma seq_refl s : seq s s.
Proof. split; [apply meq_refl|auto]. Qed.
Lemma meq_trans a b c : meq a b -> meq b c -> meq a c.
Proof. unfold meq. intros ((A0 & A1 & A2) & A3 & A4 & A5 & A6 & A7 & A8 & A9 & A10 & A11) ((B0 & B1 & B2) & B3 & B4 & B5 & B6 & B7 & B8 & B9 & B10 & B11). repeat split; intros; etransitivity; eauto. Qed.
Lemma seq_trans a b c : seq a b -> seq b c -> seq a c.
Proof. intros (A & B & C) (D & E & F). split; [apply (meq_trans _ _ _ A D)|split; etransitivity; eauto]. Qed.

Lemma fstep_meq spur p f f' : f_top f = f_top f' -> (forall u, f_next f u = f_next f' u) -> (forall u, f_rc f u = f_rc f' u) ->
  match fstep spur p f, fstep spur p f' with
  | Some (q, g), Some (q', g') => q = q' /\ f_top g = f_top g' /\ (forall u, f_next g u = f_next g' u) /\ (forall u, f_rc g u = f_rc g' u)
  | None, None => True
  | _, _ => False
  end.
Proof.
  destruct f as [t n r], f' as [t' n' r']. cbn [f_top f_next f_rc]. intros -> N R.
  destruct p as [|u k|u k|u z k|u z k|u k| |u|u c|u|u nv| |]; cbn [fstep]; auto; rewrite ?R, ?N;
  repeat match goal with |- context [if ?b then _ else _] => destruct b | |- context [match ?b with None => _ | Some _ => _ end] => destruct b end; cbn [f_top f_next f_rc];
  repeat (split; [reflexivity || assumption|]); try assumption; try (intros v; unfold fset; rewrite ?R; destruct (_ =? _); auto);
  split; intros v; unfold fset; try destruct (_ =? _); auto.
Qed.

Ltac fsolve := unfold meq, set_rc, set_fl, set_freed, set_bh, set_bt, set_bnext, set_el, set_av, set_hd, set_tl; cbn [q_fl q_n q_freed q_bh q_bt q_bnext q_el q_av q_hd q_tl f_top f_next f_rc];
  repeat split; intros; unfold fset; repeat match goal with |- context [?a =? ?b] => destruct (a =? b) end; auto.

Section Cong.
Variable B : nat.

Lemma pstep_meq spur i p m m' : meq m m' ->
  match pstep B spur i p m, pstep B spur i p m' with
  | Some (q, n, o), Some (q', n', o') => q = q' /\ meq n n' /\ o = o'
  | None, None => True
  | _, _ => False
  end.
Proof.
  destruct m as [[t n r] qn fr bh bt bn el av hd tl], m' as [[t' n' r'] qn' fr' bh' bt' bn' el' av' hd' tl']. intros M. destruct M as ((M0 & M1 & M2) & M3 & M4 & M5 & M6 & M7 & M8 & M9 & M10 & M11).
  cbn [q_fl q_n q_freed q_bh q_bt q_bnext q_el q_av q_hd q_tl f_top f_next f_rc] in *. subst.
  destruct p as [f pc v unb]. destruct f; cbn [pstep q_fl];
  try (match goal with |- match match fstep ?a ?b ?c with _ => _ end with _ => _ end => pose proof (fstep_meq a b c (mkFl t' n' r') eq_refl M1 M2) as FE; destruct (fstep a b c) as [(q & [g0 g1 g2])|], (fstep a b (mkFl t' n' r')) as [(q' & [h0 h1 h2])|]; try contradiction; [|exact I];
       destruct FE as (-> & F0 & F1 & F2); cbn [f_top f_next f_rc] in *; subst; split; [reflexivity|]; split; [fsolve|reflexivity] end);
  destruct pc; auto; unfold alloc, rc; cbn [q_fl q_n q_freed q_bh q_bt q_bnext q_el q_av q_hd q_tl f_top f_next f_rc]; rewrite ?M2, ?M4, ?M6, ?M7;
  repeat match goal with |- context [if ?b then _ else _] => match type of b with bool => destruct b end | |- context [match bn' ?x with None => _ | Some _ => _ end] => destruct (bn' x) | r0 : option nat |- _ => destruct r0 end;
  try (split; [reflexivity|]; split; [|reflexivity]; fsolve).
Qed.

Lemma cstep_meq spur c m m' : meq m m' ->
  match cstep B spur c m, cstep B spur c m' with
  | Some (q, n, o), Some (q', n', o') => q = q' /\ meq n n' /\ o = o'
  | None, None => True
  | _, _ => False
  end.
Proof.
  destruct m as [[t n r] qn fr bh bt bn el av hd tl], m' as [[t' n' r'] qn' fr' bh' bt' bn' el' av' hd' tl']. intros M. destruct M as ((M0 & M1 & M2) & M3 & M4 & M5 & M6 & M7 & M8 & M9 & M10 & M11).
  cbn [q_fl q_n q_freed q_bh q_bt q_bnext q_el q_av q_hd q_tl f_top f_next f_rc] in *. subst.
  destruct c as [f pc]. destruct f; cbn [cstep q_fl];
  try (match goal with |- match match fstep ?a ?b ?c with _ => _ end with _ => _ end => pose proof (fstep_meq a b c (mkFl t' n' r') eq_refl M1 M2) as FE; destruct (fstep a b c) as [(q & [g0 g1 g2])|], (fstep a b (mkFl t' n' r')) as [(q' & [h0 h1 h2])|]; try contradiction; [|exact I];
       destruct FE as (-> & F0 & F1 & F2); cbn [f_top f_next f_rc] in *; subst; split; [reflexivity|]; split; [fsolve|reflexivity] end);
  destruct pc; auto; unfold alloc, rc; cbn [q_fl q_n q_freed q_bh q_bt q_bnext q_el q_av q_hd q_tl f_top f_next f_rc]; rewrite ?M2, ?M4, ?M5, ?M6, ?M7, ?M8, ?M9;
  repeat match goal with |- context [if ?b then _ else _] => match type of b with bool => destruct b end | |- context [match bn' ?x with None => _ | Some _ => _ end] => destruct (bn' x) | r0 : option nat |- _ => destruct r0 end;
  try (split; [reflexivity|]; split; [|reflexivity]; fsolve).
Qed.

Lemma qstep_seq ev s s' t o : seq s s' -> qstep B ev s = Some (t, o) -> exists t', qstep B ev s' = Some (t', o) /\ seq t t'.
Proof.
  destruct s as [m ps c], s' as [m' ps' c']. intros (M & P & C) E. cbn [s_m s_ps s_c] in *. subst ps' c'. destruct ev as [i v unb|i spur| |v|spur]; cbn [qstep] in *.
  - destruct (nth_error ps i) as [[f pc v0 u0]|]; [|discriminate]. destruct f; try discriminate. destruct pc; try discriminate. injection E as <- <-. eexists. split; [reflexivity|]. split; [exact M|auto].
  - destruct (nth_error ps i) as [p|]; [|discriminate]. pose proof (pstep_meq spur i p m m' M) as X. destruct (pstep B spur i p m) as [((q & n) & o1)|]; [|discriminate]. destruct (pstep B spur i p m') as [((q' & n') & o1')|]; [|contradiction].
    destruct X as (-> & X & ->). injection E as <- <-. eexists. split; [reflexivity|]. split; [exact X|auto].
  - destruct c as [f pc]. destruct f; try discriminate. destruct pc; try discriminate. injection E as <- <-. eexists. split; [reflexivity|]. split; [exact M|auto].
  - destruct c as [f pc]. destruct f; try discriminate. destruct pc; try discriminate. injection E as <- <-. eexists. split; [reflexivity|]. split; [exact M|auto].
  - pose proof (cstep_meq spur c m m' M) as X. destruct (cstep B spur c m) as [((q & n) & o1)|]; [|discriminate]. destruct (cstep B spur c m') as [((q' & n') & o1')|]; [|contradiction].
    destruct X as (-> & X & ->). injection E as <- <-. eexists. split; [reflexivity|]. split; [exact X|auto].
Qed.

Lemma qrun_seq evs : forall s s' t o, seq s s' -> qrun B evs s = Some (t, o) -> exists t', qrun B evs s' = Some (t', o) /\ seq t t'.
Proof.
  induction evs as [|ev evs IH]; intros s s' t o S E; cbn [qrun] in *; [injection E as <- <-; eauto|].
  destruct (qstep B ev s) as [(s1 & o1)|] eqn:Q; [|discriminate]. destruct (qrun B evs s1) as [(s2 & o2)|] eqn:R; [|discriminate]. injection E as <- <-.
  destruct (qstep_seq _ _ _ _ _ S Q) as (s1' & Q' & S'). destruct (IH _ _ _ _ S' R) as (s2' & R' & S2). rewrite Q', R'. eauto.
Qed.

(** There is a run without rewind from s to a state like t. *)
Definition reach (s t : sys nat) : Prop := exists evs s' o, (forall v, ~ In (QRew v) evs) /\ qrun B evs s = Some (s', o) /\ seq s' t.

Lemma seq_sym s t : seq s t -> seq t s.
Proof. unfold seq, meq. intros (((A0 & A1 & A2) & A3 & A4 & A5 & A6 & A7 & A8 & A9 & A10 & A11) & D & E). repeat split; intros; symmetry; auto. Qed.

Lemma reach_trans a b c : reach a b -> reach b c -> reach a c.
Proof.
  intros (e1 & s1 & o1 & N1 & R1 & S1) (e2 & s2 & o2 & N2 & R2 & S2). destruct (qrun_seq _ _ _ _ _ (seq_sym _ _ S1) R2) as (s3 & R3 & S3).
  exists (e1 ++ e2), s3, (o1 ++ o2). split; [intros v X; apply in_app_or in X; destruct X as [X|X]; [exact (N1 v X)|exact (N2 v X)]|]. split; [|apply (seq_trans _ s2); [apply seq_sym; exact S3|exact S2]].
  clear -R1 R3. revert a s1 o1 R1 R3. induction e1 as [|ev e1 IH]; cbn [qrun app]; intros a s1 o1 P Q; [injection P as <- <-; exact Q|]. destruct (qstep B ev a) as [(x1 & o0)|]; [|discriminate]. destruct (qrun B e1 x1) as [(x2 & o2')|] eqn:A; [|discriminate]. injection P as <- <-.
  rewrite (IH x1 _ _ A Q). rewrite app_assoc. reflexivity.
Qed.

Lemma reach_seq a b c : reach a b -> seq b c -> reach a c.
Proof. intros (e & s & o & N & R & S) T. exists e, s, o. split; [exact N|]. split; [exact R|apply (seq_trans _ b); assumption]. Qed.

Lemma reach_refl a : reach a a.
Proof. exists [], a, []. split; [intros v []|]. split; [reflexivity|apply seq_refl]. Qed.

Lemma reach_cons ev a a1 o b : (forall v, ev <> QRew v) -> qstep B ev a = Some (a1, o) -> reach a1 b -> reach a b.
Proof. intros W Q (e & s & o' & N & R & S). exists (ev :: e), s, (o ++ o'). split; [intros v [X|X]; [exact (W v X)|exact (N v X)]|]. cbn [qrun]. rewrite Q, R. auto. Qed.
End Cong.

(** Model only: a memory with other flags. *)
Definition w_av (av : nat -> nat -> bool) (m : qmem nat) : qmem nat := mkQ (q_fl m) (q_n m) (q_freed m) (q_bh m) (q_bt m) (q_bnext m) (q_el m) av (q_hd m) (q_tl m).

(** Two memories are pointwise equal: one goal for each component. *)
Ltac meqs := split; [|split; reflexivity]; cbn [s_m]; unfold meq; repeat split; intros; cbn [w_av set_rc set_fl set_freed set_bh set_bt set_bnext set_el set_av set_hd set_tl q_fl q_n q_freed q_bh q_bt q_bnext q_el q_av q_hd q_tl f_top f_next f_rc].

Definition idle : prod nat := mkP FIdle PReady 0 true.

Section Big.
Variable b : nat.
Notation B := (S b).
Notation reach := (reach B).

Ltac pt := eapply (reach_cons B (QProd 0 false)); [discriminate| |].
Ltac ct := eapply (reach_cons B (QCons false)); [discriminate| |].

(** Producer 0 puts one value into the last block, undisturbed. *)
Lemma enq1 m p1 c t r k : q_tl m = t -> rc m t = S r -> q_freed m t = false -> q_bt m t = k -> k < B -> (forall u j, q_el m u j = 0) ->
  reach (mkSys m [idle; p1] c) (mkSys (set_av t k true (set_bt t (k + 1) m)) [idle; p1] c).
Proof.
  destruct m as [[top nx rcs] qn fr bh bt bn el av hd tl]. unfold rc. cbn [q_fl q_n q_freed q_bh q_bt q_bnext q_el q_av q_hd q_tl f_top f_next f_rc]. intros -> R F K L E.
  eapply (reach_cons B (QEnq 0 0 true)); [discriminate|reflexivity|].
  pt; [reflexivity|]. cbn [repl q_tl].
  pt; [cbn [qstep nth_error pstep]; unfold rc; cbn [q_fl f_rc]; rewrite R; reflexivity|]. cbn [repl Nat.eqb].
  pt; [cbn [qstep nth_error pstep]; unfold rc; cbn [q_fl f_rc]; rewrite R, Nat.eqb_refl; reflexivity|]. cbn [repl].
  pt; [cbn [qstep nth_error pstep q_freed set_rc set_fl]; rewrite F; reflexivity|]. cbn [repl].
  pt; [cbn [qstep nth_error pstep q_bt set_rc set_fl]; rewrite K; destruct (Nat.leb_spec B k); [lia|]; reflexivity|]. cbn [repl].
  pt; [cbn [qstep nth_error pstep q_bt set_rc set_fl]; rewrite K, Nat.eqb_refl; reflexivity|]. cbn [repl].
  pt; [reflexivity|]. cbn [repl].
  pt; [reflexivity|]. cbn [repl].
  pt; [cbn [qstep nth_error pstep fstep set_rc set_fl set_bt set_el set_av q_fl q_n q_freed q_bh q_bt q_bnext q_el q_av q_hd q_tl f_top f_next f_rc]; replace (fset rcs t (S r + 1) t =? 1) with false by (unfold fset; rewrite Nat.eqb_refl; symmetry; apply Nat.eqb_neq; lia); reflexivity|]. cbn [repl fin].
  pt; [reflexivity|]. cbn [repl].
  apply (reach_seq B _ _ _ (reach_refl B _)). meqs; unfold fset; repeat match goal with |- context [?x =? ?y] => destruct (Nat.eqb_spec x y) end; subst; rewrite ?E; auto; try lia.
Qed.

(** ... and n values. *)
Definition avs (t k n : nat) (av : nat -> nat -> bool) : nat -> nat -> bool := fun u j => if (u =? t) && (k <=? j) && (j <? k + n) then true else av u j.

Lemma fill n : forall m p1 c t r k, q_tl m = t -> rc m t = S r -> q_freed m t = false -> q_bt m t = k -> k + n <= B -> (forall u j, q_el m u j = 0) ->
  reach (mkSys m [idle; p1] c) (mkSys (w_av (avs t k n (q_av m)) (set_bt t (k + n) m)) [idle; p1] c).
Proof.
  induction n as [|n IH]; intros m p1 c t r k T R F K L E.
  - apply (reach_seq B _ _ _ (reach_refl B _)). meqs; unfold fset, avs; try reflexivity.
    + destruct (Nat.eqb_spec u t); [subst; lia|reflexivity].
    + destruct (Nat.leb_spec k j), (Nat.ltb_spec j (k + 0)); rewrite ?andb_false_r; try reflexivity; lia.
  - eapply reach_trans; [apply (enq1 m p1 c t r k T R F K ltac:(lia) E)|].
    eapply reach_seq; [apply (IH (set_av t k true (set_bt t (k + 1) m)) p1 c t r (k + 1))|]; try assumption; try lia.
    + cbn [q_bt set_av set_bt]. unfold fset. rewrite Nat.eqb_refl. reflexivity.
    + meqs; unfold fset, avs; try reflexivity.
      * destruct (Nat.eqb_spec u t); [lia|reflexivity].
      * destruct (Nat.eqb_spec u t); [|reflexivity]. subst u. cbn [andb]. destruct (Nat.eqb_spec j k); destruct (Nat.leb_spec (k + 1) j), (Nat.leb_spec k j), (Nat.ltb_spec j (k + 1 + n)), (Nat.ltb_spec j (k + S n)); try reflexivity; try lia.
Qed.

(** The consumer takes one value from the first block, undisturbed. *)
Definition cidle : cons nat := mkC FIdle CReady.
Lemma deq1 m ps h k : q_hd m = h -> q_bh m h = k -> k < q_bt m h -> q_av m h k = true -> reach (mkSys m ps cidle) (mkSys (set_av h k false (set_bh h (k + 1) m)) ps cidle).
Proof.
  destruct m as [[top nx rcs] qn fr bh bt bn el av hd tl]. cbn [q_fl q_n q_freed q_bh q_bt q_bnext q_el q_av q_hd q_tl f_top f_next f_rc]. intros -> K L A.
  eapply (reach_cons B QDeq); [discriminate|reflexivity|].
  ct; [cbn [qstep cstep q_hd q_bt q_bh]; rewrite K; destruct (Nat.leb_spec (bt h) k); [lia|]; reflexivity|].
  ct; [reflexivity|].
  ct; [cbn [qstep cstep q_av set_bh]; rewrite A; reflexivity|].
  ct; [reflexivity|]. ct; [reflexivity|]. apply reach_refl.
Qed.

Definition avc (t k n : nat) (av : nat -> nat -> bool) : nat -> nat -> bool := fun u j => if (u =? t) && (k <=? j) && (j <? k + n) then false else av u j.
Lemma drain n : forall m ps h k, q_hd m = h -> q_bh m h = k -> k + n <= q_bt m h -> (forall j, k <= j < k + n -> q_av m h j = true) ->
  reach (mkSys m ps cidle) (mkSys (w_av (avc h k n (q_av m)) (set_bh h (k + n) m)) ps cidle).
Proof.
  induction n as [|n IH]; intros m ps h k H K L A.
  - apply (reach_seq B _ _ _ (reach_refl B _)). meqs; unfold fset, avc; try reflexivity.
    + destruct (Nat.eqb_spec u h); [subst; lia|reflexivity].
    + destruct (Nat.leb_spec k j), (Nat.ltb_spec j (k + 0)); rewrite ?andb_false_r; try reflexivity; lia.
  - eapply reach_trans; [apply (deq1 m ps h k H K ltac:(lia))|]; [apply A; lia|].
    eapply reach_seq; [apply (IH (set_av h k false (set_bh h (k + 1) m)) ps h (k + 1))|]; try assumption.
    + cbn [q_bh set_av set_bh]. unfold fset. rewrite Nat.eqb_refl. reflexivity.
    + cbn [q_bt set_av set_bh]. lia.
    + intros j J. cbn [q_av set_av set_bh]. unfold fset. rewrite Nat.eqb_refl. destruct (Nat.eqb_spec j k); [lia|]. apply A. lia.
    + meqs; unfold fset, avc; try reflexivity.
      * destruct (Nat.eqb_spec u h); [lia|reflexivity].
      * destruct (Nat.eqb_spec u h); [|reflexivity]. subst u. cbn [andb]. destruct (Nat.eqb_spec j k); destruct (Nat.leb_spec (k + 1) j), (Nat.leb_spec k j), (Nat.ltb_spec j (k + 1 + n)), (Nat.ltb_spec j (k + S n)); try reflexivity; try lia.
Qed.

(** Tables with an entry for each of the first three blocks. *)
Definition tb {X} (d a0 a1 a2 : X) (u : nat) : X := match u with 0 => a0 | 1 => a1 | 2 => a2 | _ => d end.
Arguments tb {X} d a0 a1 a2 !u /.
Arguments fset {X} f k v j /.
Definition rg (lo hi j : nat) : bool := (lo <=? j) && (j <? hi).
Definition no : nat -> bool := fun _ => false.
Definition mm top nx rcs n fr bh bt bn av hd tl : qmem nat := mkQ (mkFl top nx rcs) n fr bh bt bn (fun _ _ => 0) av hd tl.

Lemma ltb0 : (0 <? B) = true.
Proof. reflexivity. Qed.

Ltac red_ := cbn [mm qstep nth_error repl pstep cstep fstep fin alloc rc set_rc set_fl set_freed set_bh set_bt set_bnext set_el set_av set_hd set_tl q_fl q_n q_freed q_bh q_bt q_bnext q_el q_av q_hd q_tl f_top f_next f_rc fset tb rg Nat.eqb Nat.leb Nat.sub Nat.add oeqb andb negb no].
Ltac nrm := red_; do 3 (rewrite ?Nat.leb_refl, ?Nat.ltb_irrefl, ?ltb0; red_).
Ltac go1 e := eapply (reach_cons B e); [discriminate|nrm; reflexivity|]; nrm.
Ltac pp i := go1 (@QProd nat i false).
Ltac cc := go1 (@QCons nat false).
Ltac blocks u := destruct u as [|[|[|u]]]; try reflexivity.
Ltac done_ := apply (reach_seq B _ _ _ (reach_refl B _)); split; [|split; reflexivity]; cbn [s_m]; refine (conj (conj _ (conj _ _)) (conj _ (conj _ (conj _ (conj _ (conj _ (conj _ (conj _ (conj _ _)))))))));
  first [reflexivity | intros [|[|[|?]]]; reflexivity | intros [|[|[|?]]] [|?]; reflexivity].
Ltac bools := repeat match goal with |- context [?x <=? ?y] => destruct (Nat.leb_spec x y) | |- context [?x <? ?y] => destruct (Nat.ltb_spec x y) end; cbn [andb]; try reflexivity; try lia.
Ltac pieces := split; [|split; reflexivity]; cbn [s_m]; refine (conj (conj _ (conj _ _)) (conj _ (conj _ (conj _ (conj _ (conj _ (conj _ (conj _ (conj _ _)))))))));
  first [reflexivity | intros [|[|[|?]]]; reflexivity | intros [|[|[|?]]] j; first [reflexivity | unfold mm; unfold avs, avc; cbn [w_av q_av tb Nat.eqb andb]; unfold rg, no; bools]].
Ltac fills n t r k := eapply reach_seq; [apply (fill n _ _ _ t r k); try reflexivity; lia|]; pieces.
Ltac drains n h k := eapply reach_seq; [apply (drain n _ _ h k); [reflexivity|reflexivity|cbn; lia|intros j J; unfold mm, rg; cbn [q_av tb]; bools]|]; pieces.

(** The states in which the phases below end. *)
Definition s1 : sys nat := mkSys (mm None (tb None None None None) (tb 0 2 0 0) 1 (tb false false false false) (tb 0 0 0 0) (tb 0 0 0 0) (tb None None None None) (tb no no no no) 0 0) [{| p_f := FIdle; p_m := P9 0 0; p_v := 0; p_unb := true |}; {| p_f := FIdle; p_m := PReady; p_v := 0; p_unb := false |}] cidle.
Definition s2 : sys nat := mkSys (mm None (tb None None None None) (tb 0 1 0 0) 1 (tb false false false false) (tb 0 0 0 0) (tb 0 1 0 0) (tb None None None None) (tb no (rg 0 1) no no) 0 0) [idle; {| p_f := FIdle; p_m := PReady; p_v := 0; p_unb := false |}] cidle.
Definition s3 : sys nat := mkSys (mm None (tb None None None None) (tb 0 1 0 0) 1 (tb false false false false) (tb 0 0 0 0) (tb 0 B 0 0) (tb None None None None) (tb no (rg 0 B) no no) 0 0) [idle; {| p_f := FIdle; p_m := PReady; p_v := 0; p_unb := false |}] cidle.
Definition s4 : sys nat := mkSys (mm None (tb None None None None) (tb 0 2 0 0) 1 (tb false false false false) (tb 0 0 0 0) (tb 0 B 0 0) (tb None None None None) (tb no (rg 0 B) no no) 0 0) [idle; {| p_f := FIdle; p_m := P5 0; p_v := 0; p_unb := true |}] cidle.
Definition s5 : sys nat := mkSys (mm None (tb None None None None) (tb 0 2 1 0) 2 (tb false false false false) (tb 0 0 0 0) (tb 0 B 0 0) (tb None None None None) (tb no (rg 0 B) no no) 0 0) [idle; {| p_f := FIdle; p_m := P7c 0 1; p_v := 0; p_unb := true |}] cidle.
Definition s6 : sys nat := mkSys (mm None (tb None None None None) (tb 0 2 1 0) 2 (tb false false false false) (tb 0 0 0 0) (tb 0 B 0 0) (tb None (Some 1) None None) (tb no (rg 0 B) no no) 0 1) [idle; {| p_f := FIdle; p_m := P8b 0 1; p_v := 0; p_unb := true |}] cidle.
Definition s7 : sys nat := mkSys (mm None (tb None None None None) (tb 0 2 1 0) 2 (tb false false false false) (tb 0 0 0 0) (tb 0 B B 0) (tb None (Some 1) None None) (tb no (rg 0 B) (rg 0 B) no) 0 1) [idle; {| p_f := FIdle; p_m := P8b 0 1; p_v := 0; p_unb := true |}] cidle.
Definition s8 : sys nat := mkSys (mm None (tb None None None None) (tb 0 2 2 0) 2 (tb false false false false) (tb 0 0 0 0) (tb 0 B B 0) (tb None (Some 1) None None) (tb no (rg 0 B) (rg 0 B) no) 0 1) [{| p_f := FIdle; p_m := P5 1; p_v := 0; p_unb := true |}; {| p_f := FIdle; p_m := P8b 0 1; p_v := 0; p_unb := true |}] cidle.
Definition s9 : sys nat := mkSys (mm None (tb None None None None) (tb 0 2 2 1) 3 (tb false false false false) (tb 0 0 0 0) (tb 0 B B 0) (tb None (Some 1) None None) (tb no (rg 0 B) (rg 0 B) no) 0 1) [{| p_f := FIdle; p_m := P7c 1 2; p_v := 0; p_unb := true |}; {| p_f := FIdle; p_m := P8b 0 1; p_v := 0; p_unb := true |}] cidle.
Definition s10 : sys nat := mkSys (mm None (tb None None None None) (tb 0 2 2 1) 3 (tb false false false false) (tb 0 0 0 0) (tb 0 B B 0) (tb None (Some 1) (Some 2) None) (tb no (rg 0 B) (rg 0 B) no) 0 1) [{| p_f := FIdle; p_m := P8a 1 2; p_v := 0; p_unb := true |}; {| p_f := FIdle; p_m := P8b 0 1; p_v := 0; p_unb := true |}] cidle.
Definition s11 : sys nat := mkSys (mm None (tb None None None None) (tb 0 2 2 1) 3 (tb false false false false) (tb 0 B 0 0) (tb 0 B B 0) (tb None (Some 1) (Some 2) None) (tb no no (rg 0 B) no) 0 1) [{| p_f := FIdle; p_m := P8a 1 2; p_v := 0; p_unb := true |}; {| p_f := FIdle; p_m := P8b 0 1; p_v := 0; p_unb := true |}] cidle.
Definition s12 : sys nat := mkSys (mm None (tb None None None None) (tb 0 1 2 1) 3 (tb false true false false) (tb 0 B 0 0) (tb 0 B B 0) (tb None (Some 1) (Some 2) None) (tb no no (rg 0 B) no) 1 1) [{| p_f := FIdle; p_m := P8a 1 2; p_v := 0; p_unb := true |}; {| p_f := FIdle; p_m := P8b 0 1; p_v := 0; p_unb := true |}] {| c_f := FDone; c_m := WD |}.
Definition s13 : sys nat := mkSys (mm None (tb None None None None) (tb 0 1 2 1) 3 (tb false true false false) (tb 0 B 1 0) (tb 0 B B 0) (tb None (Some 1) (Some 2) None) (tb no no (rg 0 B) no) 1 1) [{| p_f := FIdle; p_m := P8a 1 2; p_v := 0; p_unb := true |}; {| p_f := FIdle; p_m := P8b 0 1; p_v := 0; p_unb := true |}] {| c_f := FIdle; c_m := D7 1 0 0 |}.
Definition s14 : sys nat := mkSys (mm None (tb None None None None) (tb 0 1 2 1) 3 (tb false true false false) (tb 0 B 1 0) (tb 0 B B 0) (tb None (Some 1) (Some 2) None) (tb no no (rg 1 B) no) 1 1) [{| p_f := FIdle; p_m := P8a 1 2; p_v := 0; p_unb := true |}; {| p_f := FIdle; p_m := P8b 0 1; p_v := 0; p_unb := true |}] cidle.
Definition s15 : sys nat := mkSys (mm None (tb None None None None) (tb 0 1 2 1) 3 (tb false true false false) (tb 0 B B 0) (tb 0 B B 0) (tb None (Some 1) (Some 2) None) (tb no no no no) 1 1) [{| p_f := FIdle; p_m := P8a 1 2; p_v := 0; p_unb := true |}; {| p_f := FIdle; p_m := P8b 0 1; p_v := 0; p_unb := true |}] cidle.
Definition s16 : sys nat := mkSys (mm None (tb None None None None) (tb 0 1 1 1) 3 (tb false true true false) (tb 0 B B 0) (tb 0 B B 0) (tb None (Some 1) (Some 2) None) (tb no no no no) 2 1) [{| p_f := FIdle; p_m := P8a 1 2; p_v := 0; p_unb := true |}; {| p_f := FIdle; p_m := P8b 0 1; p_v := 0; p_unb := true |}] {| c_f := FDone; c_m := WD |}.
Definition s17 : sys nat := mkSys (mm None (tb None None None None) (tb 0 1 1 1) 3 (tb false true true false) (tb 0 B B 0) (tb 0 B B 0) (tb None (Some 1) (Some 2) None) (tb no no no no) 2 1) [{| p_f := FIdle; p_m := P8a 1 2; p_v := 0; p_unb := true |}; {| p_f := FIdle; p_m := P8b 0 1; p_v := 0; p_unb := true |}] cidle.
Definition s18 : sys nat := mkSys (mm (Some 0) (tb None None None None) (tb 0 0 1 1) 3 (tb false true false false) (tb 0 B B 0) (tb 0 B B 0) (tb None (Some 1) (Some 2) None) (tb no no no no) 2 1) [{| p_f := FIdle; p_m := P8a 1 2; p_v := 0; p_unb := true |}; {| p_f := RFix 0 KDone; p_m := WRetry; p_v := 0; p_unb := true |}] cidle.
Definition s19 : sys nat := mkSys (mm (Some 0) (tb None None None None) (tb 0 1 1 1) 3 (tb false true false false) (tb 0 B B 0) (tb 0 B B 0) (tb None (Some 1) (Some 2) None) (tb no no no no) 2 1) [{| p_f := FIdle; p_m := P8a 1 2; p_v := 0; p_unb := true |}; {| p_f := FIdle; p_m := P1 1; p_v := 0; p_unb := true |}] cidle.
Definition s20 : sys nat := mkSys (mm (Some 0) (tb None None (Some 0) None) (tb 0 1 0 1) 3 (tb false true false false) (tb 0 B B 0) (tb 0 B B 0) (tb None (Some 1) (Some 2) None) (tb no no no no) 2 2) [{| p_f := RCas 1 (Some 0) KDone; p_m := WRetry; p_v := 0; p_unb := true |}; {| p_f := FIdle; p_m := P1 1; p_v := 0; p_unb := true |}] cidle.
Definition s21 : sys nat := mkSys (mm (Some 1) (tb None None (Some 0) None) (tb 0 1 1 1) 3 (tb false true false false) (tb 0 B B 0) (tb 0 B B 0) (tb None (Some 1) (Some 2) None) (tb no no no no) 2 2) [{| p_f := FIdle; p_m := P2 2 1; p_v := 0; p_unb := true |}; {| p_f := FIdle; p_m := P1 1; p_v := 0; p_unb := true |}] cidle.
Definition s22 : sys nat := mkSys (mm (Some 1) (tb None None (Some 0) None) (tb 0 1 1 2) 3 (tb false true false false) (tb 0 B B 0) (tb 0 B B 1) (tb None (Some 1) (Some 2) None) (tb no no no no) 2 2) [{| p_f := FIdle; p_m := P11 2 0; p_v := 0; p_unb := true |}; {| p_f := FIdle; p_m := P1 1; p_v := 0; p_unb := true |}] cidle.
Definition s23 : sys nat := mkSys (mm (Some 1) (tb None None (Some 0) None) (tb 0 1 1 1) 3 (tb false true false false) (tb 0 B B 0) (tb 0 B B 1) (tb None (Some 1) (Some 2) None) (tb no no no (rg 0 1)) 2 2) [idle; {| p_f := FIdle; p_m := P1 1; p_v := 0; p_unb := true |}] cidle.
Definition s24 : sys nat := mkSys (mm (Some 1) (tb None None (Some 0) None) (tb 0 1 1 1) 3 (tb false true false false) (tb 0 B B 0) (tb 0 B B B) (tb None (Some 1) (Some 2) None) (tb no no no (rg 0 B)) 2 2) [idle; {| p_f := FIdle; p_m := P1 1; p_v := 0; p_unb := true |}] cidle.
Definition s25 : sys nat := mkSys (mm (Some 1) (tb None None (Some 0) None) (tb 0 1 2 1) 3 (tb false true false false) (tb 0 B B 0) (tb 0 B B B) (tb None (Some 1) (Some 2) None) (tb no no no (rg 0 B)) 2 2) [idle; {| p_f := FIdle; p_m := P5 1; p_v := 0; p_unb := true |}] cidle.
Definition s26 : sys nat := mkSys (mm (Some 1) (tb None None (Some 0) None) (tb 0 1 2 2) 3 (tb false true false false) (tb 0 B B 0) (tb 0 B B B) (tb None (Some 1) (Some 2) None) (tb no no no (rg 0 B)) 2 2) [{| p_f := FIdle; p_m := P5 2; p_v := 0; p_unb := true |}; {| p_f := FIdle; p_m := P5 1; p_v := 0; p_unb := true |}] cidle.
Definition s27 : sys nat := mkSys (mm (Some 1) (tb None None (Some 0) None) (tb 0 1 3 2) 3 (tb false true false false) (tb 0 B B 0) (tb 0 B B B) (tb None (Some 1) (Some 2) None) (tb no no no (rg 0 B)) 2 2) [{| p_f := PCas 1 (Some 0); p_m := P6 2; p_v := 0; p_unb := true |}; {| p_f := FIdle; p_m := P5 1; p_v := 0; p_unb := true |}] cidle.
Definition s28 : sys nat := mkSys (mm (Some 0) (tb None None (Some 0) None) (tb 0 1 2 2) 3 (tb false true false false) (tb 0 B 0 0) (tb 0 B 0 B) (tb None (Some 1) (Some 2) None) (tb no no no (rg 0 B)) 2 2) [{| p_f := FIdle; p_m := P7c 2 1; p_v := 0; p_unb := true |}; {| p_f := FIdle; p_m := P5 1; p_v := 0; p_unb := true |}] cidle.
Definition s29 : sys nat := mkSys (mm (Some 0) (tb None None (Some 0) None) (tb 0 1 2 2) 3 (tb false true false false) (tb 0 B 0 0) (tb 0 B 0 B) (tb None (Some 1) None None) (tb no no no (rg 0 B)) 2 2) [{| p_f := FIdle; p_m := P7d 2 1; p_v := 0; p_unb := true |}; {| p_f := FIdle; p_m := P5 1; p_v := 0; p_unb := true |}] cidle.
Definition s30 : sys nat := mkSys (mm (Some 0) (tb None None (Some 0) None) (tb 0 2 2 2) 3 (tb false true false false) (tb 0 B 0 0) (tb 0 B 0 B) (tb None (Some 1) None None) (tb no no no (rg 0 B)) 2 2) [{| p_f := FIdle; p_m := P7d 2 1; p_v := 0; p_unb := true |}; {| p_f := PCas 0 None; p_m := P6 1; p_v := 0; p_unb := true |}] cidle.
Definition s31 : sys nat := mkSys (mm None (tb None None (Some 0) None) (tb 0 1 2 2) 3 (tb false true false false) (tb 0 0 0 0) (tb 0 0 0 B) (tb None (Some 1) None None) (tb no no no (rg 0 B)) 2 2) [{| p_f := FIdle; p_m := P7d 2 1; p_v := 0; p_unb := true |}; {| p_f := FIdle; p_m := P7c 1 0; p_v := 0; p_unb := true |}] cidle.
Definition s32 : sys nat := mkSys (mm None (tb None None (Some 0) None) (tb 0 1 1 2) 3 (tb false false false false) (tb 0 0 0 0) (tb 0 0 0 B) (tb None None (Some 0) None) (tb no no no (rg 0 B)) 2 0) [{| p_f := FIdle; p_m := P7d 2 1; p_v := 0; p_unb := true |}; {| p_f := FDone; p_m := WRetry; p_v := 0; p_unb := true |}] cidle.
Definition s33 : sys nat := mkSys (mm None (tb None None (Some 0) None) (tb 0 2 1 2) 3 (tb false false false false) (tb 0 0 0 0) (tb 0 0 0 B) (tb None None (Some 0) None) (tb no no no (rg 0 B)) 2 0) [{| p_f := FIdle; p_m := P7d 2 1; p_v := 0; p_unb := true |}; {| p_f := FIdle; p_m := P4 0; p_v := 0; p_unb := true |}] cidle.
Definition s34 : sys nat := mkSys (mm None (tb None None (Some 0) None) (tb 0 1 1 2) 3 (tb false false false false) (tb 0 0 0 0) (tb 0 1 0 B) (tb None None (Some 0) None) (tb no (rg 0 1) no (rg 0 B)) 2 0) [{| p_f := FIdle; p_m := P7d 2 1; p_v := 0; p_unb := true |}; {| p_f := FDone; p_m := WTrue; p_v := 0; p_unb := true |}] cidle.
Definition s35 : sys nat := mkSys (mm None (tb None None (Some 0) None) (tb 0 1 1 2) 3 (tb false false false false) (tb 0 0 0 0) (tb 0 1 0 B) (tb None None (Some 0) None) (tb no (rg 0 1) no (rg 0 B)) 2 0) [{| p_f := FIdle; p_m := P7d 2 1; p_v := 0; p_unb := true |}; idle] cidle.
Definition s36 : sys nat := mkSys (mm None (tb None None (Some 0) None) (tb 0 1 1 1) 3 (tb false false false false) (tb 0 0 0 0) (tb 0 1 0 B) (tb None None (Some 0) (Some 1)) (tb no (rg 0 1) no (rg 0 B)) 2 1) [{| p_f := FIdle; p_m := P0; p_v := 0; p_unb := true |}; idle] cidle.
Definition s37 : sys nat := mkSys (mm None (tb None None (Some 0) None) (tb 0 1 2 1) 3 (tb false false false false) (tb 0 0 0 0) (tb 0 1 0 B) (tb None None (Some 0) (Some 1)) (tb no (rg 0 1) no (rg 0 B)) 2 1) [{| p_f := FIdle; p_m := P9 1 0; p_v := 0; p_unb := true |}; idle] cidle.
Definition s38 : sys nat := mkSys (mm None (tb None None (Some 0) None) (tb 0 1 1 1) 3 (tb false false false false) (tb 0 0 0 0) (tb 0 1 1 B) (tb None None (Some 0) (Some 1)) (tb no (rg 0 1) (rg 0 1) (rg 0 B)) 2 1) [idle; idle] cidle.
Definition s39 : sys nat := mkSys (mm None (tb None None (Some 0) None) (tb 0 1 1 1) 3 (tb false false false false) (tb 0 0 0 0) (tb 0 1 B B) (tb None None (Some 0) (Some 1)) (tb no (rg 0 1) (rg 0 B) (rg 0 B)) 2 1) [idle; idle] cidle.

(** Producer 0 enqueues one value. *)
Lemma ph1 : reach (sys0 0 0 2) s1.
Proof. unfold sys0, qmem0, s1, idle, cidle; cbn [repeat Nat.eqb]. go1 (QEnq 0 0 true). pp 0. pp 0. pp 0. pp 0. pp 0. done_. Qed.

Lemma ph2 : reach s1 s2.
Proof. unfold s1, s2, idle, cidle. pp 0. pp 0. pp 0. pp 0. pp 0. done_. Qed.

(** ... and fills block 0. *)
Lemma ph3 : reach s2 s3.
Proof. unfold s2, s3. fills b 0 0 1. Qed.

(** Producer 1 finds it full, links block 1, makes it the last block and is stopped before it clears the mark of block 1. *)
Lemma ph4 : reach s3 s4.
Proof. unfold s3, s4, idle, cidle. go1 (QEnq 1 0 true). pp 1. pp 1. pp 1. pp 1. pp 1. done_. Qed.

Lemma ph5 : reach s4 s5.
Proof. unfold s4, s5, idle, cidle. pp 1. pp 1. pp 1. pp 1. pp 1. done_. Qed.

Lemma ph6 : reach s5 s6.
Proof. unfold s5, s6, idle, cidle. pp 1. pp 1. pp 1. done_. Qed.

(** Producer 0 fills block 1. *)
Lemma ph7 : reach s6 s7.
Proof. unfold s6, s7. fills (S b) 1 0 0. Qed.

(** ... finds it full, links block 2 and is stopped before it makes it the last block. *)
Lemma ph8 : reach s7 s8.
Proof. unfold s7, s8, idle, cidle. go1 (QEnq 0 0 true). pp 0. pp 0. pp 0. pp 0. pp 0. done_. Qed.

Lemma ph9 : reach s8 s9.
Proof. unfold s8, s9, idle, cidle. pp 0. pp 0. pp 0. pp 0. pp 0. done_. Qed.

Lemma ph10 : reach s9 s10.
Proof. unfold s9, s10, idle, cidle. pp 0. pp 0. done_. Qed.

(** The consumer takes all of block 0. *)
Lemma ph11 : reach s10 s11.
Proof. unfold s10, s11. drains (S b) 0 0. Qed.

(** ... goes on to block 1. *)
Lemma ph12 : reach s11 s12.
Proof. unfold s11, s12, idle, cidle. go1 (@QDeq nat). cc. cc. cc. cc. cc. done_. Qed.

Lemma ph13 : reach s12 s13.
Proof. unfold s12, s13, idle, cidle. cc. cc. cc. cc. cc. done_. Qed.

Lemma ph14 : reach s13 s14.
Proof. unfold s13, s14, idle, cidle. cc. done_. Qed.

(** ... takes all of it. *)
Lemma ph15 : reach s14 s15.
Proof. unfold s14, s15. drains b 1 1. Qed.

(** ... frees it and finds block 2 empty. *)
Lemma ph16 : reach s15 s16.
Proof. unfold s15, s16, idle, cidle. go1 (@QDeq nat). cc. cc. cc. cc. cc. done_. Qed.

Lemma ph17 : reach s16 s17.
Proof. unfold s16, s17, idle, cidle. cc. cc. done_. Qed.

(** Producer 1 goes on: its late store unmarks block 1, block 0 goes to the free list, and the last block it reads is block 1. *)
Lemma ph18 : reach s17 s18.
Proof. unfold s17, s18, idle, cidle. pp 1. pp 1. pp 1. pp 1. pp 1. done_. Qed.

Lemma ph19 : reach s18 s19.
Proof. unfold s18, s19, idle, cidle. pp 1. pp 1. pp 1. done_. Qed.

(** Producer 0 goes on: block 2 is the last block, block 1 goes to the free list, one value goes into block 2. *)
Lemma ph20 : reach s19 s20.
Proof. unfold s19, s20, idle, cidle. pp 0. pp 0. pp 0. pp 0. pp 0. done_. Qed.

Lemma ph21 : reach s20 s21.
Proof. unfold s20, s21, idle, cidle. pp 0. pp 0. pp 0. pp 0. pp 0. done_. Qed.

Lemma ph22 : reach s21 s22.
Proof. unfold s21, s22, idle, cidle. pp 0. pp 0. pp 0. pp 0. pp 0. done_. Qed.

Lemma ph23 : reach s22 s23.
Proof. unfold s22, s23, idle, cidle. pp 0. pp 0. pp 0. done_. Qed.

(** ... and it fills block 2. *)
Lemma ph24 : reach s23 s24.
Proof. unfold s23, s24. fills b 2 0 1. Qed.

(** Producer 1 goes on: block 1 has references, is not marked and is full. *)
Lemma ph25 : reach s24 s25.
Proof. unfold s24, s25, idle, cidle. pp 1. pp 1. pp 1. pp 1. done_. Qed.

(** Producer 0 takes block 1 from the free list and prepares it. *)
Lemma ph26 : reach s25 s26.
Proof. unfold s25, s26, idle, cidle. go1 (QEnq 0 0 true). pp 0. pp 0. pp 0. pp 0. pp 0. done_. Qed.

Lemma ph27 : reach s26 s27.
Proof. unfold s26, s27, idle, cidle. pp 0. pp 0. pp 0. pp 0. pp 0. done_. Qed.

Lemma ph28 : reach s27 s28.
Proof. unfold s27, s28, idle, cidle. pp 0. pp 0. pp 0. pp 0. pp 0. done_. Qed.

Lemma ph29 : reach s28 s29.
Proof. unfold s28, s29, idle, cidle. pp 0. done_. Qed.

(** Producer 1 goes on: block 1 has no successor; it links block 0 behind it and makes that the last block. *)
Lemma ph30 : reach s29 s30.
Proof. unfold s29, s30, idle, cidle. pp 1. pp 1. pp 1. pp 1. pp 1. done_. Qed.

Lemma ph31 : reach s30 s31.
Proof. unfold s30, s31, idle, cidle. pp 1. pp 1. pp 1. pp 1. pp 1. done_. Qed.

Lemma ph32 : reach s31 s32.
Proof. unfold s31, s32, idle, cidle. pp 1. pp 1. pp 1. pp 1. pp 1. done_. Qed.

Lemma ph33 : reach s32 s33.
Proof. unfold s32, s33, idle, cidle. pp 1. pp 1. pp 1. pp 1. pp 1. done_. Qed.

Lemma ph34 : reach s33 s34.
Proof. unfold s33, s34, idle, cidle. pp 1. pp 1. pp 1. pp 1. pp 1. done_. Qed.

Lemma ph35 : reach s34 s35.
Proof. unfold s34, s35, idle, cidle. pp 1. done_. Qed.

(** Producer 0 goes on: it links block 1 behind block 2 and makes it the last block. *)
Lemma ph36 : reach s35 s36.
Proof. unfold s35, s36, idle, cidle. pp 0. pp 0. pp 0. pp 0. pp 0. done_. Qed.

Lemma ph37 : reach s36 s37.
Proof. unfold s36, s37, idle, cidle. pp 0. pp 0. pp 0. pp 0. pp 0. done_. Qed.

Lemma ph38 : reach s37 s38.
Proof. unfold s37, s38, idle, cidle. pp 0. pp 0. pp 0. pp 0. pp 0. done_. Qed.

(** ... and it fills block 1. *)
Lemma ph39 : reach s38 s39.
Proof. unfold s38, s39. fills b 1 0 1. Qed.

(** All of it. *)
Lemma all_ : reach (sys0 0 0 2) s39.
Proof.
  apply (reach_trans B _ s1 _ ph1).
  apply (reach_trans B _ s2 _ ph2).
  apply (reach_trans B _ s3 _ ph3).
  apply (reach_trans B _ s4 _ ph4).
  apply (reach_trans B _ s5 _ ph5).
  apply (reach_trans B _ s6 _ ph6).
  apply (reach_trans B _ s7 _ ph7).
  apply (reach_trans B _ s8 _ ph8).
  apply (reach_trans B _ s9 _ ph9).
  apply (reach_trans B _ s10 _ ph10).
  apply (reach_trans B _ s11 _ ph11).
  apply (reach_trans B _ s12 _ ph12).
  apply (reach_trans B _ s13 _ ph13).
  apply (reach_trans B _ s14 _ ph14).
  apply (reach_trans B _ s15 _ ph15).
  apply (reach_trans B _ s16 _ ph16).
  apply (reach_trans B _ s17 _ ph17).
  apply (reach_trans B _ s18 _ ph18).
  apply (reach_trans B _ s19 _ ph19).
  apply (reach_trans B _ s20 _ ph20).
  apply (reach_trans B _ s21 _ ph21).
  apply (reach_trans B _ s22 _ ph22).
  apply (reach_trans B _ s23 _ ph23).
  apply (reach_trans B _ s24 _ ph24).
  apply (reach_trans B _ s25 _ ph25).
  apply (reach_trans B _ s26 _ ph26).
  apply (reach_trans B _ s27 _ ph27).
  apply (reach_trans B _ s28 _ ph28).
  apply (reach_trans B _ s29 _ ph29).
  apply (reach_trans B _ s30 _ ph30).
  apply (reach_trans B _ s31 _ ph31).
  apply (reach_trans B _ s32 _ ph32).
  apply (reach_trans B _ s33 _ ph33).
  apply (reach_trans B _ s34 _ ph34).
  apply (reach_trans B _ s35 _ ph35).
  apply (reach_trans B _ s36 _ ph36).
  apply (reach_trans B _ s37 _ ph37).
  apply (reach_trans B _ s38 _ ph38).
  exact ph39.
Qed.
End Big.

(** Whatever the size of a block is (4096 in the code, MPMCQ_SIZE), two
    producers and the consumer can bring the queue into a state from which no
    call of enqueue ever returns again: no call is running, and yet, whichever
    calls are made then, other than rewind, and in whichever order their steps
    are taken, none puts a value into the queue or returns. *)
Theorem C147_stuck_every_size_refuted B : 0 < B -> exists evs s o, (forall v, ~ In (QRew v) evs) /\ qrun B evs (sys0 0 0 2) = Some (s, o) /\ quiet s
  /\ forall evs' s' o', (forall v, ~ In (QRew v) evs') -> qrun B evs' s = Some (s', o') -> enqueued o' = [] /\ forall i b, ~ In (ORetE i b) o'.
Proof.
  intros L. destruct B as [|b]; [lia|]. destruct (all_ b) as (evs & s & o & N & R & (M & P & C)). exists evs, s, o. split; [exact N|]. split; [exact R|].
  assert (Q : quiet s).
  { split; [rewrite C; reflexivity|]. intros p I. rewrite P in I. destruct I as [<-|[<-|[]]]; repeat split. }
  split; [exact Q|]. intros evs' s' o' NR RR. apply (stuck_run (S b) 1 evs' s s' o' NR); [|exact RR].
  destruct M as ((A0 & A1 & A2) & A3 & A4 & A5 & A6 & A7 & A8 & A9 & A10 & A11). split; [|split].
  - split; [rewrite A11; reflexivity|]. split; [rewrite A6; cbn; lia|]. rewrite A7. discriminate.
  - intros p J. rewrite P in J. destruct J as [<-|[<-|[]]]; reflexivity.
  - rewrite C. exact I.
Qed.
Print Assumptions C147_stuck_every_size_refuted.

(** With blocks of the size the code has. *)
Corollary C147_stuck_4096_refuted : exists evs s o, (forall v, ~ In (QRew v) evs) /\ qrun 4096 evs (sys0 0 0 2) = Some (s, o) /\ quiet s
  /\ forall evs' s' o', (forall v, ~ In (QRew v) evs') -> qrun 4096 evs' s = Some (s', o') -> enqueued o' = [] /\ forall i b, ~ In (ORetE i b) o'.
Proof. apply C147_stuck_every_size_refuted. apply Nat.ltb_lt. reflexivity. Qed.
Print Assumptions C147_stuck_4096_refuted.

(** Invariant of the MPSC queue (QueueModel.v) and its preservation by every
    step of every thread. *)
From Coq Require Import Arith List Bool Lia Permutation.
From Verif Require Import QueueModel FreeProps QueueSpec.
Import ListNotations.

Section Proofs.
Context {V : Type}.
Variable B : nat.
Hypothesis HB : 0 < B.
Notation prod := (prod V).
Notation cons := (cons V).
Notation qmem := (qmem V).

(** ** What a thread refers to *)

(** Blocks a producer holds a reference of (not counting the free list code). *)
Definition hold (u : nat) (p : prod) : nat :=
  match p_m p with
  | P3 t | P4 t | P5 t | P6 t | P7a t _ | P7b t _ | P7c t _ | P7d t _ | PF t _ | P8a t _ | P8b t _
  | P9 t _ | P10 t _ | P11 t _ | WPushed t => is u t
  | _ => 0
  end.
(** ... after it has seen freed = false. *)
Definition vld (u : nat) (p : prod) : nat :=
  match p_m p with
  | P4 t | P5 t | P6 t | P7a t _ | P7b t _ | P7c t _ | P7d t _ | PF t _ | P8a t _ | P8b t _
  | P9 t _ | P10 t _ | P11 t _ | WPushed t => is u t
  | _ => 0
  end.
(** Blocks a producer uses as tail block. *)
Definition tgt (u : nat) (p : prod) : nat :=
  match p_m p with
  | P1 t | P2 t _ | P3 t | P4 t | P5 t | P6 t | P7a t _ | P7b t _ | P7c t _ | P7d t _ | PF t _ | P8a t _ | P8b t _
  | P9 t _ | P10 t _ | P11 t _ | WPushed t => is u t
  | _ => 0
  end.
(** Blocks a producer owns. *)
Definition ownp (u : nat) (p : prod) : nat :=
  match p_m p with P7a _ nb | P7b _ nb | P7c _ nb | P7d _ nb | PF _ nb => is u nb | _ => 0 end.
(** The producer that linked u. *)
Definition link (u : nat) (p : prod) : nat :=
  match p_m p with P8a _ nb | P8b _ nb => is u nb | _ => 0 end.
(** The producer filling slot k of u. *)
Definition slot (u k : nat) (p : prod) : nat :=
  match p_m p with P10 t j | P11 t j => is u t * is k j | _ => 0 end.

(** Blocks the consumer owns: for rewind, and in general. *)
Definition ownw (u : nat) (c : cons) : nat :=
  match c_m c with W2a _ _ nb | W2b _ _ nb | W2c _ _ nb | W2d _ nb => is u nb | _ => 0 end.
Definition ownc (u : nat) (c : cons) : nat :=
  match c_m c with D4 h => is u h | _ => ownw u c end.
Definition cslot (u k : nat) (c : cons) : nat :=
  match c_m c with D5 h j | D6 h j | D7 h j _ | W5 _ h j => is u h * is k j | _ => 0 end.

Definition ownf (C : list nat) (ps : list prod) (c : cons) (u : nat) : nat := cnt C u + wsum (ownp u) ps + ownc u c.
Definition holdf (ps : list prod) (u : nat) : nat := wsum (hold u) ps.
Definition rng (a b k : nat) : nat := if (a <=? k) && (k <? b) then 1 else 0.

Definition pok (m : qmem) (ps : list prod) (c : cons) (C : list nat) (val : nat -> nat -> V) (p : prod) : Prop :=
  match p_m p with
  | P5 t | P6 t | P7a t _ => q_bt m t = B
  | P7b t nb => q_bt m t = B /\ q_bh m nb = 0
  | P7c t nb => q_bt m t = B /\ q_bh m nb = 0 /\ q_bt m nb = 0
  | P7d t nb => q_bt m t = B /\ q_bh m nb = 0 /\ q_bt m nb = 0 /\ q_bnext m nb = None
  | P8a t nb => q_tl m = t /\ q_bnext m t = Some nb /\ cnt C nb = 1 /\ q_bnext m nb = None /\ wsum (vld nb) ps = 0 /\ q_bt m nb = 0
                /\ (q_freed m nb = true \/ wsum (tgt nb) ps = 0)
  | P8b t nb => (cnt C nb = 1 \/ c_m c = D4 nb)
                /\ (q_freed m nb = true -> cnt C nb = 1 /\ q_tl m = nb /\ q_bnext m nb = None /\ wsum (vld nb) ps = 0 /\ q_bt m nb = 0)
  | P2 t k => k <> 0
  | P9 t k => k < B
  | P10 t k => val t k = p_v p
  | P11 t k => val t k = p_v p /\ q_el m t k = p_v p
  | _ => True
  end.

Definition cok (m : qmem) (c : cons) : Prop :=
  match c_m c with
  | D1 h hh => h = q_hd m /\ hh = q_bh m h /\ hh < q_bt m h
  | D2 h => h = q_hd m /\ q_bh m h = B /\ q_bt m h = B
  | D3 h n => h = q_hd m /\ q_bh m h = B /\ q_bt m h = B /\ q_bnext m h = Some n
  | D4 h => q_bt m h = B /\ q_bnext m h <> None
  | D5 h hh => h = q_hd m /\ q_bh m h = hh + 1
  | D6 h hh | D7 h hh _ => h = q_hd m /\ q_bh m h = hh + 1 /\ q_av m h hh = true
  | WP _ h => h = q_hd m /\ q_bh m h = 0
  | W2a _ h nb => h = q_hd m /\ q_bh m h = 0
  | W2b _ h nb => h = q_hd m /\ q_bh m h = 0 /\ q_bh m nb = B
  | W2c _ h nb => h = q_hd m /\ q_bh m h = 0 /\ q_bh m nb = B /\ q_bt m nb = B
  | W2d _ nb => q_bh m (q_hd m) = 0 /\ q_bh m nb = B /\ q_bt m nb = B /\ q_bnext m nb = Some (q_hd m)
  | W3 _ => 0 < q_bh m (q_hd m)
  | W4 e h hh => h = q_hd m /\ q_bh m h = hh + 1 /\ q_el m h hh = e
  | W5 e h hh => h = q_hd m /\ q_bh m h = hh + 1 /\ q_el m h hh = e /\ q_av m h hh = true
  | _ => True
  end.

Record QI (m : qmem) (ps : list prod) (c : cons) (C L : list nat) (val : nat -> nat -> V) : Prop := mkQI {
  qi_fl : FLI (q_fl m) (q_n m) (c_f c :: map p_f ps) (ownf C ps c) (holdf ps) L;
  qi_chain : linked (q_bnext m) (Some (q_hd m)) C;
  qi_bt : forall u, In u C -> q_bh m u <= q_bt m u /\ q_bt m u <= B;
  qi_full : forall u, In u C -> q_bnext m u <> None -> q_bt m u = B;
  qi_head : forall u, In u C -> u <> q_hd m -> q_bh m u = 0;
  qi_tl : (exists p t nb, In p ps /\ p_m p = P8a t nb) \/ (In (q_tl m) C /\ q_bnext m (q_tl m) = None);
  qi_link : forall u, wsum (link u) ps <= 1;
  qi_tlt : q_tl m < q_n m;
  qi_tgt : forall u, 0 < wsum (tgt u) ps -> u < q_n m;
  qi_freed : forall u, u < q_n m -> q_freed m u = false -> 1 <= ownf C ps c u;
  qi_fresh : forall u, q_freed m u = false -> 0 < wsum (ownp u) ps + ownw u c -> wsum (tgt u) ps = 0 /\ q_tl m <> u;
  qi_vld : forall u, 0 < wsum (vld u) ps ->
    cnt L u = 0 /\ wsum (c_got u) (c_f c :: map p_f ps) = 0 /\ wsum (ownp u) ps = 0 /\ ownw u c = 0
    /\ (In u C \/ (q_bt m u = B /\ q_bnext m u <> None));
  qi_slot : forall u k, wsum (slot u k) ps + b2n (q_av m u k) = cnt C u * rng (q_bh m u) (q_bt m u) k + cslot u k c;
  qi_val : forall u k, q_av m u k = true -> q_el m u k = val u k;
  qi_pok : forall p, In p ps -> pok m ps c C val p;
  qi_cok : cok m c }.

(** The values in the queue, front first. *)
Definition bvals (m : qmem) (val : nat -> nat -> V) (u : nat) : list V := map (val u) (seq (q_bh m u) (q_bt m u - q_bh m u)).
Definition pre (c : cons) (val : nat -> nat -> V) : list V :=
  match c_m c with D5 h k | D6 h k => [val h k] | _ => [] end.
Definition content (m : qmem) (c : cons) (C : list nat) (val : nat -> nat -> V) : list V := pre c val ++ flat_map (bvals m val) C.

(** ** Generalities *)

Lemma pok_perm m ps ps' c C val p : Permutation ps ps' -> pok m ps c C val p -> pok m ps' c C val p.
Proof.
  intros P. unfold pok. destruct (p_m p); auto; rewrite ?(wsum_perm (vld _) _ _ P), ?(wsum_perm (tgt _) _ _ P); auto.
Qed.

Lemma qi_perm m ps ps' c C L val : Permutation ps ps' -> QI m ps c C L val -> QI m ps' c C L val.
Proof.
  intros P [H1 H2 H3 H4 H5 H6 H7 H8 H9 H10 H11 H12 H13 H14 H15 H16].
  assert (PI : forall p, In p ps' -> In p ps) by (intros p; apply Permutation_in, Permutation_sym, P).
  constructor; auto.
  - apply fli_ext with (ownf C ps c) (holdf ps).
    + intros u. unfold ownf. rewrite (wsum_perm _ _ _ P). reflexivity.
    + intros u. unfold holdf. rewrite (wsum_perm _ _ _ P). reflexivity.
    + apply (fli_perm _ _ (c_f c :: map p_f ps)); [|exact H1]. constructor. apply Permutation_map. exact P.
  - destruct H6 as [(p & t & nb & I & E)|H6]; [|auto]. left. exists p, t, nb. split; [apply (Permutation_in _ P); exact I|exact E].
  - intros u. rewrite <- (wsum_perm _ _ _ P). auto.
  - intros u. rewrite <- (wsum_perm _ _ _ P). auto.
  - intros u N F. unfold ownf. rewrite <- (wsum_perm _ _ _ P). apply H10; auto.
  - intros u. rewrite <- !(wsum_perm (ownp u) _ _ P), <- !(wsum_perm (tgt u) _ _ P). auto.
  - intros u. rewrite <- !(wsum_perm (ownp u) _ _ P), <- !(wsum_perm (vld u) _ _ P). intros X. destruct (H12 u X) as (A1 & A2 & A3 & A4 & A5).
    repeat split; auto. rewrite <- A2. apply wsum_perm. constructor. apply Permutation_map, Permutation_sym, P.
  - intros u k. rewrite <- (wsum_perm (slot u k) _ _ P). auto.
  - intros p I. apply (pok_perm m ps); auto.
Qed.

Lemma other0 {A} (w : A -> nat) p r q : In q r -> wsum w (p :: r) <= 1 -> w p = 1 -> w q = 0.
Proof. intros I H E. pose proof (wsum_in w r q I). cbn in H. lia. Qed.

Lemma is_pos u v : 0 < is u v -> u = v.
Proof. unfold is. destruct (Nat.eqb_spec u v); [auto|lia]. Qed.

Lemma hold_vld u p : vld u p <= hold u p.
Proof. unfold vld, hold. destruct (p_m p); lia. Qed.
Lemma hold_tgt u p : hold u p <= tgt u p.
Proof. unfold tgt, hold. destruct (p_m p); lia. Qed.
Lemma wsum_le {A} (w w' : A -> nat) l : (forall p, w p <= w' p) -> wsum w l <= wsum w' l.
Proof. intros H. induction l as [|p l IH]; cbn; [lia|]. specialize (H p). lia. Qed.

Lemma place m ps c C L val : QI m ps c C L val -> forall u,
  cnt C u + wsum (ownp u) ps + ownc u c + wsum (c_got u) (c_f c :: map p_f ps) + cnt L u + wsum (c_psh u) (c_f c :: map p_f ps) <= 1.
Proof. intros H u. pose proof (fi_place _ _ _ _ _ _ (qi_fl _ _ _ _ _ _ H) u) as P. unfold ownf in P. lia. Qed.

(** A producer moves on without changing the queue's memory. *)
Lemma qi_move m fl' p p' r c C L val : QI m (p :: r) c C L val ->
  FLI fl' (q_n m) (c_f c :: p_f p' :: map p_f r) (ownf C (p' :: r) c) (holdf (p' :: r)) L ->
  (forall u, link u p' = link u p) -> (forall u k, slot u k p' = slot u k p) ->
  (forall u, 0 < tgt u p' -> 0 < tgt u p \/ u = q_tl m) ->
  (forall u, c_got u (p_f p') <= c_got u (p_f p)) ->
  (forall u, 0 < vld u p' -> 0 < vld u p \/
     (q_freed m u = false /\ 0 < tgt u p /\ cnt L u = 0 /\ wsum (c_got u) (c_f c :: p_f p :: map p_f r) = 0 /\ wsum (ownp u) (p' :: r) = 0 /\ ownw u c = 0
      /\ (In u C \/ (q_bt m u = B /\ q_bnext m u <> None)))) ->
  (forall u, ownp u p' = ownp u p \/ (q_freed m u = true /\ wsum (vld u) (p :: r) = 0 /\ vld u p' = 0)) ->
  ((exists t nb, p_m p = P8a t nb) -> p_m p' = p_m p) ->
  pok m (p' :: r) c C val p' ->
  QI (set_fl fl' m) (p' :: r) c C L val.
Proof.
  intros H F LK SL TG GT VL OW P8 PK.
  pose proof H as [H1 H2 H3 H4 H5 H6 H7 H8 H9 H10 H11 H12 H13 H14 H15 H16].
  assert (TG0 : forall u, u <> q_tl m -> wsum (tgt u) (p :: r) = 0 -> wsum (tgt u) (p' :: r) = 0).
  { intros u N Z. cbn [wsum] in *. specialize (TG u). destruct (tgt u p'); [lia|]. destruct TG as [?|?]; lia. }
  constructor; cbn [set_fl q_fl q_n q_freed q_bh q_bt q_bnext q_el q_av q_hd q_tl]; auto.
  - destruct H6 as [(q & t & nb & I & E)|H6]; [|auto]. left. destruct I as [<-|I].
    + exists p', t, nb. split; [left; reflexivity|]. rewrite P8; eauto.
    + exists q, t, nb. split; [right; exact I|exact E].
  - intros u. specialize (H7 u). cbn [wsum] in *. rewrite LK. exact H7.
  - intros u X. destruct (Nat.eq_dec u (q_tl m)) as [->|N]; [exact H8|]. apply H9. destruct (wsum (tgt u) (p :: r)) eqn:Z; [|lia]. rewrite (TG0 u N Z) in X. lia.
  - intros u N X. specialize (H10 u N X). unfold ownf in *. cbn [wsum] in *. destruct (OW u) as [E|(E & _)]; [lia|congruence].
  - intros u X Y. destruct (OW u) as [E|(E & _)]; [|congruence]. cbn [wsum] in Y. rewrite E in Y. destruct (H11 u X Y) as (Z & N). split; [|exact N]. apply TG0; auto.
  - intros u X. cbn [map].
    assert (G : wsum (c_got u) (c_f c :: p_f p' :: map p_f r) <= wsum (c_got u) (c_f c :: p_f p :: map p_f r)) by (cbn [wsum]; specialize (GT u); lia).
    destruct (Nat.eq_dec (wsum (vld u) (p :: r)) 0) as [Z|NZ].
    + assert (X' : 0 < vld u p') by (cbn [wsum] in *; lia). destruct (VL u X') as [Y|(Y1 & Y2 & Y3 & Y4 & Y5 & Y6 & Y7)]; [cbn [wsum] in Z; lia|].
      repeat split; auto. lia.
    + destruct (H12 u) as (A1 & A2 & A3 & A4 & A5); [lia|]. cbn [map] in A2. repeat split; auto; [lia|]. cbn [wsum] in *. destruct (OW u) as [E|(E & Z & Z')]; [lia|lia].
  - intros u k. specialize (H13 u k). cbn [wsum] in *. rewrite SL. exact H13.
  - intros q [<-|I].
    + exact PK.
    + specialize (H15 q (or_intror I)). unfold pok in *. destruct (p_m q) eqn:Eq; auto.
      * destruct H15 as (A1 & A2 & A3 & A4 & A5 & A6 & A7). cbn [set_fl q_tl q_bnext q_bt q_freed] in *. repeat split; auto.
        -- cbn [wsum] in *. destruct (vld nb p') eqn:E; [lia|]. destruct (VL nb) as [?|(Y1 & Y2 & _)]; [lia|lia|]. destruct A7; [congruence|lia].
        -- destruct A7 as [?|A7]; [auto|right]. apply TG0; auto. congruence.
      * destruct H15 as (A1 & A2). cbn [set_fl q_tl q_bnext q_bt q_freed] in *. split; [exact A1|]. intros X. destruct (A2 X) as (B1 & B2 & B3 & B4 & B5). repeat split; auto.
        cbn [wsum] in *. destruct (vld nb p') eqn:E; [lia|]. destruct (VL nb) as [?|(Y1 & Y2 & _)]; [lia|lia|congruence].
Qed.

(** ** Steps inside the free list code *)

Lemma linked_fun next : forall p l, linked next p l -> forall l', linked next p l' -> l = l'.
Proof. induction 1; intros l' H'; inversion H'; subst; [reflexivity|]. f_equal. auto. Qed.

Lemma fstep_place spur p f p' f' n r own hd L : fstep spur p f = Some (p', f') -> FLI f n (p :: r) own hd L ->
  exists L', FLI f' n (p' :: r) own hd L' /\
   forall u, 0 < hd u -> cnt L u = 0 -> wsum (c_got u) (p :: r) = 0 -> cnt L' u = 0 /\ wsum (c_got u) (p' :: r) = 0.
Proof.
  intros E H. destruct (fstep_inv spur p f p' f' n r own hd L E H) as (L' & I & S & _). exists L'. split; [exact I|]. intros u HU CL G.
  destruct (Nat.lt_ge_cases u n) as [N|N]; [|destruct (fi_own _ _ _ _ _ _ H u N); lia].
  pose proof (fi_rc _ _ _ _ _ _ H u N) as R. pose proof (fi_fix0 _ _ _ _ _ _ H u) as F0. pose proof (fi_psh0 _ _ _ _ _ _ H u) as S0.
  pose proof (fi_fix _ _ _ _ _ _ H u) as FX.
  destruct f as [top next rcs]. cbn [f_rc] in *.
  pose proof (fi_link _ _ _ _ _ _ H) as HL. pose proof (fi_link _ _ _ _ _ _ I) as HL'. cbn [f_next f_top] in *.
  assert (EQ : f_top f' = top -> f_next f' = next -> L' = L).
  { intros E1 E2. rewrite E1, E2 in HL'. apply (linked_fun next top); assumption. }
  destruct p; cbn [fstep] in E; try discriminate.
  - injection E as <- <-. rewrite (EQ eq_refl eq_refl). split; [exact CL|]. cbn [wsum c_got] in *. destruct (rcs u0 =? 1); [cbn; lia|]. destruct k; cbn in *; lia.
  - injection E as <- <-. rewrite (EQ eq_refl eq_refl). split; [exact CL|exact G].
  - injection E as <- <-. split; [|exact G]. destruct S as [->|[(v & ->)|(v & ->)]]; auto.
    + exfalso. cbn [f_next f_top] in HL'. assert (T : top = Some v) by (inversion HL'; congruence). subst top. inversion HL as [|a b X Y Z]. subst a.
      pose proof (fi_place _ _ _ _ _ _ I v) as PL. rewrite <- Z, !cnt_cons, is_same in PL. lia.
    + rewrite cnt_cons in CL. lia.
  - destruct (oeqb top t && negb spur) eqn:CS; injection E as <- <-; [|rewrite (EQ eq_refl eq_refl); split; [exact CL|exact G]].
    split; [|exact G]. cbn [f_next f_top] in HL'. apply andb_true_iff in CS. destruct CS as (CS & _). apply oeqb_true in CS. subst t.
    inversion HL' as [|a b X Y Z]. subst a L'.
    assert (NX : next u0 = top) by (pose proof (fi_pc _ _ _ _ _ _ H _ (or_introl eq_refl)) as PC; cbn in PC; tauto).
    rewrite NX in X. rewrite (linked_fun next top b X L HL). rewrite cnt_cons, CL.
    destruct (Nat.eq_dec u u0) as [->|D]; [|rewrite is_diff by exact D; reflexivity]. exfalso. cbn [wsum c_psh c_tmp c_fix c_got] in *. rewrite is_same in S0. lia.
  - injection E as <- <-. rewrite (EQ eq_refl eq_refl). split; [exact CL|]. cbn [wsum c_got] in *. destruct k; cbn in *; try lia.
  - injection E as <- <-. rewrite (EQ eq_refl eq_refl). split; [exact CL|]. destruct top; exact G.
  - injection E as <- <-. rewrite (EQ eq_refl eq_refl). split; [exact CL|]. destruct (rcs u0 =? 0); exact G.
  - destruct ((rcs u0 =? c) && negb spur); injection E as <- <-; rewrite (EQ eq_refl eq_refl); (split; [exact CL|exact G]).
  - injection E as <- <-. rewrite (EQ eq_refl eq_refl). split; [exact CL|exact G].
  - destruct (oeqb top (Some u0) && negb spur) eqn:CS; injection E as <- <-; [|rewrite (EQ eq_refl eq_refl); split; [exact CL|exact G]].
    apply andb_true_iff in CS. destruct CS as (CS & _). apply oeqb_true in CS. subst top.
    inversion HL as [|a b X Y Z]. subst a L. rewrite cnt_cons in CL.
    assert (NX : next u0 = nv) by (pose proof (fi_pc _ _ _ _ _ _ H _ (or_introl eq_refl)) as PC; cbn in PC; tauto).
    cbn [f_next f_top] in HL'. rewrite NX in X. rewrite (linked_fun next nv L' HL' b X). split; [lia|]. cbn [wsum c_got] in *. lia.
Qed.

Lemma qi_fl_prod m fl' f' p r c C L L' val : QI m (p :: r) c C L val ->
  FLI fl' (q_n m) (f' :: c_f c :: map p_f r) (ownf C (p :: r) c) (holdf (p :: r)) L' ->
  (forall u, 0 < holdf (p :: r) u -> cnt L u = 0 -> wsum (c_got u) (p_f p :: c_f c :: map p_f r) = 0 -> cnt L' u = 0 /\ wsum (c_got u) (f' :: c_f c :: map p_f r) = 0) ->
  QI (set_fl fl' m) (mkP f' (p_m p) (p_v p) (p_unb p) :: r) c C L' val.
Proof.
  intros H F G. pose proof H as [H1 H2 H3 H4 H5 H6 H7 H8 H9 H10 H11 H12 H13 H14 H15 H16].
  constructor; cbn [set_fl q_fl q_n q_freed q_bh q_bt q_bnext q_el q_av q_hd q_tl]; auto.
  - cbn [map p_f]. apply (fli_perm _ _ (f' :: c_f c :: map p_f r)); [apply perm_swap|exact F].
  - destruct H6 as [(q & t & nb & I & E)|H6]; [|auto]. left. destruct I as [<-|I].
    + eexists. exists t, nb. split; [left; reflexivity|exact E].
    + exists q, t, nb. split; [right; exact I|exact E].
  - intros u X. destruct (H12 u X) as (A1 & A2 & A3 & A4 & A5).
    destruct (G u) as (B1 & B2); auto.
    + unfold holdf. pose proof (wsum_le (vld u) (hold u) (p :: r) (hold_vld u)). unfold hold, vld in *. cbn [wsum p_m] in *. lia.
    + cbn [map wsum] in *. lia.
    + repeat split; auto. cbn [map wsum p_f] in *. lia.
  - intros q [<-|I]; [exact (H15 p (or_introl eq_refl))|exact (H15 q (or_intror I))].
Qed.

Lemma qi_fl_cons m fl' f' ps c C L L' val : QI m ps c C L val ->
  FLI fl' (q_n m) (f' :: map p_f ps) (ownf C ps c) (holdf ps) L' ->
  (forall u, 0 < holdf ps u -> cnt L u = 0 -> wsum (c_got u) (c_f c :: map p_f ps) = 0 -> cnt L' u = 0 /\ wsum (c_got u) (f' :: map p_f ps) = 0) ->
  QI (set_fl fl' m) ps (mkC f' (c_m c)) C L' val.
Proof.
  intros H F G. pose proof H as [H1 H2 H3 H4 H5 H6 H7 H8 H9 H10 H11 H12 H13 H14 H15 H16].
  constructor; cbn [set_fl q_fl q_n q_freed q_bh q_bt q_bnext q_el q_av q_hd q_tl]; auto.
  intros u X. destruct (H12 u X) as (A1 & A2 & A3 & A4 & A5).
  destruct (G u) as (B1 & B2); auto.
  - unfold holdf. pose proof (wsum_le (vld u) (hold u) ps (hold_vld u)). lia.
Qed.

(** ** Writes to a block that is not linked *)

Definition frame (nb : nat) (m m' : qmem) : Prop :=
  q_fl m' = q_fl m /\ q_n m' = q_n m /\ q_freed m' = q_freed m /\ q_el m' = q_el m /\ q_av m' = q_av m /\ q_hd m' = q_hd m /\ q_tl m' = q_tl m
  /\ forall u, u <> nb -> q_bh m' u = q_bh m u /\ q_bt m' u = q_bt m u /\ q_bnext m' u = q_bnext m u.

Definition sameps (ps ps' : list prod) : Prop :=
  map p_f ps' = map p_f ps /\ forall u, wsum (hold u) ps' = wsum (hold u) ps /\ wsum (vld u) ps' = wsum (vld u) ps /\ wsum (tgt u) ps' = wsum (tgt u) ps
    /\ wsum (ownp u) ps' = wsum (ownp u) ps /\ wsum (link u) ps' = wsum (link u) ps /\ forall k, wsum (slot u k) ps' = wsum (slot u k) ps.

Definition samec (c c' : cons) : Prop :=
  c_f c' = c_f c /\ (forall h, c_m c = D4 h <-> c_m c' = D4 h) /\ forall u, ownc u c' = ownc u c /\ ownw u c' = ownw u c /\ forall k, cslot u k c' = cslot u k c.

Lemma sameps_refl ps : sameps ps ps.
Proof. split; [reflexivity|]. intros u. repeat split. Qed.
Lemma samec_refl c : samec c c.
Proof. split; [reflexivity|]. split; [tauto|]. intros u. repeat split. Qed.

Lemma pok_frame nb m m' ps ps' c c' C val q : frame nb m m' -> sameps ps ps' -> samec c c' -> cnt C nb = 0 -> c_m c <> D4 nb ->
  vld nb q = 0 -> ownp nb q = 0 -> pok m ps c C val q -> pok m' ps' c' C val q.
Proof.
  intros (F1 & F2 & F3 & F4 & F5 & F6 & F7 & F8) (_ & SP) (_ & SD & SC) CN DN VN ON. unfold pok, vld, ownp in *.
  assert (N1 : forall t, is nb t = 0 -> q_bh m' t = q_bh m t /\ q_bt m' t = q_bt m t /\ q_bnext m' t = q_bnext m t).
  { intros t Z. apply F8. intros ->. rewrite is_same in Z. discriminate. }
  destruct (p_m q) eqn:E; auto.
  - destruct (N1 _ VN) as (_ & -> & _). auto.
  - destruct (N1 _ VN) as (_ & -> & _). auto.
  - destruct (N1 _ VN) as (_ & -> & _). auto.
  - destruct (N1 _ VN) as (_ & -> & _). destruct (N1 _ ON) as (-> & _ & _). auto.
  - destruct (N1 _ VN) as (_ & -> & _). destruct (N1 _ ON) as (-> & -> & _). auto.
  - destruct (N1 _ VN) as (_ & -> & _). destruct (N1 _ ON) as (-> & -> & ->). auto.
  - intros (A1 & A2 & A3 & A4 & A5 & A6 & A7). destruct (F8 nb0) as (_ & E1 & E2); [intros ->; lia|]. destruct (N1 _ VN) as (_ & _ & E3).
    rewrite F7, E1, E2, E3, F3. destruct (SP nb0) as (_ & -> & -> & _). auto 10.
  - intros (A1 & A2). destruct (F8 nb0) as (_ & E1 & E2); [intros ->; destruct A1; [lia|contradiction]|]. rewrite F7, E1, E2, F3. destruct (SP nb0) as (_ & -> & _).
    split; [|exact A2]. destruct A1; [auto|right; apply SD; assumption].
  - intros (A1 & A2). rewrite F4. auto.
Qed.

Lemma qi_frame nb m m' ps ps' c c' C L val : QI m ps c C L val -> frame nb m m' -> sameps ps ps' -> samec c c' ->
  cnt C nb = 0 -> wsum (vld nb) ps = 0 ->
  ((exists p t b, In p ps /\ p_m p = P8a t b) -> exists p t b, In p ps' /\ p_m p = P8a t b) ->
  (forall p, In p ps' -> pok m' ps' c' C val p) -> cok m' c' -> QI m' ps' c' C L val.
Proof.
  intros [H1 H2 H3 H4 H5 H6 H7 H8 H9 H10 H11 H12 H13 H14 H15 H16] F SP SC CN VN P8 PK CK.
  destruct F as (F1 & F2 & F3 & F4 & F5 & F6 & F7 & F8). destruct SP as (SF & SP). destruct SC as (SCF & SD & SC).
  assert (NI : forall u, In u C -> u <> nb) by (intros u I ->; apply cnt_in in I; lia).
  constructor; auto; rewrite ?F1, ?F2, ?F3, ?F4, ?F5, ?F6, ?F7; auto.
  - rewrite SF, SCF. apply fli_ext with (ownf C ps c) (holdf ps); [| |exact H1].
    + intros u. unfold ownf. destruct (SP u) as (_ & _ & _ & -> & _). destruct (SC u) as (-> & _). reflexivity.
    + intros u. unfold holdf. destruct (SP u) as (-> & _). reflexivity.
  - assert (G : forall p l, linked (q_bnext m) p l -> ~ In nb l -> linked (q_bnext m') p l).
    { induction 1 as [|u l X IH]; intros N; constructor. destruct (F8 u) as (_ & _ & ->); [intros ->; apply N; left; reflexivity|]. apply IH. intros I. apply N. right. exact I. }
    apply G; [exact H2|]. intros I. apply (NI nb I). reflexivity.
  - intros u I. destruct (F8 u (NI u I)) as (-> & -> & _). auto.
  - intros u I. destruct (F8 u (NI u I)) as (_ & -> & ->). auto.
  - intros u I. destruct (F8 u (NI u I)) as (-> & _ & _). auto.
  - destruct H6 as [H6|(I & E)]; [auto|right]. split; [exact I|]. destruct (F8 _ (NI _ I)) as (_ & _ & ->). exact E.
  - intros u. destruct (SP u) as (_ & _ & _ & _ & -> & _). auto.
  - intros u. destruct (SP u) as (_ & _ & -> & _). auto.
  - intros u N X. unfold ownf in *. destruct (SP u) as (_ & _ & _ & -> & _). destruct (SC u) as (-> & _). apply H10; auto.
  - intros u. destruct (SP u) as (_ & _ & -> & -> & _). destruct (SC u) as (_ & -> & _). auto.
  - intros u. destruct (SP u) as (_ & -> & _ & -> & _). destruct (SC u) as (_ & -> & _). rewrite SF, SCF. intros X.
    destruct (H12 u X) as (A1 & A2 & A3 & A4 & A5). destruct (F8 u) as (_ & -> & ->); [intros ->; lia|]. auto.
  - intros u k. destruct (SP u) as (_ & _ & _ & _ & _ & ->). destruct (SC u) as (_ & _ & ->). rewrite H13.
    destruct (Nat.eq_dec u nb) as [->|N]; [rewrite CN; reflexivity|]. destruct (F8 u N) as (-> & -> & _). reflexivity.
Qed.

Lemma content_frame nb m m' c c' C val : frame nb m m' -> cnt C nb = 0 -> pre c' val = pre c val -> content m' c' C val = content m c C val.
Proof.
  intros (_ & _ & _ & _ & _ & _ & _ & F8) CN P. unfold content. rewrite P. f_equal. clear P.
  induction C as [|u C IH]; [reflexivity|]. rewrite cnt_cons in CN. cbn [flat_map]. rewrite IH by lia. f_equal. unfold bvals.
  destruct (F8 u) as (-> & -> & _); [intros ->; rewrite is_same in CN; lia|]. reflexivity.
Qed.

Lemma frame_bh nb x (m : qmem) : frame nb m (set_bh nb x m).
Proof. repeat split. cbn. apply fset_other. assumption. Qed.
Lemma frame_bt nb x (m : qmem) : frame nb m (set_bt nb x m).
Proof. repeat split. cbn. apply fset_other. assumption. Qed.
Lemma frame_bnext nb x (m : qmem) : frame nb m (set_bnext nb x m).
Proof. repeat split. cbn. apply fset_other. assumption. Qed.

(** Facts about a block owned by a producer. *)
Lemma ownp_facts m p r c C L val nb : QI m (p :: r) c C L val -> ownp nb p = 1 ->
  cnt C nb = 0 /\ wsum (vld nb) (p :: r) = 0 /\ ownc nb c = 0 /\ ownw nb c = 0 /\ c_m c <> D4 nb /\ nb < q_n m /\ wsum (ownp nb) r = 0 /\ cnt L nb = 0 /\ wsum (c_got nb) (c_f c :: map p_f (p :: r)) = 0.
Proof.
  intros H O. pose proof (place _ _ _ _ _ _ H nb) as P. cbn [wsum] in P. rewrite O in P.
  assert (VL : wsum (vld nb) (p :: r) = 0).
  { destruct (wsum (vld nb) (p :: r)) eqn:E; [reflexivity|]. destruct (qi_vld _ _ _ _ _ _ H nb) as (_ & _ & X & _); [lia|]. cbn [wsum] in X. lia. }
  assert (W : ownw nb c = 0) by (unfold ownc in P; destruct (c_m c) eqn:E; try lia; unfold ownw; rewrite E; reflexivity).
  assert (D : c_m c <> D4 nb) by (intros E; unfold ownc in P; rewrite E, is_same in P; lia).
  assert (N : nb < q_n m).
  { destruct (Nat.lt_ge_cases nb (q_n m)) as [|G]; [assumption|]. destruct (fi_own _ _ _ _ _ _ (qi_fl _ _ _ _ _ _ H) nb G) as (X & _). unfold ownf in X. cbn [wsum] in X. lia. }
  cbn [wsum map] in *. repeat split; auto; lia.
Qed.

(** The three stores that reset a new block. *)
Lemma s_P7 m m' p p' r c C L val t nb : QI m (p :: r) c C L val ->
  (p_m p = P7a t nb /\ p_m p' = P7b t nb /\ m' = set_bh nb 0 m \/ p_m p = P7b t nb /\ p_m p' = P7c t nb /\ m' = set_bt nb 0 m
   \/ p_m p = P7c t nb /\ p_m p' = P7d t nb /\ m' = set_bnext nb None m) -> p_f p' = p_f p ->
  QI m' (p' :: r) c C L val /\ content m' c C val = content m c C val.
Proof.
  intros H E EF.
  assert (O : ownp nb p = 1) by (unfold ownp; destruct E as [(-> & _)|[(-> & _)|(-> & _)]]; apply is_same).
  assert (T : vld t p = 1) by (unfold vld; destruct E as [(-> & _)|[(-> & _)|(-> & _)]]; apply is_same).
  destruct (ownp_facts _ _ _ _ _ _ _ _ H O) as (CN & VN & OC & OW & DN & N & OR & _).
  assert (TN : t <> nb) by (intros ->; cbn [wsum] in VN; lia).
  assert (FR : frame nb m m') by (destruct E as [(_ & _ & ->)|[(_ & _ & ->)|(_ & _ & ->)]]; [apply frame_bh|apply frame_bt|apply frame_bnext]).
  assert (SP : sameps (p :: r) (p' :: r)).
  { split; [cbn; rewrite EF; reflexivity|]. intros u. cbn [wsum]. unfold hold, vld, tgt, ownp, link, slot. destruct E as [(-> & -> & _)|[(-> & -> & _)|(-> & -> & _)]]; repeat split. }
  assert (PP : pok m (p :: r) c C val p) by (apply (qi_pok _ _ _ _ _ _ H); left; reflexivity).
  split; [|apply (content_frame nb); auto].
  apply (qi_frame nb m m' (p :: r) (p' :: r) c c C L val); auto.
  - apply samec_refl.
  - intros (q & a & b & I & X). destruct I as [<-|I]; [destruct E as [(Y & _)|[(Y & _)|(Y & _)]]; congruence|]. exists q, a, b. split; [right; exact I|exact X].
  - intros q [<-|I].
    + unfold pok in PP |- *. destruct FR as (_ & _ & _ & _ & _ & _ & _ & F8). destruct (F8 t TN) as (_ & Bt & _).
      destruct E as [(E1 & -> & ->)|[(E1 & -> & ->)|(E1 & -> & ->)]]; rewrite E1 in PP; cbn [set_bh set_bt set_bnext q_bh q_bt q_bnext] in *; rewrite ?fset_same in *; rewrite ?Bt; tauto.
    + apply (pok_frame nb m m' (p :: r) (p' :: r) c c); auto.
      * apply samec_refl.
      * cbn [wsum] in VN. pose proof (wsum_in (vld nb) r q I). lia.
      * pose proof (wsum_in (ownp nb) r q I). lia.
      * apply (qi_pok _ _ _ _ _ _ H). right. exact I.
  - pose proof (qi_cok _ _ _ _ _ _ H) as CK. destruct FR as (_ & _ & _ & _ & F5 & F6 & _ & F8).
    assert (HN : q_hd m <> nb).
    { intros X. assert (I : In (q_hd m) C) by (pose proof (qi_chain _ _ _ _ _ _ H) as Y; inversion Y; left; reflexivity). apply cnt_in in I. rewrite X in I. lia. }
    assert (EL : q_el m' = q_el m) by (destruct E as [(_ & _ & ->)|[(_ & _ & ->)|(_ & _ & ->)]]; reflexivity).
    assert (X : forall b, is nb b = 0 -> q_bh m' b = q_bh m b /\ q_bt m' b = q_bt m b /\ q_bnext m' b = q_bnext m b) by (intros b Z; apply F8; intros ->; rewrite is_same in Z; discriminate).
    unfold cok, ownc, ownw in *. rewrite F6, ?EL, ?F5. destruct (F8 _ HN) as (Y1 & Y2 & Y3).
    destruct (c_m c); auto; try (destruct CK as (-> & CK); rewrite Y1, ?Y2, ?Y3; auto; fail).
    + destruct (X _ OC) as (_ & -> & ->). exact CK.
    + destruct CK as (-> & CK1 & CK2). rewrite Y1. destruct (X _ OW) as (-> & _). auto.
    + destruct CK as (-> & CK1 & CK2 & CK3). rewrite Y1. destruct (X _ OW) as (-> & -> & _). auto.
    + destruct (X _ OW) as (-> & -> & ->). rewrite Y1. exact CK.
    + rewrite Y1. exact CK.
Qed.

(** ** Chain *)

Lemma linked_last nx : forall p C, linked nx p C -> forall t, In t C -> nx t = None -> exists C0, C = C0 ++ [t].
Proof.
  induction 1 as [|u l X IH]; intros t I E; [contradiction|]. destruct I as [->|I].
  - rewrite E in X. inversion X. exists []. reflexivity.
  - destruct (IH t I E) as (C0 & ->). exists (u :: C0). reflexivity.
Qed.

Lemma linked_snoc nx t nb : forall C0 p, linked nx p (C0 ++ [t]) -> nx nb = None -> cnt (C0 ++ [t]) t = 1 -> cnt (C0 ++ [t]) nb = 0 ->
  linked (fset nx t (Some nb)) p (C0 ++ [t; nb]).
Proof.
  induction C0 as [|u C0 IH]; intros p H E CT CN; cbn [app] in *.
  - inversion H as [|a b X Y Z]. subst. constructor. rewrite fset_same. constructor. rewrite fset_other; [rewrite E; constructor|].
    intros ->. rewrite cnt_cons, is_same in CN. lia.
  - inversion H as [|a b X Y Z]. subst. rewrite cnt_cons in CT, CN.
    assert (I : 0 < cnt (C0 ++ [t]) t) by (apply cnt_in, in_or_app; right; left; reflexivity).
    constructor. rewrite fset_other; [apply IH; auto; lia|]. intros ->. rewrite is_same in CT. lia.
Qed.

Lemma cnt_app l l' u : cnt (l ++ l') u = cnt l u + cnt l' u.
Proof. unfold cnt. apply count_occ_app. Qed.

Lemma hd_in m ps c C L val : QI m ps c C L val -> In (q_hd m) C.
Proof. intros H. pose proof (qi_chain _ _ _ _ _ _ H) as Y. inversion Y. left. reflexivity. Qed.

Lemma cnt_C1 m ps c C L val u : QI m ps c C L val -> In u C -> cnt C u = 1.
Proof. intros H I. apply cnt_in in I. pose proof (place _ _ _ _ _ _ H u). lia. Qed.

Lemma last_unique m ps c C L val u v : QI m ps c C L val -> In u C -> In v C -> q_bnext m u = None -> q_bnext m v = None -> u = v.
Proof.
  intros H Iu Iv Eu Ev. pose proof (qi_chain _ _ _ _ _ _ H) as X. destruct (linked_last _ _ _ X u Iu Eu) as (C0 & E0). destruct (linked_last _ _ _ X v Iv Ev) as (C1 & E1).
  rewrite E0 in E1. apply app_inj_tail in E1. apply E1.
Qed.

Lemma ownw_ownc u (c : cons) : ownw u c <= ownc u c.
Proof. unfold ownc, ownw. destruct (c_m c); lia. Qed.

(** ** Release of the reference to the tail block *)
Lemma fl_release m p r c C L val t p' : QI m (p :: r) c C L val -> p_f p = FIdle -> hold t p = 1 -> p_f p' = RSub t KDone ->
  (forall u, hold u p = is u t) -> (forall u, hold u p' = 0) -> (forall u, ownp u p' = ownp u p) ->
  FLI (q_fl m) (q_n m) (c_f c :: p_f p' :: map p_f r) (ownf C (p' :: r) c) (holdf (p' :: r)) L.
Proof.
  intros H F HO F' HP HP' OP. rewrite F'. pose proof (qi_fl _ _ _ _ _ _ H) as X. cbn [map] in X. rewrite F in X.
  apply (fli_perm _ _ (RSub t KDone :: c_f c :: map p_f r)); [apply perm_swap|].
  apply fli_ext with (ownf C (p :: r) c) (fset (holdf (p :: r)) t (wsum (hold t) r)).
  - intros u. unfold ownf. cbn [wsum]. rewrite OP. reflexivity.
  - intros u. unfold holdf, fset. cbn [wsum]. rewrite HP'. destruct (Nat.eqb_spec u t) as [->|N]; [reflexivity|]. rewrite HP, is_diff by exact N. reflexivity.
  - apply fli_drop; [apply (fli_perm _ _ (c_f c :: FIdle :: map p_f r)); [apply perm_swap|exact X]|]. unfold holdf. cbn [wsum]. lia.
Qed.

Lemma vld_chain m p r c C L val t : QI m (p :: r) c C L val -> vld t p = 1 -> q_bnext m t = None -> In t C.
Proof. intros H T E. destruct (qi_vld _ _ _ _ _ _ H t) as (_ & _ & _ & _ & [I|(_ & N)]); [cbn [wsum]; lia|exact I|contradiction]. Qed.

(** 143, success. *)
Lemma s_link m p p' r c C L val t nb : QI m (p :: r) c C L val -> p_m p = P7d t nb -> p_m p' = P8a t nb -> p_f p' = p_f p -> q_bnext m t = None ->
  QI (set_bnext t (Some nb) m) (p' :: r) c (C ++ [nb]) L val
  /\ content (set_bnext t (Some nb) m) c (C ++ [nb]) val = content m c C val.
Proof.
  intros H E E' EF NX. pose proof H as [H1 H2 H3 H4 H5 H6 H7 H8 H9 H10 H11 H12 H13 H14 H15 H16].
  assert (O : ownp nb p = 1) by (unfold ownp; rewrite E; apply is_same).
  assert (T : vld t p = 1) by (unfold vld; rewrite E; apply is_same).
  destruct (ownp_facts _ _ _ _ _ _ _ _ H O) as (CN & VN & OC & OW & DN & N & OR & _).
  assert (TN : t <> nb) by (intros ->; cbn [wsum] in VN; lia).
  pose proof (vld_chain _ _ _ _ _ _ _ _ H T NX) as TC.
  pose proof (cnt_C1 _ _ _ _ _ _ _ H TC) as C1.
  pose proof (H15 p (or_introl eq_refl)) as PP. unfold pok in PP. rewrite E in PP. destruct PP as (BT & NB1 & NB2 & NB3).
  assert (Q8 : forall q a b, In q r -> p_m q = P8a a b -> False).
  { intros q a b I X. pose proof (H15 q (or_intror I)) as Y. unfold pok in Y. rewrite X in Y. destruct Y as (Y1 & Y2 & Y3 & Y4 & Y5 & _).
    assert (b = t) by (apply (last_unique _ _ _ _ _ _ b t H); auto; apply cnt_in; lia). subst b. cbn [wsum] in Y5. lia. }
  assert (TL : q_tl m = t).
  { destruct H6 as [(q & a & b & I & X)|(I & X)]; [|apply (last_unique _ _ _ _ _ _ _ t H); auto].
    destruct I as [<-|I]; [congruence|]. destruct (Q8 q a b I X). }
  assert (OT : forall q, In q r -> ownp t q = 0 /\ ownp nb q = 0).
  { intros q I. pose proof (wsum_in (ownp t) r q I). pose proof (wsum_in (ownp nb) r q I). pose proof (place _ _ _ _ _ _ H t) as P. cbn [wsum] in P. lia. }
  split.
  - constructor; cbn [set_bnext q_fl q_n q_freed q_bh q_bt q_bnext q_el q_av q_hd q_tl]; auto.
    + apply fli_ext with (ownf C (p :: r) c) (holdf (p :: r)); [| |cbn [map] in *; rewrite EF; exact H1].
      * intros u. unfold ownf. rewrite cnt_app, cnt_cons. cbn [wsum]. unfold ownp at 1 3. rewrite E, E'. change (cnt [] u) with 0. lia.
      * intros u. unfold holdf. cbn [wsum]. unfold hold at 1 3. rewrite E, E'. reflexivity.
    + destruct (linked_last _ _ _ H2 t TC NX) as (C0 & ->). rewrite <- app_assoc. apply linked_snoc; auto.
    + intros u I. apply in_app_or in I. destruct I as [I|[<-|[]]]; [auto|]. rewrite NB1, NB2. lia.
    + intros u I X. apply in_app_or in I. destruct I as [I|[<-|[]]].
      * destruct (Nat.eq_dec u t) as [->|D]; [exact BT|]. rewrite fset_other in X by exact D. auto.
      * rewrite fset_other in X by congruence. contradiction.
    + intros u I X. apply in_app_or in I. destruct I as [I|[<-|[]]]; auto.
    + left. exists p', t, nb. split; [left; reflexivity|exact E'].
    + intros u. specialize (H7 u). cbn [wsum] in *. unfold link at 1. rewrite E'. unfold link in H7 at 1. rewrite E in H7. cbn in H7.
      destruct (Nat.eq_dec u nb) as [->|D]; [|rewrite is_diff by exact D; exact H7]. rewrite is_same.
      replace (wsum (link nb) r) with 0; [lia|]. symmetry. apply wsum_all0. intros q I. unfold link. destruct (p_m q) eqn:X; auto.
      * destruct (Q8 q t0 nb0 I X).
      * pose proof (H15 q (or_intror I)) as Y. unfold pok in Y. rewrite X in Y. destruct Y as ([Y|Y] & _); apply is_diff; intros ->; [lia|contradiction].
    + intros u X. apply H9. cbn [wsum] in *. unfold tgt in X at 1. rewrite E' in X. unfold tgt at 1. rewrite E. exact X.
    + intros u Nu X. specialize (H10 u Nu X). unfold ownf in *. rewrite cnt_app, cnt_cons. cbn [wsum] in *. unfold ownp in H10 at 1. rewrite E in H10. unfold ownp at 1. rewrite E'. lia.
    + intros u X Y. cbn [wsum] in *. unfold ownp in Y at 1. rewrite E' in Y. destruct (H11 u X) as (Z1 & Z2); [lia|]. split; [|exact Z2].
      unfold tgt in Z1 |- * at 1. rewrite E in Z1. rewrite E'. exact Z1.
    + intros u X. assert (X' : 0 < wsum (vld u) (p :: r)) by (cbn [wsum] in *; unfold vld in X |- * at 1; rewrite E' in X; rewrite E; exact X).
      destruct (H12 u X') as (A1 & A2 & A3 & A4 & A5). cbn [map wsum] in *. rewrite EF. repeat split; auto.
      * unfold ownp at 1. rewrite E'. lia.
      * destruct A5 as [A5|(A5 & A6)]; [left; apply in_or_app; auto|right]. split; [exact A5|]. unfold fset. destruct (u =? t); [discriminate|exact A6].
    + intros u k. specialize (H13 u k). cbn [wsum] in *. unfold slot at 1. unfold slot in H13 at 1. rewrite E in H13. rewrite E'. rewrite H13, cnt_app, cnt_cons. change (cnt [] u) with 0.
      destruct (Nat.eq_dec u nb) as [->|D]; [|rewrite is_diff by exact D; rewrite !Nat.add_0_r; reflexivity].
      rewrite CN, NB1, NB2. change (rng 0 0 k) with 0. lia.
    + intros q [<-|I].
      * unfold pok. rewrite E'. cbn [set_bnext q_fl q_n q_freed q_bh q_bt q_bnext q_el q_av q_hd q_tl]. rewrite fset_same, fset_other by congruence.
        repeat split; auto.
        -- rewrite cnt_app, cnt_cons, is_same, CN. reflexivity.
        -- cbn [wsum] in *. unfold vld at 1. unfold vld in VN at 1. rewrite E in VN. rewrite E'. exact VN.
        -- destruct (q_freed m nb) eqn:FR; [auto|right]. destruct (H11 nb FR) as (Z & _); [cbn [wsum]; lia|]. cbn [wsum] in *. unfold tgt at 1. unfold tgt in Z at 1. rewrite E in Z. rewrite E'. exact Z.
      * pose proof (H15 q (or_intror I)) as Y. destruct (OT q I) as (OT1 & OT2). unfold pok in *. cbn [set_bnext q_fl q_n q_freed q_bh q_bt q_bnext q_el q_av q_hd q_tl].
        unfold ownp in OT1, OT2. destruct (p_m q) eqn:X; auto.
        -- destruct Y as (Y1 & Y2 & Y3 & Y4). repeat split; auto. rewrite fset_other; auto. intros ->. rewrite is_same in OT1. discriminate.
        -- destruct (Q8 q t0 nb0 I X).
        -- destruct Y as (Y1 & Y2). assert (V8 : wsum (vld nb0) (p' :: r) = wsum (vld nb0) (p :: r)) by (cbn [wsum]; unfold vld at 1 3; rewrite E, E'; reflexivity). split.
           ++ destruct Y1 as [Y1|Y1]; [|auto]. left. rewrite cnt_app, cnt_cons. change (cnt [] nb0) with 0. rewrite is_diff by (intros ->; lia). lia.
           ++ intros Z. destruct (Y2 Z) as (Z0 & Z1 & Z2 & Z3 & Z4).
              assert (nb0 <> t) by (intros ->; cbn [wsum] in Z3; lia). rewrite fset_other by assumption. repeat split; auto; [|congruence].
              rewrite cnt_app, cnt_cons. change (cnt [] nb0) with 0. rewrite is_diff by (intros ->; lia). lia.
    + unfold cok in *. cbn [set_bnext q_fl q_n q_freed q_bh q_bt q_bnext q_el q_av q_hd q_tl]. destruct (c_m c) eqn:X; auto.
      * destruct H16 as (Z1 & Z2 & Z3 & Z4). repeat split; auto. rewrite fset_other; auto. intros ->. congruence.
      * destruct H16 as (Z1 & Z2). split; [exact Z1|]. unfold fset. destruct (h =? t); [discriminate|exact Z2].
      * destruct H16 as (Z1 & Z2 & Z3 & Z4). repeat split; auto. rewrite fset_other; auto. intros ->.
        pose proof (place _ _ _ _ _ _ H t) as P. unfold ownc, ownw in P. rewrite X, is_same in P. lia.
  - unfold content. f_equal. rewrite flat_map_app. cbn [flat_map]. unfold bvals at 2. cbn [set_bnext q_bh q_bt]. rewrite NB1, NB2. cbn. rewrite app_nil_r. reflexivity.
Qed.

(** Values of the six counting functions at a known program counter. *)
Ltac facts p E :=
  let a := fresh "Fh" in let b := fresh "Fv" in let d := fresh "Ft" in let e := fresh "Fo" in let f := fresh "Fl" in let g := fresh "Fs" in
  pose proof (fun u => eq_refl (hold u p)) as a; unfold hold in a at 2; rewrite E in a; cbn iota in a;
  pose proof (fun u => eq_refl (vld u p)) as b; unfold vld in b at 2; rewrite E in b; cbn iota in b;
  pose proof (fun u => eq_refl (tgt u p)) as d; unfold tgt in d at 2; rewrite E in d; cbn iota in d;
  pose proof (fun u => eq_refl (ownp u p)) as e; unfold ownp in e at 2; rewrite E in e; cbn iota in e;
  pose proof (fun u => eq_refl (link u p)) as f; unfold link in f at 2; rewrite E in f; cbn iota in f;
  pose proof (fun u k => eq_refl (slot u k p)) as g; unfold slot in g at 2; rewrite E in g; cbn iota in g.
Ltac qs := cbn [set_fl set_freed set_bh set_bt set_bnext set_el set_av set_hd set_tl q_fl q_n q_freed q_bh q_bt q_bnext q_el q_av q_hd q_tl].

(** 144-145: the block is not linked; back to the free list. *)
Lemma s_PF m p p' r c C L val t nb : QI m (p :: r) c C L val -> p_m p = PF t nb -> p_f p = FIdle -> p_m p' = WPushed t -> p_f p' = RSub nb KDone ->
  QI (set_freed nb true m) (p' :: r) c C L val
  /\ content (set_freed nb true m) c C val = content m c C val.
Proof.
  intros H E EF E' EF'. split; [|reflexivity]. pose proof H as [H1 H2 H3 H4 H5 H6 H7 H8 H9 H10 H11 H12 H13 H14 H15 H16].
  facts p E. facts p' E'.
  assert (O : ownp nb p = 1) by (rewrite Fo; apply is_same).
  destruct (ownp_facts _ _ _ _ _ _ _ _ H O) as (CN & VN & OC & OW & DN & N & OR & _).
  assert (OW1 : forall u, u <> nb -> ownf C (p' :: r) c u = ownf C (p :: r) c u) by (intros u D; unfold ownf; cbn [wsum]; rewrite Fo, Fo0, is_diff by exact D; reflexivity).
  constructor; qs; auto.
  - cbn [map] in *. rewrite EF in H1. rewrite EF'. apply (fli_perm _ _ (RSub nb KDone :: c_f c :: map p_f r)); [apply perm_swap|].
    apply fli_ext with (fset (ownf C (p :: r) c) nb 0) (holdf (p :: r)).
    + intros u. unfold fset. destruct (Nat.eqb_spec u nb) as [->|D]; [|symmetry; auto]. unfold ownf. cbn [wsum]. rewrite Fo0. lia.
    + intros u. unfold holdf. cbn [wsum]. rewrite Fh, Fh0. reflexivity.
    + apply fli_push; [apply (fli_perm _ _ (c_f c :: FIdle :: map p_f r)); [apply perm_swap|exact H1]|]. unfold ownf. cbn [wsum]. lia.
  - destruct H6 as [(q & a & b & I & X)|H6]; [|auto]. left. destruct I as [<-|I]; [congruence|]. exists q, a, b. split; [right; exact I|exact X].
  - intros u. specialize (H7 u). cbn [wsum] in *. rewrite Fl in H7. rewrite Fl0. exact H7.
  - intros u X. apply H9. cbn [wsum] in *. rewrite Ft. rewrite Ft0 in X. exact X.
  - intros u Nu X. unfold fset in X. destruct (Nat.eqb_spec u nb) as [->|D]; [discriminate|]. rewrite OW1 by exact D. auto.
  - intros u X Y. unfold fset in X. destruct (Nat.eqb_spec u nb) as [D|D]; [discriminate|]. cbn [wsum] in *. rewrite Fo0 in Y. destruct (H11 u X) as (Z1 & Z2); [lia|].
    rewrite Ft in Z1. rewrite Ft0. auto.
  - intros u X. cbn [wsum map] in *. rewrite Fv0 in X. rewrite <- Fv in X. destruct (H12 u X) as (A1 & A2 & A3 & A4 & A5). rewrite EF'. rewrite EF in A2. repeat split; auto. rewrite Fo0. lia.
  - intros u k. specialize (H13 u k). cbn [wsum] in *. rewrite Fs in H13. rewrite Fs0. exact H13.
  - intros q [<-|I]; [unfold pok; rewrite E'; exact Logic.I|]. pose proof (H15 q (or_intror I)) as Y. unfold pok in *. qs.
    assert (TT : forall u, wsum (tgt u) (p' :: r) = wsum (tgt u) (p :: r)) by (intros u; cbn [wsum]; rewrite Ft, Ft0; reflexivity).
    assert (VV : forall u, wsum (vld u) (p' :: r) = wsum (vld u) (p :: r)) by (intros u; cbn [wsum]; rewrite Fv, Fv0; reflexivity).
    destruct (p_m q) eqn:X; auto.
    + rewrite TT, VV. destruct Y as (Y1 & Y2 & Y3 & Y4 & Y5 & Y6 & Y7). rewrite fset_other by (intros ->; lia). repeat split; auto.
    + rewrite VV. destruct Y as (Y1 & Y2). rewrite fset_other by (intros ->; destruct Y1; [lia|contradiction]). split; auto.
Qed.

(** 147: tail := nblk. *)
Lemma s_P8a m p p' r c C L val t nb : QI m (p :: r) c C L val -> p_m p = P8a t nb -> p_m p' = P8b t nb -> p_f p' = p_f p ->
  QI (set_tl nb m) (p' :: r) c C L val /\ content (set_tl nb m) c C val = content m c C val.
Proof.
  intros H E E' EF. split; [|reflexivity]. pose proof H as [H1 H2 H3 H4 H5 H6 H7 H8 H9 H10 H11 H12 H13 H14 H15 H16].
  facts p E. facts p' E'.
  pose proof (H15 p (or_introl eq_refl)) as PP. unfold pok in PP. rewrite E in PP. destruct PP as (P1 & P2 & P3 & P4 & P5 & P6 & P7).
  assert (TT : forall u, wsum (tgt u) (p' :: r) = wsum (tgt u) (p :: r)) by (intros u; cbn [wsum]; rewrite Ft, Ft0; reflexivity).
  assert (VV : forall u, wsum (vld u) (p' :: r) = wsum (vld u) (p :: r)) by (intros u; cbn [wsum]; rewrite Fv, Fv0; reflexivity).
  assert (OO : forall u, wsum (ownp u) (p' :: r) = wsum (ownp u) (p :: r)) by (intros u; cbn [wsum]; rewrite Fo, Fo0; reflexivity).
  assert (NI : In nb C) by (apply cnt_in; lia).
  constructor; qs; auto.
  - cbn [map] in *. rewrite EF. apply fli_ext with (ownf C (p :: r) c) (holdf (p :: r)); auto.
    + intros u. unfold ownf. rewrite OO. reflexivity.
    + intros u. unfold holdf. cbn [wsum]. rewrite Fh, Fh0. reflexivity.
  - intros u. specialize (H7 u). cbn [wsum] in *. rewrite Fl in H7. rewrite Fl0. exact H7.
  - destruct (le_lt_dec (q_n m) nb) as [G|G]; [|exact G]. pose proof (proj1 (fi_own _ _ _ _ _ _ H1 nb G)) as Z. unfold ownf in Z. lia.
  - intros u. rewrite TT. auto.
  - intros u Nu X. unfold ownf. rewrite OO. apply H10; auto.
  - intros u X Y. rewrite OO in Y. rewrite TT. destruct (H11 u X Y) as (Z1 & Z2). split; [exact Z1|]. intros ->.
    pose proof (place _ _ _ _ _ _ H u). pose proof (ownw_ownc u c). lia.
  - intros u X. rewrite VV in X. rewrite OO. cbn [map] in *. rewrite EF. auto.
  - intros u k. specialize (H13 u k). cbn [wsum] in *. rewrite Fs in H13. rewrite Fs0. exact H13.
  - intros q [<-|I].
    + unfold pok. rewrite E'. qs. rewrite VV. repeat split; auto.
    + pose proof (H15 q (or_intror I)) as Y. unfold pok in *. qs. destruct (p_m q) eqn:X; auto.
      * destruct Y as (Y1 & Y2 & _). assert (nb0 = nb) by congruence. subst nb0. specialize (H7 nb). cbn [wsum] in H7. rewrite Fl, is_same in H7.
        pose proof (wsum_in (link nb) r q I) as Z. unfold link in Z at 1. rewrite X, is_same in Z. lia.
      * rewrite VV. destruct Y as (Y1 & Y2). split; [exact Y1|]. intros Z. destruct (Y2 Z) as (_ & Z1 & Z2 & _). congruence.
Qed.

(** 148-149: the linked block may be used from now on. *)
Lemma s_P8b m p p' r c C L val t nb : QI m (p :: r) c C L val -> p_m p = P8b t nb -> p_f p = FIdle -> p_m p' = WRetry -> p_f p' = RSub t KDone ->
  QI (set_freed nb false m) (p' :: r) c C L val /\ content (set_freed nb false m) c C val = content m c C val.
Proof.
  intros H E EF E' EF'. split; [|reflexivity]. pose proof H as [H1 H2 H3 H4 H5 H6 H7 H8 H9 H10 H11 H12 H13 H14 H15 H16].
  facts p E. facts p' E'.
  pose proof (H15 p (or_introl eq_refl)) as PP. unfold pok in PP. rewrite E in PP. destruct PP as (P1 & P2).
  assert (OO : forall u, wsum (ownp u) (p' :: r) = wsum (ownp u) (p :: r)) by (intros u; cbn [wsum]; rewrite Fo, Fo0; reflexivity).
  assert (ON : 1 <= cnt C nb + ownc nb c /\ ownw nb c = 0).
  { pose proof (place _ _ _ _ _ _ H nb). pose proof (ownw_ownc nb c). destruct P1 as [P1|P1]; [lia|]. unfold ownc, ownw. rewrite P1, is_same. lia. }
  assert (TT : forall u, wsum (tgt u) (p' :: r) <= wsum (tgt u) (p :: r)) by (intros u; cbn [wsum]; rewrite Ft0; lia).
  assert (VV : forall u, wsum (vld u) (p' :: r) <= wsum (vld u) (p :: r)) by (intros u; cbn [wsum]; rewrite Fv0; lia).
  constructor; qs; auto.
  - cbn [map]. apply (fl_release m p r c C L val t p'); auto.
    + rewrite Fh. apply is_same.
    + intros u. rewrite Fo, Fo0. reflexivity.
  - destruct H6 as [(q & a & b & I & X)|H6]; [|auto]. left. destruct I as [<-|I]; [congruence|]. exists q, a, b. split; [right; exact I|exact X].
  - intros u. specialize (H7 u). cbn [wsum] in *. rewrite Fl0. lia.
  - intros u X. apply H9. specialize (TT u). lia.
  - intros u Nu X. unfold ownf. rewrite OO. unfold fset in X. destruct (Nat.eqb_spec u nb) as [->|D]; [lia|]. apply H10; auto.
  - intros u X Y. rewrite OO in Y. unfold fset in X. destruct (Nat.eqb_spec u nb) as [D|D].
    + rewrite D in Y. pose proof (place _ _ _ _ _ _ H nb). lia.
    + destruct (H11 u X Y) as (Z1 & Z2). split; [specialize (TT u); lia|exact Z2].
  - intros u X. rewrite OO. cbn [map] in *. rewrite EF'. rewrite EF in H12. cbn [wsum] in *. apply H12. rewrite Fv0 in X. lia.
  - intros u k. specialize (H13 u k). cbn [wsum] in *. rewrite Fs in H13. rewrite Fs0. exact H13.
  - intros q [<-|I].
    + unfold pok. rewrite E'. exact Logic.I.
    + pose proof (H15 q (or_intror I)) as Y.
      assert (LN : link nb q = 0). { specialize (H7 nb). cbn [wsum] in H7. rewrite Fl, is_same in H7. pose proof (wsum_in (link nb) r q I). lia. }
      unfold link in LN. unfold pok in *. qs. destruct (p_m q) eqn:X; auto.
      * destruct Y as (Y1 & Y2 & Y3 & Y4 & Y5 & Y6 & Y7). assert (D : nb0 <> nb) by (intros ->; rewrite is_same in LN; discriminate).
        rewrite fset_other by exact D. repeat split; auto; [specialize (VV nb0); lia|]. destruct Y7 as [Y7|Y7]; [auto|right; specialize (TT nb0); lia].
      * destruct Y as (Y1 & Y2). assert (D : nb0 <> nb) by (intros ->; rewrite is_same in LN; discriminate).
        rewrite fset_other by exact D. split; [exact Y1|]. intros Z. destruct (Y2 Z) as (Z0 & Z1 & Z2 & Z3 & Z4). repeat split; auto. specialize (VV nb0). lia.
Qed.

(** ** Filling a slot *)
Definition vset (val : nat -> nat -> V) (u k : nat) (v : V) : nat -> nat -> V := fset val u (fset (val u) k v).
Lemma vset_same val u k v : vset val u k v u k = v.
Proof. unfold vset. rewrite fset_same, fset_same. reflexivity. Qed.
Lemma vset_other val u k v a b : (a <> u \/ b <> k) -> vset val u k v a b = val a b.
Proof.
  intros D. unfold vset, fset. destruct (Nat.eqb_spec a u) as [->|A]; [|reflexivity]. destruct (Nat.eqb_spec b k) as [->|X]; [|reflexivity]. destruct D; congruence.
Qed.
Lemma is2 a b u k : (a <> u \/ b <> k) -> is a u * is b k = 0.
Proof. intros [D|D]; rewrite (is_diff _ _ D); lia. Qed.
Lemma is2_pos a b u k : 0 < is a u * is b k -> a = u /\ b = k.
Proof. unfold is. destruct (Nat.eqb_spec a u), (Nat.eqb_spec b k); cbn; auto; lia. Qed.
Lemma rng_S a b k : a <= b -> rng a (b + 1) k = rng a b k + is k b.
Proof.
  intros H. unfold rng, is. destruct (Nat.leb_spec a k), (Nat.ltb_spec k (b + 1)), (Nat.ltb_spec k b), (Nat.eqb_spec k b); cbn; lia.
Qed.
Lemma rng_le a b k : rng a b k <= 1.
Proof. unfold rng. destruct (_ && _); lia. Qed.
Lemma cslot_bh m ps c C L val u k : QI m ps c C L val -> 0 < cslot u k c -> u = q_hd m /\ q_bh m u = k + 1.
Proof.
  intros H X. pose proof (qi_cok _ _ _ _ _ _ H) as Y. unfold cslot in X. unfold cok in Y. destruct (c_m c); try lia; apply is2_pos in X as (-> & ->); intuition; congruence.
Qed.

(** The slot about to be filled is not available and belongs to nobody. *)
Lemma slot_free m ps c C L val u k : QI m ps c C L val -> In u C -> q_bt m u <= k -> wsum (slot u k) ps = 0 /\ q_av m u k = false /\ cslot u k c = 0.
Proof.
  intros H I X. pose proof (qi_slot _ _ _ _ _ _ H u k) as S.
  assert (R : rng (q_bh m u) (q_bt m u) k = 0). { unfold rng. destruct (Nat.ltb_spec k (q_bt m u)); [lia|]. rewrite andb_false_r. reflexivity. }
  assert (CS : cslot u k c = 0). { destruct (Nat.eq_dec (cslot u k c) 0) as [Z|Z]; [exact Z|]. destruct (cslot_bh _ _ _ _ _ _ u k H) as (_ & Y); [lia|]. pose proof (qi_bt _ _ _ _ _ _ H u I). lia. }
  rewrite R, CS in S. destruct (q_av m u k); cbn in S; repeat split; lia.
Qed.

Lemma bvals_ext m val val' u : (forall k, q_bh m u <= k < q_bt m u -> val' u k = val u k) -> bvals m val' u = bvals m val u.
Proof. intros H. unfold bvals. apply map_ext_in. intros k I. apply in_seq in I. apply H. lia. Qed.

(** 159, success. *)
Lemma s_P9 m p p' r c C L val t k : QI m (p :: r) c C L val -> p_m p = P9 t k -> p_m p' = P10 t k -> p_f p' = p_f p -> p_v p' = p_v p -> q_bt m t = k ->
  QI (set_bt t (k + 1) m) (p' :: r) c C L (vset val t k (p_v p))
  /\ content (set_bt t (k + 1) m) c C (vset val t k (p_v p)) = content m c C val ++ [p_v p].
Proof.
  intros H E E' EF EV BT. pose proof H as [H1 H2 H3 H4 H5 H6 H7 H8 H9 H10 H11 H12 H13 H14 H15 H16].
  facts p E. facts p' E'.
  pose proof (H15 p (or_introl eq_refl)) as KB. unfold pok in KB. rewrite E in KB.
  assert (TV : 0 < wsum (vld t) (p :: r)) by (cbn [wsum]; rewrite Fv, is_same; lia).
  assert (TC : In t C). { destruct (H12 t TV) as (_ & _ & _ & _ & [I|(I & _)]); [exact I|lia]. }
  assert (TN : q_bnext m t = None). { destruct (q_bnext m t) eqn:X; [|reflexivity]. assert (q_bt m t = B) by (apply H4; [exact TC|congruence]). lia. }
  pose proof (cnt_C1 _ _ _ _ _ _ _ H TC) as C1.
  destruct (H3 t TC) as (BH & _).
  destruct (slot_free _ _ _ _ _ _ t k H TC) as (SF & AV & CS); [lia|].
  assert (TT : forall u, wsum (tgt u) (p' :: r) = wsum (tgt u) (p :: r)) by (intros u; cbn [wsum]; rewrite Ft, Ft0; reflexivity).
  assert (VV : forall u, wsum (vld u) (p' :: r) = wsum (vld u) (p :: r)) by (intros u; cbn [wsum]; rewrite Fv, Fv0; reflexivity).
  assert (OO : forall u, wsum (ownp u) (p' :: r) = wsum (ownp u) (p :: r)) by (intros u; cbn [wsum]; rewrite Fo, Fo0; reflexivity).
  assert (NT : forall u, 0 < wsum (ownp u) (p :: r) + ownc u c -> u <> t) by (intros u X ->; pose proof (place _ _ _ _ _ _ H t); lia).
  assert (VL : forall a b, (q_av m a b = true \/ 0 < wsum (slot a b) (p :: r) \/ 0 < cslot a b c) -> vset val t k (p_v p) a b = val a b).
  { intros a b X. apply vset_other. destruct (Nat.eq_dec a t) as [->|]; [|auto]. destruct (Nat.eq_dec b k) as [->|]; [|auto]. rewrite AV in X. destruct X as [X|[X|X]]; [discriminate|lia|lia]. }
  split.
  - constructor; qs; auto.
    + cbn [map] in *. rewrite EF. apply fli_ext with (ownf C (p :: r) c) (holdf (p :: r)); auto.
      * intros u. unfold ownf. rewrite OO. reflexivity.
      * intros u. unfold holdf. cbn [wsum]. rewrite Fh, Fh0. reflexivity.
    + intros u I. unfold fset. destruct (Nat.eqb_spec u t) as [->|D]; [lia|auto].
    + intros u I X. unfold fset. destruct (Nat.eqb_spec u t) as [->|D]; [contradiction|auto].
    + destruct H6 as [(q & a & b & I & X)|H6]; [|auto]. left. destruct I as [<-|I]; [congruence|]. exists q, a, b. split; [right; exact I|exact X].
    + intros u. specialize (H7 u). cbn [wsum] in *. rewrite Fl in H7. rewrite Fl0. exact H7.
    + intros u. rewrite TT. auto.
    + intros u Nu X. unfold ownf. rewrite OO. apply H10; auto.
    + intros u X Y. rewrite OO in Y. rewrite TT. auto.
    + intros u X. rewrite VV in X. rewrite OO. cbn [map] in *. rewrite EF. destruct (H12 u X) as (A1 & A2 & A3 & A4 & A5). repeat split; auto.
      destruct (Nat.eq_dec u t) as [->|D]; [auto|]. rewrite fset_other by exact D. exact A5.
    + intros u j. specialize (H13 u j). cbn [wsum] in *. rewrite Fs in H13. rewrite Fs0. unfold fset. destruct (Nat.eqb_spec u t) as [->|D].
      * rewrite is_same, rng_S, C1 by lia. rewrite C1, BT in H13. lia.
      * rewrite is_diff by exact D. lia.
    + intros u j X. rewrite VL by auto. auto.
    + intros q [<-|I].
      * unfold pok. rewrite E', vset_same, EV. reflexivity.
      * pose proof (H15 q (or_intror I)) as Y. unfold pok in *. qs.
        assert (OQ : forall u, ownp u q = 1 -> u <> t). { intros u X. apply NT. pose proof (wsum_in (ownp u) r q I). cbn [wsum]. lia. }
        assert (SQ : forall u j, slot u j q = 1 -> vset val t k (p_v p) u j = val u j). { intros u j X. apply VL. right. left. pose proof (wsum_in (slot u j) r q I). cbn [wsum]. lia. }
        unfold ownp in OQ. unfold slot in SQ.
        assert (BE : forall a, q_bt m a = B -> fset (q_bt m) t (k + 1) a = B) by (intros a X; rewrite fset_other; [exact X|intros ->; lia]).
        assert (VT : forall a, wsum (vld a) (p :: r) = 0 -> a <> t) by (intros a X ->; lia).
        destruct (p_m q) eqn:X; auto; rewrite ?VV, ?TT.
        -- intuition.
        -- destruct Y as (Y1 & Y2 & Y3). repeat split; auto. rewrite fset_other; auto. apply OQ, is_same.
        -- destruct Y as (Y1 & Y2 & Y3 & Y4). repeat split; auto. rewrite fset_other; auto. apply OQ, is_same.
        -- destruct Y as (Y1 & Y2 & Y3 & Y4 & Y5 & Y6 & Y7). repeat split; auto. rewrite fset_other; auto.
        -- destruct Y as (Y1 & Y2). split; [exact Y1|]. intros Z. destruct (Y2 Z) as (Z0 & Z1 & Z2 & Z3 & Z4). repeat split; auto. rewrite fset_other; auto.
        -- rewrite SQ; [exact Y|]. rewrite !is_same. reflexivity.
        -- rewrite SQ; [exact Y|]. rewrite !is_same. reflexivity.
    + unfold cok in *. qs.
      assert (BE : forall a, q_bt m a = B -> fset (q_bt m) t (k + 1) a = B) by (intros a X; rewrite fset_other; [exact X|intros ->; lia]).
      destruct (c_m c) eqn:X; auto; try (intuition; fail).
      destruct H16 as (Z1 & Z2 & Z3). repeat split; auto. unfold fset. destruct (Nat.eqb_spec h t) as [->|D]; lia.
  - unfold content.
    replace (pre c (vset val t k (p_v p))) with (pre c val).
    2: { unfold pre. unfold cslot in VL. destruct (c_m c); auto; rewrite VL; auto; rewrite !is_same; cbn; auto. }
    rewrite <- app_assoc. f_equal. destruct (linked_last _ _ _ H2 t TC TN) as (C0 & ->). rewrite !flat_map_app. cbn [flat_map].
    rewrite <- app_assoc, !app_nil_r. f_equal.
    + assert (NI : ~ In t C0) by (intros I; apply cnt_in in I; rewrite cnt_app, cnt_cons, is_same in C1; lia).
      revert NI. clear. induction C0 as [|u C0 IH]; intros NI; [reflexivity|]. cbn [flat_map].
      assert (D : u <> t) by (intros ->; apply NI; left; reflexivity). rewrite IH by (intros I; apply NI; right; exact I).
      f_equal. unfold bvals. qs. rewrite fset_other by exact D. apply map_ext. intros j. apply vset_other. auto.
    + unfold bvals. qs. rewrite fset_same. replace (k + 1 - q_bh m t) with ((q_bt m t - q_bh m t) + 1) by lia. rewrite seq_app, map_app. cbn [seq map].
      replace (q_bh m t + (q_bt m t - q_bh m t)) with k by lia. rewrite vset_same. f_equal. apply map_ext_in. intros j I. apply in_seq in I. apply vset_other. right. lia.
Qed.

(** 163: the element is stored. *)
Lemma s_P10 m p p' r c C L val t k : QI m (p :: r) c C L val -> p_m p = P10 t k -> p_m p' = P11 t k -> p_f p' = p_f p -> p_v p' = p_v p ->
  QI (set_el t k (p_v p) m) (p' :: r) c C L val /\ content (set_el t k (p_v p) m) c C val = content m c C val.
Proof.
  intros H E E' EF EV. split; [|reflexivity]. pose proof H as [H1 H2 H3 H4 H5 H6 H7 H8 H9 H10 H11 H12 H13 H14 H15 H16].
  facts p E. facts p' E'.
  pose proof (H15 p (or_introl eq_refl)) as PP. unfold pok in PP. rewrite E in PP.
  assert (TT : forall u, wsum (tgt u) (p' :: r) = wsum (tgt u) (p :: r)) by (intros u; cbn [wsum]; rewrite Ft, Ft0; reflexivity).
  assert (VV : forall u, wsum (vld u) (p' :: r) = wsum (vld u) (p :: r)) by (intros u; cbn [wsum]; rewrite Fv, Fv0; reflexivity).
  assert (OO : forall u, wsum (ownp u) (p' :: r) = wsum (ownp u) (p :: r)) by (intros u; cbn [wsum]; rewrite Fo, Fo0; reflexivity).
  assert (SS : wsum (slot t k) r = 0 /\ q_av m t k = false).
  { pose proof (H13 t k) as S. cbn [wsum] in S. rewrite Fs, !is_same in S. pose proof (rng_le (q_bh m t) (q_bt m t) k). pose proof (place _ _ _ _ _ _ H t).
    assert (CS : cslot t k c <= 1) by (unfold cslot, is; destruct (c_m c); try lia; destruct (_ =? _), (_ =? _); cbn; lia).
    assert (cnt C t * rng (q_bh m t) (q_bt m t) k + cslot t k c <= 1).
    { destruct (Nat.eq_dec (cslot t k c) 0) as [Z|Z]; [nia|]. destruct (cslot_bh _ _ _ _ _ _ t k H) as (_ & Y); [lia|].
      assert (R : rng (q_bh m t) (q_bt m t) k = 0). { unfold rng. destruct (Nat.leb_spec (q_bh m t) k); [lia|]. reflexivity. } rewrite R. lia. }
    destruct (q_av m t k); cbn in S; split; auto; lia. }
  destruct SS as (SS & AV).
  assert (EL : forall a b, (a <> t \/ b <> k) -> fset (q_el m) t (fset (q_el m t) k (p_v p)) a b = q_el m a b).
  { intros a b. apply (vset_other (q_el m)). }
  constructor; qs; auto.
  - cbn [map] in *. rewrite EF. apply fli_ext with (ownf C (p :: r) c) (holdf (p :: r)); auto.
    + intros u. unfold ownf. rewrite OO. reflexivity.
    + intros u. unfold holdf. cbn [wsum]. rewrite Fh, Fh0. reflexivity.
  - destruct H6 as [(q & a & b & I & X)|H6]; [|auto]. left. destruct I as [<-|I]; [congruence|]. exists q, a, b. split; [right; exact I|exact X].
  - intros u. specialize (H7 u). cbn [wsum] in *. rewrite Fl in H7. rewrite Fl0. exact H7.
  - intros u. rewrite TT. auto.
  - intros u Nu X. unfold ownf. rewrite OO. apply H10; auto.
  - intros u X Y. rewrite OO in Y. rewrite TT. auto.
  - intros u X. rewrite VV in X. rewrite OO. cbn [map] in *. rewrite EF. auto.
  - intros u j. specialize (H13 u j). cbn [wsum] in *. rewrite Fs in H13. rewrite Fs0. exact H13.
  - intros u j X. rewrite EL; [auto|]. destruct (Nat.eq_dec u t) as [->|]; [|auto]. destruct (Nat.eq_dec j k) as [->|]; [congruence|auto].
  - intros q [<-|I].
    + unfold pok. rewrite E'. qs. rewrite !fset_same, EV. auto.
    + pose proof (H15 q (or_intror I)) as Y. unfold pok in *. qs. destruct (p_m q) eqn:X; auto; rewrite ?VV, ?TT; auto.
      destruct Y as (Y1 & Y2). split; [exact Y1|]. rewrite EL; [exact Y2|]. destruct (Nat.eq_dec t0 t) as [->|]; [|auto]. destruct (Nat.eq_dec k0 k) as [->|]; [|auto].
      pose proof (wsum_in (slot t k) r q I) as Z. unfold slot in Z at 1. rewrite X, !is_same in Z. lia.
  - unfold cok in *. qs. destruct (c_m c) eqn:X; auto.
    + destruct H16 as (Z1 & Z2 & Z3). repeat split; auto. rewrite EL; [exact Z3|]. destruct (Nat.eq_dec h t) as [->|]; [|auto]. destruct (Nat.eq_dec hh k) as [->|]; [|auto].
      pose proof (H13 t k) as S. unfold cslot in S. rewrite X in S. cbn [wsum] in S. rewrite Fs, !is_same in S. 
      assert (R : rng (q_bh m t) (q_bt m t) k = 0). { unfold rng. destruct (Nat.leb_spec (q_bh m t) k); [lia|]. reflexivity. } lia.
    + destruct H16 as (Z1 & Z2 & Z3 & Z4). repeat split; auto. rewrite EL; [exact Z3|]. destruct (Nat.eq_dec h t) as [->|]; [|auto]. destruct (Nat.eq_dec hh k) as [->|]; [congruence|auto].
Qed.

(** 164-165: the element is available. *)
Lemma s_P11 m p p' r c C L val t k : QI m (p :: r) c C L val -> p_m p = P11 t k -> p_f p = FIdle -> p_m p' = WTrue -> p_f p' = RSub t KDone ->
  QI (set_av t k true m) (p' :: r) c C L val /\ content (set_av t k true m) c C val = content m c C val.
Proof.
  intros H E EF E' EF'. split; [|reflexivity]. pose proof H as [H1 H2 H3 H4 H5 H6 H7 H8 H9 H10 H11 H12 H13 H14 H15 H16].
  facts p E. facts p' E'.
  pose proof (H15 p (or_introl eq_refl)) as PP. unfold pok in PP. rewrite E in PP.
  assert (OO : forall u, wsum (ownp u) (p' :: r) = wsum (ownp u) (p :: r)) by (intros u; cbn [wsum]; rewrite Fo, Fo0; reflexivity).
  assert (TT : forall u, wsum (tgt u) (p' :: r) <= wsum (tgt u) (p :: r)) by (intros u; cbn [wsum]; rewrite Ft0; lia).
  assert (VV : forall u, wsum (vld u) (p' :: r) <= wsum (vld u) (p :: r)) by (intros u; cbn [wsum]; rewrite Fv0; lia).
  assert (AV : q_av m t k = false).
  { pose proof (H13 t k) as S. cbn [wsum] in S. rewrite Fs, !is_same in S. pose proof (rng_le (q_bh m t) (q_bt m t) k). pose proof (place _ _ _ _ _ _ H t).
    assert (CS : cslot t k c <= 1) by (unfold cslot, is; destruct (c_m c); try lia; destruct (_ =? _), (_ =? _); cbn; lia).
    assert (cnt C t * rng (q_bh m t) (q_bt m t) k + cslot t k c <= 1).
    { destruct (Nat.eq_dec (cslot t k c) 0) as [Z|Z]; [nia|]. destruct (cslot_bh _ _ _ _ _ _ t k H) as (_ & Y); [lia|].
      assert (R : rng (q_bh m t) (q_bt m t) k = 0). { unfold rng. destruct (Nat.leb_spec (q_bh m t) k); [lia|]. reflexivity. } rewrite R. lia. }
    destruct (q_av m t k); cbn in S; auto; lia. }
  constructor; qs; auto.
  - cbn [map]. apply (fl_release m p r c C L val t p'); auto.
    + rewrite Fh. apply is_same.
    + intros u. rewrite Fo, Fo0. reflexivity.
  - destruct H6 as [(q & a & b & I & X)|H6]; [|auto]. left. destruct I as [<-|I]; [congruence|]. exists q, a, b. split; [right; exact I|exact X].
  - intros u. specialize (H7 u). cbn [wsum] in *. rewrite Fl0. lia.
  - intros u X. apply H9. specialize (TT u). lia.
  - intros u Nu X. unfold ownf. rewrite OO. apply H10; auto.
  - intros u X Y. rewrite OO in Y. destruct (H11 u X Y) as (Z1 & Z2). split; [specialize (TT u); lia|exact Z2].
  - intros u X. rewrite OO. cbn [map] in *. rewrite EF'. rewrite EF in H12. cbn [wsum] in *. apply H12. rewrite Fv0 in X. lia.
  - intros u j. specialize (H13 u j). cbn [wsum] in *. rewrite Fs in H13. rewrite Fs0. destruct (Nat.eq_dec u t) as [->|D].
    + rewrite fset_same. destruct (Nat.eq_dec j k) as [->|D].
      * rewrite fset_same. rewrite !is_same, AV in H13. cbn [b2n] in *. lia.
      * rewrite fset_other by exact D. rewrite (is_diff j k D) in H13. lia.
    + rewrite fset_other by exact D. rewrite (is_diff u t D) in H13. lia.
  - intros u j X. destruct (Nat.eq_dec u t) as [->|D]; [|rewrite fset_other in X by exact D; auto]. rewrite fset_same in X.
    destruct (Nat.eq_dec j k) as [->|D]; [|rewrite fset_other in X by exact D; auto]. destruct PP; congruence.
  - intros q [<-|I].
    + unfold pok. rewrite E'. exact Logic.I.
    + pose proof (H15 q (or_intror I)) as Y. unfold pok in *. qs. destruct (p_m q) eqn:X; auto.
      * destruct Y as (Y1 & Y2 & Y3 & Y4 & Y5 & Y6 & Y7).
        repeat split; auto; [specialize (VV nb); lia|]. destruct Y7 as [Y7|Y7]; [auto|right; specialize (TT nb); lia].
      * destruct Y as (Y1 & Y2). split; [exact Y1|]. intros Z. destruct (Y2 Z) as (Z0 & Z1 & Z2 & Z3 & Z4). repeat split; auto. specialize (VV nb). lia.
  - unfold cok in *. qs.
    assert (AA : forall a b, q_av m a b = true -> fset (q_av m) t (fset (q_av m t) k true) a b = true).
    { intros a b X. unfold fset. destruct (Nat.eqb_spec a t) as [->|]; [|exact X]. destruct (b =? k); auto. }
    destruct (c_m c) eqn:X; auto; intuition.
Qed.

(** ** Steps that only move the program counter *)
Lemma set_fl_id (m : qmem) : set_fl (q_fl m) m = m.
Proof. destruct m. reflexivity. Qed.
Lemma content_fl fl' m c C val : content (set_fl fl' m) c C val = content m c C val.
Proof. reflexivity. Qed.

Lemma fl_same m p p' r c C L val : QI m (p :: r) c C L val -> p_f p' = p_f p -> (forall u, ownp u p' = ownp u p) -> (forall u, hold u p' = hold u p) ->
  FLI (q_fl m) (q_n m) (c_f c :: p_f p' :: map p_f r) (ownf C (p' :: r) c) (holdf (p' :: r)) L.
Proof.
  intros H F O HO. pose proof (qi_fl _ _ _ _ _ _ H) as X. cbn [map] in X. rewrite F. apply fli_ext with (ownf C (p :: r) c) (holdf (p :: r)); auto.
  - intros u. unfold ownf. cbn [wsum]. rewrite O. reflexivity.
  - intros u. unfold holdf. cbn [wsum]. rewrite HO. reflexivity.
Qed.

(** A producer that moves on without touching anything: it may forget the tail block, keep it, or read the tail pointer. *)
Lemma qi_pc m p p' r c C L val : QI m (p :: r) c C L val -> p_f p' = p_f p \/ ((p_f p = FDone \/ p_f p = FRes None) /\ p_f p' = FIdle) \/ (p_f p = FIdle /\ p_f p' = PLoad) ->
  (forall u, ownp u p' = ownp u p) -> (forall u, hold u p' = hold u p) -> (forall u, vld u p' = vld u p) -> 
  (forall u, link u p' = link u p) -> (forall u k, slot u k p' = slot u k p) ->
  (forall u, 0 < tgt u p' -> 0 < tgt u p \/ u = q_tl m) -> (forall t nb, p_m p <> P8a t nb) -> pok m (p' :: r) c C val p' ->
  QI m (p' :: r) c C L val.
Proof.
  intros H F O HO VO LO SO TO N8 PO. rewrite <- (set_fl_id m). pose proof (qi_fl _ _ _ _ _ _ H) as X. cbn [map] in X.
  apply qi_move with p; auto.
  - destruct F as [F|[(F & F')|(F & F')]]; [apply (fl_same m p p' r c C L val); auto| |].
    + rewrite F'. apply fli_ext with (ownf C (p :: r) c) (holdf (p :: r)).
      * intros u. unfold ownf. cbn [wsum]. rewrite O. reflexivity.
      * intros u. unfold holdf. cbn [wsum]. rewrite HO. reflexivity.
      * apply (fli_perm _ _ (FIdle :: c_f c :: map p_f r)); [apply perm_swap|]. apply fli_ret with (p_f p); [exact F|]. apply (fli_perm _ _ (c_f c :: p_f p :: map p_f r)); [apply perm_swap|exact X].
    + rewrite F'. rewrite F in X. apply fli_ext with (ownf C (p :: r) c) (holdf (p :: r)).
      * intros u. unfold ownf. cbn [wsum]. rewrite O. reflexivity.
      * intros u. unfold holdf. cbn [wsum]. rewrite HO. reflexivity.
      * apply (fli_perm _ _ (PLoad :: c_f c :: map p_f r)); [apply perm_swap|]. apply fli_call. apply (fli_perm _ _ (c_f c :: FIdle :: map p_f r)); [apply perm_swap|exact X].
  - intros u. destruct F as [F|[([F|F] & F')|(F & F')]]; rewrite ?F', ?F; cbn; lia.
  - intros u Y. rewrite VO in Y. auto.
  - intros (t & nb & Y). destruct (N8 t nb Y).
Qed.

(** Release of the tail block without any other effect. *)
Lemma qi_release m p p' r c C L val t : QI m (p :: r) c C L val -> p_f p = FIdle \/ p_f p = FDone \/ p_f p = FRes None -> p_f p' = RSub t KDone ->
  (forall u, hold u p = is u t) -> (forall u, tgt u p' = 0) ->
  (forall u, ownp u p = 0) -> (forall u, ownp u p' = 0) -> (forall u, link u p = 0) -> (forall u, link u p' = 0) -> (forall u k, slot u k p = 0) -> (forall u k, slot u k p' = 0) ->
  pok m (p' :: r) c C val p' ->
  QI m (p' :: r) c C L val.
Proof.
  intros H F F' HP TP O O' LO LO' SO SO' PO. rewrite <- (set_fl_id m). pose proof (qi_fl _ _ _ _ _ _ H) as X. cbn [map] in X.
  assert (HP' : forall u, hold u p' = 0) by (intros u; pose proof (hold_tgt u p'); rewrite TP in *; lia).
  apply qi_move with p; auto.
  - rewrite F'. apply (fli_perm _ _ (RSub t KDone :: c_f c :: map p_f r)); [apply perm_swap|].
    apply fli_ext with (ownf C (p :: r) c) (fset (holdf (p :: r)) t (wsum (hold t) r)).
    + intros u. unfold ownf. cbn [wsum]. rewrite O, O'. reflexivity.
    + intros u. unfold holdf, fset. cbn [wsum]. rewrite HP'. destruct (Nat.eqb_spec u t) as [->|N]; [reflexivity|]. rewrite HP, is_diff by exact N. reflexivity.
    + apply fli_drop; [|unfold holdf; cbn [wsum]; rewrite HP, is_same; reflexivity].
      assert (Y : FLI (q_fl m) (q_n m) (p_f p :: c_f c :: map p_f r) (ownf C (p :: r) c) (holdf (p :: r)) L) by (apply (fli_perm _ _ (c_f c :: p_f p :: map p_f r)); [apply perm_swap|exact X]).
      destruct F as [F|F]; [rewrite F in Y; exact Y|]. apply fli_ret with (p_f p); auto.
  - intros u. rewrite LO, LO'. reflexivity.
  - intros u k. rewrite SO, SO'. reflexivity.
  - intros u Y. rewrite TP in Y. lia.
  - intros u. rewrite F'. cbn. lia.
  - intros u Y. pose proof (hold_vld u p'). rewrite HP' in *. lia.
  - intros u. left. rewrite O, O'. reflexivity.
  - intros (a & b & Y). specialize (LO b). unfold link in LO. rewrite Y, is_same in LO. discriminate.
Qed.

(** 113, success: a reference to the tail block. *)
Lemma s_P2 m p p' r c C L val t : QI m (p :: r) c C L val -> p_m p = P2 t (rc m t) -> rc m t <> 0 -> p_m p' = P3 t -> p_f p' = p_f p ->
  QI (set_rc t (rc m t + 1) m) (p' :: r) c C L val.
Proof.
  intros H E RC E' EF. pose proof (qi_fl _ _ _ _ _ _ H) as X. cbn [map] in X. facts p E. facts p' E'. unfold set_rc. 
  assert (TN : t < q_n m) by (apply (qi_tgt _ _ _ _ _ _ H); cbn [wsum]; rewrite Ft, is_same; lia).
  apply qi_move with p; auto.
  - rewrite EF. apply fli_ext with (ownf C (p :: r) c) (fset (holdf (p :: r)) t (S (holdf (p :: r) t))).
    + intros u. unfold ownf. cbn [wsum]. rewrite Fo, Fo0. reflexivity.
    + intros u. unfold holdf, fset. cbn [wsum]. rewrite Fh0, Fh. destruct (Nat.eqb_spec u t) as [->|N]; [rewrite ?Fh, is_same; reflexivity|]. rewrite ?Fh, is_diff by exact N. reflexivity.
    + apply fli_take; auto.
  - intros u. rewrite Fl, Fl0. reflexivity.
  - intros u k. rewrite Fs, Fs0. reflexivity.
  - intros u Y. rewrite Ft. rewrite Ft0 in Y. auto.
  - intros u. rewrite EF. lia.
  - intros u Y. rewrite Fv0 in Y. lia.
  - intros u. left. rewrite Fo, Fo0. reflexivity.
  - intros (a & b & Y). congruence.
  - unfold pok. rewrite E'. exact I.
Qed.

(** 119, freed = false. *)
Lemma s_P3 m p p' r c C L val t : QI m (p :: r) c C L val -> p_m p = P3 t -> q_freed m t = false -> p_m p' = P4 t -> p_f p' = p_f p ->
  QI m (p' :: r) c C L val.
Proof.
  intros H E FR E' EF. rewrite <- (set_fl_id m). pose proof (qi_fl _ _ _ _ _ _ H) as X. cbn [map] in X. facts p E. facts p' E'.
  assert (TP : 0 < wsum (tgt t) (p :: r)) by (cbn [wsum]; rewrite Ft, is_same; lia).
  assert (TN : t < q_n m) by (apply (qi_tgt _ _ _ _ _ _ H); exact TP).
  pose proof (qi_freed _ _ _ _ _ _ H t TN FR) as OW. pose proof (place _ _ _ _ _ _ H t) as PL. unfold ownf in OW.
  assert (NO : wsum (ownp t) (p :: r) + ownw t c = 0).
  { destruct (Nat.eq_dec (wsum (ownp t) (p :: r) + ownw t c) 0) as [Z|Z]; [exact Z|]. destruct (qi_fresh _ _ _ _ _ _ H t FR); [lia|]. lia. }
  apply qi_move with p; auto.
  - apply (fl_same m p p' r c C L val); auto; intros u; [rewrite Fo, Fo0|rewrite Fh, Fh0]; reflexivity.
  - intros u. rewrite Fl, Fl0. reflexivity.
  - intros u k. rewrite Fs, Fs0. reflexivity.
  - intros u Y. rewrite Ft. rewrite Ft0 in Y. auto.
  - intros u. rewrite EF. lia.
  - intros u Y. right. rewrite Fv0 in Y. apply is_pos in Y. subst u. cbn [map wsum] in *.
    repeat split; auto; try lia; [rewrite Ft, is_same; lia|rewrite Fo0; lia|].
    destruct (Nat.eq_dec (cnt C t) 0) as [Z|Z]; [right|left; apply cnt_in; lia].
    assert (OC : ownc t c = 1) by lia. pose proof (qi_cok _ _ _ _ _ _ H) as CK. unfold ownc in OC. unfold ownw in *. unfold cok in CK. destruct (c_m c); try lia.
    assert (t = h) by (apply is_pos; lia). subst h. exact CK.
  - intros u. left. rewrite Fo, Fo0. reflexivity.
  - intros (a & b & Y). congruence.
  - unfold pok. rewrite E'. exact I.
Qed.

(** 131: a block from the free list. *)
Lemma s_P6_got m p p' r c C L val t nb : QI m (p :: r) c C L val -> p_m p = P6 t -> p_f p = FRes (Some nb) -> p_m p' = P7a t nb -> p_f p' = FIdle ->
  QI m (p' :: r) c C L val.
Proof.
  intros H E EF E' EF'. rewrite <- (set_fl_id m). pose proof (qi_fl _ _ _ _ _ _ H) as X. cbn [map] in X. rewrite EF in X. facts p E. facts p' E'.
  assert (G : wsum (c_got nb) (c_f c :: map p_f (p :: r)) > 0) by (cbn [map wsum]; rewrite EF; cbn; rewrite is_same; lia).
  assert (NN : nb < q_n m). { pose proof (fi_pc _ _ _ _ _ _ X (FRes (Some nb))) as Y. apply Y. right. left. reflexivity. }
  apply (fli_perm _ _ _ (FRes (Some nb) :: c_f c :: map p_f r)) in X; [|apply perm_swap]. destruct (fli_got _ _ _ _ _ _ _ X) as (O & X').
  apply qi_move with p; auto.
  - rewrite EF'. apply (fli_perm _ _ (FIdle :: c_f c :: map p_f r)); [apply perm_swap|].
    apply fli_ext with (fset (ownf C (p :: r) c) nb 1) (holdf (p :: r)); [| |exact X'].
    + intros u. unfold fset, ownf. cbn [wsum]. rewrite Fo0, Fo. destruct (Nat.eqb_spec u nb) as [->|D]; [|rewrite is_diff by exact D; reflexivity].
      rewrite is_same. unfold ownf in O. cbn [wsum] in O. lia.
    + intros u. unfold holdf. cbn [wsum]. rewrite Fh, Fh0. reflexivity.
  - intros u. rewrite Fl, Fl0. reflexivity.
  - intros u k. rewrite Fs, Fs0. reflexivity.
  - intros u Y. rewrite Ft. rewrite Ft0 in Y. auto.
  - intros u. rewrite EF', EF. cbn. lia.
  - intros u Y. left. rewrite Fv. rewrite Fv0 in Y. exact Y.
  - intros u. rewrite Fo, Fo0, Fv0. destruct (Nat.eq_dec u nb) as [->|D]; [right|left; apply is_diff; exact D].
    assert (V0 : wsum (vld nb) (p :: r) = 0). { destruct (Nat.eq_dec (wsum (vld nb) (p :: r)) 0) as [Z|Z]; [exact Z|]. destruct (qi_vld _ _ _ _ _ _ H nb) as (_ & Y & _); lia. }
    repeat split; auto.
    + destruct (q_freed m nb) eqn:FR; [reflexivity|]. pose proof (qi_freed _ _ _ _ _ _ H nb NN FR). lia.
    + cbn [wsum] in V0. rewrite Fv in V0. lia.
  - intros (a & b & Y). congruence.
  - pose proof (qi_pok _ _ _ _ _ _ H p (or_introl eq_refl)) as Y. unfold pok in *. rewrite E in Y. rewrite E'. exact Y.
Qed.

Lemma fresh_facts m ps c C L val : QI m ps c C L val ->
  cnt C (q_n m) = 0 /\ wsum (ownp (q_n m)) ps = 0 /\ ownc (q_n m) c = 0 /\ wsum (tgt (q_n m)) ps = 0 /\ wsum (vld (q_n m)) ps = 0 /\ q_hd m <> q_n m /\
  (forall k, cslot (q_n m) k c = 0) /\ (forall k, wsum (slot (q_n m) k) ps = 0).
Proof.
  intros H. destruct (fi_own _ _ _ _ _ _ (qi_fl _ _ _ _ _ _ H) (q_n m) (le_n _)) as (O & HO). unfold ownf in O. unfold holdf in HO.
  assert (HD : q_hd m <> q_n m). { intros Y. pose proof (hd_in _ _ _ _ _ _ H) as I. apply cnt_in in I. rewrite Y in I. lia. }
  assert (CS : forall k, cslot (q_n m) k c = 0).
  { intros k. destruct (Nat.eq_dec (cslot (q_n m) k c) 0) as [Z|Z]; [exact Z|]. destruct (cslot_bh _ _ _ _ _ _ (q_n m) k H) as (Y & _); [lia|congruence]. }
  repeat split; auto; try lia.
  - destruct (Nat.eq_dec (wsum (tgt (q_n m)) ps) 0) as [Z|Z]; [exact Z|]. assert (q_n m < q_n m) by (apply (qi_tgt _ _ _ _ _ _ H); lia). lia.
  - pose proof (wsum_le (vld (q_n m)) (hold (q_n m)) ps). assert (wsum (vld (q_n m)) ps <= wsum (hold (q_n m)) ps) by (apply wsum_le; intros; apply hold_vld). lia.
  - intros k. pose proof (qi_slot _ _ _ _ _ _ H (q_n m) k) as S. rewrite CS in S. assert (Z : cnt C (q_n m) = 0) by lia. rewrite Z in S. lia.
Qed.

(** 132: a new block. *)
Lemma s_alloc m p p' r c C L val t : QI m (p :: r) c C L val -> p_m p = P6 t -> p_f p = FRes None -> p_m p' = P7a t (q_n m) -> p_f p' = FIdle ->
  QI (snd (alloc m)) (p' :: r) c C L val.
Proof.
  intros H E EF E' EF'. destruct (fresh_facts _ _ _ _ _ _ H) as (CN & ON & OC & TN & VN & HD & CS & SN).
  pose proof H as [H1 H2 H3 H4 H5 H6 H7 H8 H9 H10 H11 H12 H13 H14 H15 H16]. facts p E. facts p' E'.
  pose proof (ownw_ownc (q_n m) c) as OWC.
  assert (TT : forall u, wsum (tgt u) (p' :: r) = wsum (tgt u) (p :: r)) by (intros u; cbn [wsum]; rewrite Ft, Ft0; reflexivity).
  assert (VV : forall u, wsum (vld u) (p' :: r) = wsum (vld u) (p :: r)) by (intros u; cbn [wsum]; rewrite Fv, Fv0; reflexivity).
  assert (OO : forall u, wsum (ownp u) (p' :: r) = wsum (ownp u) (p :: r) + is u (q_n m)) by (intros u; cbn [wsum]; rewrite Fo, Fo0; lia).
  constructor; unfold alloc, snd; qs; auto.
  - cbn [map] in *. rewrite EF'. rewrite EF in H1. apply (fli_perm _ _ (FIdle :: c_f c :: map p_f r)); [apply perm_swap|].
    apply fli_ext with (fset (ownf C (p :: r) c) (q_n m) 1) (holdf (p :: r)).
    + intros u. unfold fset. destruct (Nat.eqb_spec u (q_n m)) as [->|D]; unfold ownf; rewrite OO; [rewrite is_same; lia|rewrite is_diff by exact D; lia].
    + intros u. unfold holdf. cbn [wsum]. rewrite Fh, Fh0. reflexivity.
    + apply fli_new. apply fli_ret with (FRes None); [auto|]. apply (fli_perm _ _ (c_f c :: FRes None :: map p_f r)); [apply perm_swap|exact H1].
  - destruct H6 as [(q & a & b & I & X)|H6]; [|auto]. left. destruct I as [<-|I]; [congruence|]. exists q, a, b. split; [right; exact I|exact X].
  - intros u. specialize (H7 u). cbn [wsum] in *. rewrite Fl in H7. rewrite Fl0. exact H7.
  - intros u. rewrite TT. intros X. apply H9 in X. lia.
  - intros u Nu X. unfold ownf. rewrite OO. unfold fset in X. destruct (Nat.eqb_spec u (q_n m)) as [->|D]; [rewrite is_same; lia|].
    assert (Y : 1 <= ownf C (p :: r) c u) by (apply H10; auto; lia). unfold ownf in Y. lia.
  - intros u X Y. rewrite TT. unfold fset in X. destruct (Nat.eqb_spec u (q_n m)) as [D|D]; [rewrite D; split; [exact TN|lia]|].
    rewrite OO, is_diff in Y by exact D. apply H11; [exact X|lia].
  - intros u X. rewrite VV in X. assert (D : u <> q_n m) by (intros ->; lia). rewrite OO, is_diff by exact D. cbn [map] in *. rewrite EF'. rewrite EF in H12.
    destruct (H12 u X) as (A1 & A2 & A3 & A4 & A5). cbn [wsum] in *. cbn [c_got] in *. repeat split; auto. lia.
  - intros u k. specialize (H13 u k). cbn [wsum] in *. rewrite Fs in H13. rewrite Fs0. unfold fset. destruct (Nat.eqb_spec u (q_n m)) as [->|D]; [|exact H13].
    specialize (SN k). rewrite Fs in SN. rewrite CN, CS. cbn. lia.
  - intros u k X. unfold fset in X. destruct (Nat.eqb_spec u (q_n m)) as [->|D]; [discriminate|]. auto.
  - intros q [<-|I].
    + pose proof (H15 p (or_introl eq_refl)) as Y. unfold pok in *. rewrite E in Y. rewrite E'. exact Y.
    + pose proof (H15 q (or_intror I)) as Y. unfold pok in *. qs. destruct (p_m q) eqn:X; auto; rewrite ?VV, ?TT.
      * destruct Y as (Y1 & Y2 & Y3 & Y4 & Y5 & Y6 & Y7). rewrite fset_other by (intros ->; lia). repeat split; auto.
      * destruct Y as (Y1 & Y2). rewrite fset_other; [auto|]. intros ->. destruct Y1 as [Y1|Y1]; [lia|]. unfold ownc in OC. rewrite Y1, is_same in OC. discriminate.
  - unfold cok in *. qs. destruct (c_m c) eqn:X; auto; destruct H16 as (Z1 & Z2 & Z3); rewrite fset_other by congruence; auto.
Qed.

(** ** Every step of a producer *)
Definition enqs (o : list (obs V)) : list V := flat_map (fun x => match x with OEnq _ v => [v] | _ => [] end) o.

Ltac pcmove H := eexists _, _, _; split; [apply (qi_pc _ _ _ _ _ _ _ _ H); cbn; auto; try congruence; try (intros; unfold ownp, hold, vld, link, slot, tgt in *; cbn in *; auto; lia)|rewrite app_nil_r; reflexivity].
Ltac prelease H t := eexists _, _, _; split; [apply (qi_release _ _ _ _ _ _ _ _ t H); cbn; auto; try (intros; unfold ownp, hold, vld, link, slot, tgt in *; cbn in *; auto; lia); exact Logic.I|rewrite app_nil_r; reflexivity].

Lemma pstep_inv spur i p m p' m' o r c C L val : pstep B spur i p m = Some (p', m', o) -> QI m (p :: r) c C L val ->
  exists C' L' val', QI m' (p' :: r) c C' L' val' /\ content m' c C' val' = content m c C val ++ enqs o.
Proof.
  intros E H. destruct p as [f pc v unb]. pose proof (qi_pok _ _ _ _ _ _ H _ (or_introl eq_refl)) as PK. unfold pok in PK. cbn [p_m p_v] in PK. cbn [pstep] in E.
  assert (FL : forall f0 f1 fl1, fstep spur f0 (q_fl m) = Some (f1, fl1) -> f = f0 -> exists C' L' val', QI (set_fl fl1 m) (mkP f1 pc v unb :: r) c C' L' val' /\ content (set_fl fl1 m) c C' val' = content m c C val ++ enqs []).
  { intros f0 f1 fl1 X ->. pose proof (qi_fl _ _ _ _ _ _ H) as Y. cbn [map p_f] in Y. apply (fli_perm _ _ _ (f0 :: c_f c :: map p_f r)) in Y; [|apply perm_swap].
    destruct (fstep_place _ _ _ _ _ _ _ _ _ _ X Y) as (L' & Y1 & Y2). exists C, L', val. split; [|cbn; rewrite app_nil_r; reflexivity].
    apply (qi_fl_prod m fl1 f1 (mkP f0 pc v unb) r c C L L' val H); [exact Y1|exact Y2]. }
  destruct f; try (match goal with X : match fstep ?s ?f ?g with _ => _ end = _ |- _ => destruct (fstep s f g) as [(f1, fl1)|] eqn:FS; [injection E as <- <- <-; exact (FL _ _ _ FS eq_refl)|discriminate] end); clear FL.
  - (* FIdle *)
    destruct pc; try discriminate.
    + (* P0 *) injection E as <- <- <-. pcmove H. intros u X. right. unfold tgt in X. cbn in X. apply is_pos in X. exact X.
    + (* P1 *) injection E as <- <- <-. destruct (Nat.eqb_spec (rc m t) 0) as [Z|Z]; pcmove H.
    + (* P2 *) destruct ((rc m t =? c0) && negb spur) eqn:G; injection E as <- <- <-.
      * apply andb_prop in G as (G & _). apply Nat.eqb_eq in G. subst c0. exists C, L, val. split; [|rewrite app_nil_r; reflexivity].
        apply (s_P2 m (mkP FIdle (P2 t (rc m t)) v unb) _ r c C L val t H); auto.
      * pcmove H.
    + (* P3 *) destruct (q_freed m t) eqn:FR; injection E as <- <- <-.
      * prelease H t.
      * exists C, L, val. split; [|rewrite app_nil_r; reflexivity]. apply (s_P3 m (mkP FIdle (P3 t) v unb) _ r c C L val t H); auto.
    + (* P4 *) injection E as <- <- <-.
      assert (TB : B <= q_bt m t -> q_bt m t = B).
      { destruct (qi_vld _ _ _ _ _ _ H t) as (_ & _ & _ & _ & [I|(I & _)]); [cbn [wsum]; unfold vld at 1; cbn; rewrite is_same; lia| |auto].
        pose proof (qi_bt _ _ _ _ _ _ H t I). lia. }
      destruct (Nat.leb_spec B (q_bt m t)); pcmove H.
    + (* P5 *) destruct (q_bnext m t) eqn:NX; injection E as <- <- <-.
      * prelease H t.
      * pcmove H.
    + (* P7a *) injection E as <- <- <-. exists C, L, val. rewrite app_nil_r. apply (s_P7 m _ (mkP FIdle (P7a t nb) v unb) _ r c C L val t nb H); auto.
    + injection E as <- <- <-. exists C, L, val. rewrite app_nil_r. apply (s_P7 m _ (mkP FIdle (P7b t nb) v unb) _ r c C L val t nb H); auto 10.
    + injection E as <- <- <-. exists C, L, val. rewrite app_nil_r. apply (s_P7 m _ (mkP FIdle (P7c t nb) v unb) _ r c C L val t nb H); auto 10.
    + (* P7d *) destruct (oeqb (q_bnext m t) None && negb spur) eqn:G; injection E as <- <- <-.
      * apply andb_prop in G as (G & _). apply oeqb_true in G. exists (C ++ [nb]), L, val. rewrite app_nil_r. apply (s_link m (mkP FIdle (P7d t nb) v unb) _ r c C L val t nb H); auto.
      * pcmove H.
    + (* PF *) injection E as <- <- <-. exists C, L, val. rewrite app_nil_r. apply (s_PF m (mkP FIdle (PF t nb) v unb) _ r c C L val t nb H); auto.
    + (* P8a *) injection E as <- <- <-. exists C, L, val. rewrite app_nil_r. apply (s_P8a m (mkP FIdle (P8a t nb) v unb) _ r c C L val t nb H); auto.
    + (* P8b *) injection E as <- <- <-. exists C, L, val. rewrite app_nil_r. apply (s_P8b m (mkP FIdle (P8b t nb) v unb) _ r c C L val t nb H); auto.
    + (* P9 *) destruct ((q_bt m t =? k) && negb spur) eqn:G; injection E as <- <- <-.
      * apply andb_prop in G as (G & _). apply Nat.eqb_eq in G. exists C, L, (vset val t k v). apply (s_P9 m (mkP FIdle (P9 t k) v unb) _ r c C L val t k H); auto.
      * prelease H t.
    + (* P10 *) injection E as <- <- <-. exists C, L, val. rewrite app_nil_r. apply (s_P10 m (mkP FIdle (P10 t k) v unb) _ r c C L val t k H); auto.
    + (* P11 *) injection E as <- <- <-. exists C, L, val. rewrite app_nil_r. apply (s_P11 m (mkP FIdle (P11 t k) v unb) _ r c C L val t k H); auto.
  - (* FDone *)
    destruct pc; try discriminate; injection E as <- <- <-; try (pcmove H; fail).
    prelease H t.
  - (* FRes *)
    destruct pc; try discriminate. destruct r0 as [nb|]; [|destruct unb]; injection E as <- <- <-.
    + exists C, L, val. split; [|rewrite app_nil_r; reflexivity]. apply (s_P6_got m (mkP (FRes (Some nb)) (P6 t) v unb) _ r c C L val t nb H); auto.
    + exists C, L, val. split; [|rewrite app_nil_r; reflexivity]. apply (s_alloc m (mkP (FRes None) (P6 t) v true) _ r c C L val t H); auto.
    + prelease H t.
Qed.

(** ** Steps of the consumer *)
Lemma qi_cmove m ps c c' C L val : QI m ps c C L val ->
  FLI (q_fl m) (q_n m) (c_f c' :: map p_f ps) (ownf C ps c') (holdf ps) L ->
  (forall u, c_got u (c_f c') <= c_got u (c_f c)) -> (forall h, c_m c = D4 h -> c_m c' = D4 h) -> (forall u k, cslot u k c' = cslot u k c) ->
  (forall u, ownc u c' = ownc u c /\ ownw u c' = ownw u c \/ q_freed m u = true /\ wsum (vld u) ps = 0) -> cok m c' ->
  QI m ps c' C L val.
Proof.
  intros H F G D S O K. pose proof H as [H1 H2 H3 H4 H5 H6 H7 H8 H9 H10 H11 H12 H13 H14 H15 H16]. constructor; auto.
  - intros u N X. destruct (O u) as [(O1 & _)|(O1 & _)]; [|congruence]. unfold ownf. rewrite O1. apply H10; auto.
  - intros u X Y. destruct (O u) as [(_ & O1)|(O1 & _)]; [|congruence]. rewrite O1 in Y. auto.
  - intros u X. destruct (O u) as [(_ & O1)|(_ & O1)]; [|lia]. destruct (H12 u X) as (A1 & A2 & A3 & A4 & A5). repeat split; auto; [|lia]. cbn [wsum] in *. specialize (G u). lia.
  - intros u k. rewrite S. auto.
  - intros p I. specialize (H15 p I). unfold pok in *. destruct (p_m p); auto. destruct H15 as ([Y|Y] & Z); split; auto.
Qed.

(** Without any effect on the memory. *)
Lemma qi_cpc m ps c c' C L val : QI m ps c C L val -> c_f c' = c_f c \/ (c_f c = FDone /\ c_f c' = FIdle) \/ (c_f c = FIdle /\ c_f c' = PLoad) ->
  (forall h, c_m c <> D4 h) -> (forall u k, cslot u k c' = cslot u k c) -> (forall u, ownc u c' = ownc u c /\ ownw u c' = ownw u c) -> cok m c' ->
  QI m ps c' C L val.
Proof.
  intros H F D S O K. pose proof (qi_fl _ _ _ _ _ _ H) as X. apply qi_cmove with c; auto.
  - assert (X' : FLI (q_fl m) (q_n m) (c_f c :: map p_f ps) (ownf C ps c') (holdf ps) L).
    { apply fli_ext with (ownf C ps c) (holdf ps); auto. intros u. unfold ownf. rewrite (proj1 (O u)). reflexivity. }
    destruct F as [F|[(F & F')|(F & F')]]; rewrite ?F, ?F' in *; auto.
    + apply fli_ret with FDone; auto.
    + apply fli_call. exact X'.
  - intros u. destruct F as [F|[(F & F')|(F & F')]]; rewrite ?F, ?F'; cbn; lia.
  - intros h Y. destruct (D h Y).
Qed.

Lemma chain_one m ps c C L val : QI m ps c C L val -> q_bnext m (q_hd m) = None -> C = [q_hd m].
Proof. intros H X. pose proof (qi_chain _ _ _ _ _ _ H) as Y. inversion Y as [|u l Z]. subst. rewrite X in Z. inversion Z. reflexivity. Qed.

Lemma empty_content m ps c C L val : QI m ps c C L val -> q_bnext m (q_hd m) = None -> q_bt m (q_hd m) <= q_bh m (q_hd m) -> pre c val = [] -> content m c C val = [].
Proof.
  intros H X Y Z. unfold content. rewrite Z, (chain_one _ _ _ _ _ _ H X). cbn [flat_map app]. unfold bvals. replace (q_bt m (q_hd m) - q_bh m (q_hd m)) with 0 by lia. reflexivity.
Qed.

(** 186 (216): head := next. *)
Lemma s_D3 m ps c C L val h n : QI m ps c C L val -> c_f c = FIdle -> c_m c = D3 h n ->
  QI (set_hd n m) ps (mkC FIdle (D4 h)) (tl C) L val /\ content (set_hd n m) (mkC FIdle (D4 h)) (tl C) val = content m c C val.
Proof.
  intros H EF E. pose proof H as [H1 H2 H3 H4 H5 H6 H7 H8 H9 H10 H11 H12 H13 H14 H15 H16]. unfold cok in H16. rewrite E in H16. destruct H16 as (HD & BH & BT & NX).
  inversion H2 as [|a C1 X Y Z]. subst a. cbn [tl]. rewrite <- HD in *. rewrite NX in X. subst C.
  assert (CU : forall u, cnt (h :: C1) u = cnt C1 u + is u h) by (intros u; rewrite cnt_cons; lia).
  assert (NI : ~ In h C1). { intros I. apply cnt_in in I. pose proof (place _ _ _ _ _ _ H h) as P. rewrite CU, is_same in P. lia. }
  assert (OC : forall u, ownc u c = 0 /\ ownw u c = 0) by (intros u; unfold ownc, ownw; rewrite E; auto).
  assert (OF : forall u, ownf C1 ps (mkC FIdle (D4 h)) u = ownf (h :: C1) ps c u).
  { intros u. unfold ownf. rewrite CU. unfold ownc at 1. cbn [c_m]. rewrite (proj1 (OC u)). lia. }
  assert (CI : forall u, u <> h -> cnt (h :: C1) u = cnt C1 u) by (intros u D; rewrite CU, is_diff by exact D; lia).
  split.
  - constructor; qs; auto.
    + cbn [c_f]. rewrite EF in H1. apply fli_ext with (ownf (h :: C1) ps c) (holdf ps); auto.
    + intros u I. apply H3. right. exact I.
    + intros u I. apply H4. right. exact I.
    + intros u I D. apply H5; [right; exact I|]. intros ->. contradiction.
    + destruct H6 as [H6|(I & T)]; [auto|]. right. destruct I as [I|I]; [congruence|auto].
    + intros u N F. rewrite OF. auto.
    + intros u F W. apply H11; [exact F|]. rewrite (proj2 (OC u)). unfold ownw in W. cbn in W. exact W.
    + intros u W. destruct (H12 u W) as (A1 & A2 & A3 & A4 & A5). rewrite EF in A2. repeat split; auto. destruct A5 as [[<-|A5]|A5]; auto. right. split; [exact BT|congruence].
    + intros u k. specialize (H13 u k). rewrite CU in H13. unfold cslot in H13. rewrite E in H13. unfold cslot. cbn [c_m].
      destruct (Nat.eq_dec u h) as [->|D]; [|rewrite is_diff in H13 by exact D; rewrite H13; lia].
      rewrite H13, BH, BT. assert (R : rng B B k = 0). { unfold rng. destruct (Nat.leb_spec B k), (Nat.ltb_spec k B); cbn; lia. } rewrite R. lia.
    + intros p I. specialize (H15 p I). unfold pok in *. qs. destruct (p_m p) eqn:PM; auto.
      * destruct H15 as (Y1 & Y2 & Y3 & Y4 & Y5 & Y6 & Y7). rewrite CI in Y3 by congruence. repeat split; auto.
      * destruct H15 as (Y1 & Y2). split.
        -- destruct (Nat.eq_dec nb h) as [->|D]; [right; reflexivity|]. rewrite CI in Y1 by exact D. destruct Y1 as [Y1|Y1]; [auto|congruence].
        -- intros W. destruct (Y2 W) as (W0 & W1 & W2 & W3 & W4). rewrite CI in W0 by congruence. repeat split; auto.
    + unfold cok. cbn [c_m]. qs. split; [exact BT|congruence].
  - unfold content, pre. rewrite E. cbn [c_m app flat_map]. unfold bvals at 2. rewrite BH, BT, Nat.sub_diag. reflexivity.
Qed.

(** 187 (217): the old head block is given back. *)
Lemma s_D4 m ps c C L val h : QI m ps c C L val -> c_f c = FIdle -> c_m c = D4 h -> (forall p t, In p ps -> p_m p <> P8b t h) ->
  QI (set_freed h true m) ps (mkC (RSub h KDone) WD) C L val /\ content (set_freed h true m) (mkC (RSub h KDone) WD) C val = content m c C val.
Proof.
  intros H EF E NP. pose proof H as [H1 H2 H3 H4 H5 H6 H7 H8 H9 H10 H11 H12 H13 H14 H15 H16].
  assert (OC : forall u, ownc u c = is u h /\ ownw u c = 0) by (intros u; unfold ownc, ownw; rewrite E; auto).
  assert (CH : cnt C h = 0) by (pose proof (place _ _ _ _ _ _ H h) as P; rewrite (proj1 (OC h)), is_same in P; lia).
  split.
  - constructor; qs; auto.
    + cbn [c_f]. rewrite EF in H1. apply fli_ext with (fset (ownf C ps c) h 0) (holdf ps); auto.
      * intros u. unfold fset. destruct (Nat.eqb_spec u h) as [->|D]; unfold ownf; rewrite ?(proj1 (OC _)); unfold ownc, ownw; cbn [c_m].
        -- pose proof (place _ _ _ _ _ _ H h) as P. rewrite (proj1 (OC h)), is_same in P. lia.
        -- rewrite is_diff by exact D. reflexivity.
      * apply fli_push; [exact H1|]. unfold ownf. rewrite (proj1 (OC h)), is_same. pose proof (place _ _ _ _ _ _ H h) as P. rewrite (proj1 (OC h)), is_same in P. lia.
    + intros u N F. unfold fset in F. destruct (Nat.eqb_spec u h) as [->|D]; [discriminate|]. specialize (H10 u N F). unfold ownf in *. rewrite (proj1 (OC u)), is_diff in H10 by exact D. lia.
    + intros u F W. unfold fset in F. destruct (Nat.eqb_spec u h) as [D|D]; [discriminate|]. apply H11; [exact F|]. rewrite (proj2 (OC u)). exact W.
    + intros u W. destruct (H12 u W) as (A1 & A2 & A3 & A4 & A5). rewrite EF in A2. repeat split; auto.
    + intros u k. specialize (H13 u k). unfold cslot in H13. rewrite E in H13. exact H13.
    + intros p I. pose proof (H15 p I) as PP. unfold pok in *. qs. destruct (p_m p) eqn:PM; auto.
      * destruct PP as (Y1 & Y2 & Y3 & Y4 & Y5 & Y6 & Y7). rewrite fset_other by (intros ->; lia). repeat split; auto.
      * destruct PP as (Y1 & Y2). assert (D : nb <> h) by (intros ->; destruct (NP p t I PM)). rewrite fset_other by exact D. destruct Y1 as [Y1|Y1]; [auto|congruence].
    + unfold cok. cbn. exact Logic.I.
  - unfold content, pre. rewrite E. reflexivity.
Qed.

Lemma rng_hd a b k : a < b -> rng a b k = rng (a + 1) b k + is k a.
Proof.
  intros H. unfold rng, is. destruct (Nat.leb_spec a k), (Nat.leb_spec (a + 1) k), (Nat.ltb_spec k b), (Nat.eqb_spec k a); cbn; lia.
Qed.

(** A consumer step that changes only the head index of the head block. *)
Lemma s_bh m ps c c' C L val h x : QI m ps c C L val -> h = q_hd m -> c_f c' = c_f c -> (forall u, c_m c <> D4 u) -> (forall u, ownc u c' = ownc u c /\ ownw u c' = ownw u c) ->
  x <= q_bt m h ->
  (forall k, cslot h k c' + rng x (q_bt m h) k = cslot h k c + rng (q_bh m h) (q_bt m h) k) -> (forall u k, u <> h -> cslot u k c' = cslot u k c) ->
  cok (set_bh h x m) c' -> QI (set_bh h x m) ps c' C L val.
Proof.
  intros H HD EF ND O XB S1 S2 K. pose proof H as [H1 H2 H3 H4 H5 H6 H7 H8 H9 H10 H11 H12 H13 H14 H15 H16].
  assert (HC : In h C) by (rewrite HD; apply (hd_in _ _ _ _ _ _ H)). pose proof (cnt_C1 _ _ _ _ _ _ _ H HC) as C1.
  constructor; qs; auto.
  - rewrite EF. apply fli_ext with (ownf C ps c) (holdf ps); auto. intros u. unfold ownf. rewrite (proj1 (O u)). reflexivity.
  - intros u I. unfold fset. destruct (Nat.eqb_spec u h) as [->|D]; [|auto]. pose proof (H3 h HC). lia.
  - intros u I D. rewrite fset_other by congruence. auto.
  - intros u N F. unfold ownf. rewrite (proj1 (O u)). apply H10; auto.
  - intros u F W. rewrite (proj2 (O u)) in W. auto.
  - intros u W. rewrite EF, (proj2 (O u)). auto.
  - intros u k. specialize (H13 u k). destruct (Nat.eq_dec u h) as [->|D]; [rewrite fset_same; rewrite C1 in *; specialize (S1 k); lia|].
    rewrite fset_other by exact D. rewrite S2 by exact D. exact H13.
  - intros p I. pose proof (H15 p I) as PP. unfold pok in *. qs.
    assert (OQ : forall u, ownp u p = 1 -> u <> h). { intros u Y ->. pose proof (wsum_in (ownp h) ps p I). pose proof (place _ _ _ _ _ _ H h). lia. }
    unfold ownp in OQ. destruct (p_m p) eqn:PM; auto; try (destruct PP as (Y1 & Y2); rewrite fset_other by (apply OQ, is_same); auto).
    destruct PP as ([Y1|Y1] & Y2); [auto|]. destruct (ND nb Y1).
Qed.

(** 189, 190: a slot is claimed. *)
Lemma s_D1 m ps c C L val h hh : QI m ps c C L val -> c_f c = FIdle -> c_m c = D1 h hh ->
  QI (set_bh h (hh + 1) m) ps (mkC FIdle (D5 h hh)) C L val /\ content (set_bh h (hh + 1) m) (mkC FIdle (D5 h hh)) C val = content m c C val.
Proof.
  intros H EF E. pose proof (qi_cok _ _ _ _ _ _ H) as K. unfold cok in K. rewrite E in K. destruct K as (K1 & K2 & K3). split.
  - apply s_bh with c; auto; try congruence.
    + intros u. unfold ownc, ownw. rewrite E. auto.
    + lia.
    + intros k. unfold cslot. rewrite E. cbn [c_m]. rewrite is_same, <- K2, (rng_hd hh) by exact K3. lia.
    + intros u k D. unfold cslot. rewrite E. cbn [c_m]. rewrite is_diff by exact D. reflexivity.
    + unfold cok. cbn [c_m]. qs. rewrite fset_same. auto.
  - unfold content, pre. rewrite E. cbn [c_m]. pose proof (qi_chain _ _ _ _ _ _ H) as Y. inversion Y as [|a C1 X Y1 Z]. subst C a. rewrite <- K1 in *. cbn [flat_map app].
    assert (NI : ~ In h C1). { intros I. apply cnt_in in I. pose proof (place _ _ _ _ _ _ H h) as P. rewrite cnt_cons, is_same in P. lia. }
    unfold bvals at 1 3. qs. rewrite fset_same, <- K2. replace (q_bt m h - hh) with (S (q_bt m h - (hh + 1))) by lia. cbn [seq map app]. replace (S hh) with (hh + 1) by lia.
    f_equal. f_equal. clear - NI. induction C1 as [|u C1 IH]; [reflexivity|]. cbn [flat_map]. rewrite IH by (intros I; apply NI; right; exact I). f_equal.
    unfold bvals. qs. rewrite fset_other by (intros ->; apply NI; left; reflexivity). reflexivity.
Qed.

(** rewind, last store. *)
Lemma s_W5 m ps c C L val e h hh : QI m ps c C L val -> c_f c = FIdle -> c_m c = W5 e h hh ->
  QI (set_bh h hh m) ps (mkC FIdle CReady) C L val /\ content (set_bh h hh m) (mkC FIdle CReady) C val = e :: content m c C val.
Proof.
  intros H EF E. pose proof (qi_cok _ _ _ _ _ _ H) as K. unfold cok in K. rewrite E in K. destruct K as (K1 & K2 & K3 & K4).
  pose proof (hd_in _ _ _ _ _ _ H) as HC. rewrite <- K1 in HC. pose proof (qi_bt _ _ _ _ _ _ H h HC) as BT. split.
  - apply s_bh with c; auto; try congruence.
    + intros u. unfold ownc, ownw. rewrite E. auto.
    + lia.
    + intros k. unfold cslot. rewrite E. cbn [c_m]. rewrite is_same, K2, (rng_hd hh) by lia. lia.
    + intros u k D. unfold cslot. rewrite E. cbn [c_m]. rewrite is_diff by exact D. reflexivity.
    + unfold cok. cbn. exact I.
  - unfold content, pre. rewrite E. cbn [c_m]. pose proof (qi_chain _ _ _ _ _ _ H) as Y. inversion Y as [|a C1 X Y1 Z]. subst C a. rewrite <- K1 in *. cbn [flat_map app].
    assert (NI : ~ In h C1). { intros I. apply cnt_in in I. pose proof (place _ _ _ _ _ _ H h) as P. rewrite cnt_cons, is_same in P. lia. }
    unfold bvals at 1 3. qs. rewrite fset_same, K2. replace (q_bt m h - hh) with (S (q_bt m h - (hh + 1))) by lia. cbn [seq map app]. replace (S hh) with (hh + 1) by lia.
    rewrite <- (qi_val _ _ _ _ _ _ H h hh K4), K3. f_equal. f_equal. clear - NI. induction C1 as [|u C1 IH]; [reflexivity|]. cbn [flat_map]. rewrite IH by (intros I; apply NI; right; exact I). f_equal.
    unfold bvals. qs. rewrite fset_other by (intros ->; apply NI; left; reflexivity). reflexivity.
Qed.

(** 193: the slot is given back. *)
Lemma s_D7 m ps c C L val h hh e : QI m ps c C L val -> c_f c = FIdle -> c_m c = D7 h hh e ->
  QI (set_av h hh false m) ps (mkC FIdle CReady) C L val /\ content (set_av h hh false m) (mkC FIdle CReady) C val = content m c C val.
Proof.
  intros H EF E. pose proof H as [H1 H2 H3 H4 H5 H6 H7 H8 H9 H10 H11 H12 H13 H14 H15 H16]. unfold cok in H16. rewrite E in H16. destruct H16 as (HD & BH & AV).
  assert (OC : forall u, ownc u c = 0 /\ ownw u c = 0) by (intros u; unfold ownc, ownw; rewrite E; auto).
  split.
  - constructor; qs; auto.
    + cbn [c_f]. rewrite EF in H1. apply fli_ext with (ownf C ps c) (holdf ps); auto. intros u. unfold ownf. rewrite (proj1 (OC u)). reflexivity.
    + intros u N F. specialize (H10 u N F). unfold ownf in *. rewrite (proj1 (OC u)) in H10. exact H10.
    + intros u F W. apply H11; [exact F|]. rewrite (proj2 (OC u)). exact W.
    + intros u W. destruct (H12 u W) as (A1 & A2 & A3 & A4 & A5). rewrite EF in A2. repeat split; auto.
    + intros u k. specialize (H13 u k). unfold cslot in H13. rewrite E in H13. unfold cslot. cbn [c_m]. destruct (Nat.eq_dec u h) as [->|D].
      * rewrite fset_same. destruct (Nat.eq_dec k hh) as [->|D].
        -- rewrite fset_same. rewrite !is_same, AV in H13. cbn [b2n] in *. lia.
        -- rewrite fset_other by exact D. rewrite (is_diff k hh D) in H13. lia.
      * rewrite fset_other by exact D. rewrite (is_diff u h D) in H13. lia.
    + intros u k X. unfold fset in X. destruct (Nat.eqb_spec u h) as [->|D]; [|auto]. destruct (k =? hh); [discriminate|auto].
    + intros p I. specialize (H15 p I). unfold pok in *. qs. destruct (p_m p); auto. destruct H15 as ([Y|Y] & Z); [auto|congruence].
    + unfold cok. cbn. exact Logic.I.
  - unfold content, pre. rewrite E. reflexivity.
Qed.

(** The slot before the head index is free. *)
Lemma slot_before m ps c C L val k : QI m ps c C L val -> k < q_bh m (q_hd m) -> cslot (q_hd m) k c = 0 -> wsum (slot (q_hd m) k) ps = 0 /\ q_av m (q_hd m) k = false.
Proof.
  intros H X CS. pose proof (qi_slot _ _ _ _ _ _ H (q_hd m) k) as S.
  assert (R : rng (q_bh m (q_hd m)) (q_bt m (q_hd m)) k = 0). { unfold rng. destruct (Nat.leb_spec (q_bh m (q_hd m)) k); [lia|]. reflexivity. }
  rewrite R, CS in S. destruct (q_av m (q_hd m) k); cbn in S; split; auto; lia.
Qed.

Lemma s_W3 m ps c C L val e : QI m ps c C L val -> c_f c = FIdle -> c_m c = W3 e ->
  let h := q_hd m in let hh := q_bh m h - 1 in
  QI (set_el h hh e m) ps (mkC FIdle (W4 e h hh)) C L val /\ content (set_el h hh e m) (mkC FIdle (W4 e h hh)) C val = content m c C val.
Proof.
  intros H EF E h hh. pose proof H as [H1 H2 H3 H4 H5 H6 H7 H8 H9 H10 H11 H12 H13 H14 H15 H16]. unfold cok in H16. rewrite E in H16.
  assert (OC : forall u, ownc u c = 0 /\ ownw u c = 0) by (intros u; unfold ownc, ownw; rewrite E; auto).
  destruct (slot_before _ _ _ _ _ _ hh H) as (SL & AV); [unfold hh, h; lia|unfold cslot; rewrite E; reflexivity|]. fold h in SL, AV.
  assert (ELO : forall a b, (a <> h \/ b <> hh) -> fset (q_el m) h (fset (q_el m h) hh e) a b = q_el m a b) by (intros a b; apply (vset_other (q_el m))).
  split.
  - constructor; qs; auto.
    + cbn [c_f]. rewrite EF in H1. apply fli_ext with (ownf C ps c) (holdf ps); auto. intros u. unfold ownf. rewrite (proj1 (OC u)). reflexivity.
    + intros u N F. specialize (H10 u N F). unfold ownf in *. rewrite (proj1 (OC u)) in H10. exact H10.
    + intros u F W. apply H11; [exact F|]. rewrite (proj2 (OC u)). exact W.
    + intros u W. destruct (H12 u W) as (A1 & A2 & A3 & A4 & A5). rewrite EF in A2. repeat split; auto.
    + intros u k. specialize (H13 u k). unfold cslot in H13. rewrite E in H13. exact H13.
    + intros u k X. rewrite ELO; [auto|].
      destruct (Nat.eq_dec u h) as [->|]; [|auto]. destruct (Nat.eq_dec k hh) as [->|]; [congruence|auto].
    + intros p I. pose proof (H15 p I) as PP. unfold pok in *. qs. destruct (p_m p) eqn:PM; auto.
      * destruct PP as ([Y|Y] & Z); [auto|congruence].
      * destruct PP as (Y1 & Y2). split; [exact Y1|]. rewrite ELO; [exact Y2|].
        destruct (Nat.eq_dec t h) as [->|]; [|auto]. destruct (Nat.eq_dec k hh) as [->|]; [|auto].
        pose proof (wsum_in (slot h hh) ps p I) as Z. unfold slot in Z at 1. rewrite PM, !is_same in Z. lia.
    + unfold cok. cbn [c_m]. qs. rewrite !fset_same. unfold hh, h. repeat split; lia.
  - unfold content, pre. rewrite E. reflexivity.
Qed.

Lemma s_W4 m ps c C L val e h hh : QI m ps c C L val -> c_f c = FIdle -> c_m c = W4 e h hh ->
  QI (set_av h hh true m) ps (mkC FIdle (W5 e h hh)) C L (vset val h hh e) /\ content (set_av h hh true m) (mkC FIdle (W5 e h hh)) C (vset val h hh e) = content m c C val.
Proof.
  intros H EF E. pose proof H as [H1 H2 H3 H4 H5 H6 H7 H8 H9 H10 H11 H12 H13 H14 H15 H16]. unfold cok in H16. rewrite E in H16. destruct H16 as (HD & BH & EL).
  assert (OC : forall u, ownc u c = 0 /\ ownw u c = 0) by (intros u; unfold ownc, ownw; rewrite E; auto).
  destruct (slot_before _ _ _ _ _ _ hh H) as (SL & AV); [rewrite <- HD; lia|unfold cslot; rewrite E; reflexivity|]. rewrite <- HD in SL, AV.
  assert (VL : forall u k, q_av m u k = true \/ 0 < wsum (slot u k) ps -> vset val h hh e u k = val u k).
  { intros u k X. apply vset_other. destruct (Nat.eq_dec u h) as [->|]; [|auto]. destruct (Nat.eq_dec k hh) as [->|]; [|auto]. destruct X; [congruence|lia]. }
  split.
  - constructor; qs; auto.
    + cbn [c_f]. rewrite EF in H1. apply fli_ext with (ownf C ps c) (holdf ps); auto. intros u. unfold ownf. rewrite (proj1 (OC u)). reflexivity.
    + intros u N F. specialize (H10 u N F). unfold ownf in *. rewrite (proj1 (OC u)) in H10. exact H10.
    + intros u F W. apply H11; [exact F|]. rewrite (proj2 (OC u)). exact W.
    + intros u W. destruct (H12 u W) as (A1 & A2 & A3 & A4 & A5). rewrite EF in A2. repeat split; auto.
    + intros u k. specialize (H13 u k). unfold cslot in H13. rewrite E in H13. unfold cslot. cbn [c_m]. destruct (Nat.eq_dec u h) as [->|D].
      * rewrite fset_same, is_same. destruct (Nat.eq_dec k hh) as [->|D].
        -- rewrite fset_same, is_same. rewrite AV in H13. cbn [b2n] in *. lia.
        -- rewrite fset_other by exact D. rewrite (is_diff k hh D). lia.
      * rewrite fset_other by exact D. rewrite (is_diff u h D). lia.
    + intros u k X. destruct (Nat.eq_dec u h) as [->|D].
      * rewrite fset_same in X. destruct (Nat.eq_dec k hh) as [->|D]; [rewrite vset_same; exact EL|]. rewrite fset_other in X by exact D. rewrite VL; auto.
      * rewrite fset_other in X by exact D. rewrite VL; auto.
    + intros p I. pose proof (H15 p I) as PP. unfold pok in *. qs.
      assert (SQ : forall u k, slot u k p = 1 -> vset val h hh e u k = val u k). { intros u k Y. apply VL. right. pose proof (wsum_in (slot u k) ps p I). lia. }
      unfold slot in SQ. destruct (p_m p) eqn:PM; auto.
      * destruct PP as ([Y|Y] & Z); [auto|congruence].
      * rewrite SQ; [exact PP|]. rewrite !is_same. reflexivity.
      * rewrite SQ; [exact PP|]. rewrite !is_same. reflexivity.
    + unfold cok. cbn [c_m]. qs. rewrite !fset_same. auto.
  - unfold content, pre. rewrite E. cbn [c_m app]. assert (Z : forall u, In u C -> bvals (set_av h hh true m) (vset val h hh e) u = bvals m val u).
    { intros u I. unfold bvals. qs. apply map_ext_in. intros k J. apply in_seq in J. apply vset_other. destruct (Nat.eq_dec u h) as [->|]; [right; lia|auto]. }
    revert Z. clear. induction C as [|u C IH]; intros Z; [reflexivity|]. cbn [flat_map]. rewrite Z by (left; reflexivity). rewrite IH; auto. intros v I. apply Z. right. exact I.
Qed.

(** rewind: the new first block is ready. *)
Lemma s_W2d m ps c C L val e nb : QI m ps c C L val -> c_f c = FIdle -> c_m c = W2d e nb ->
  QI (set_hd nb m) ps (mkC FIdle (W3 e)) (nb :: C) L val /\ content (set_hd nb m) (mkC FIdle (W3 e)) (nb :: C) val = content m c C val.
Proof.
  intros H EF E. pose proof H as [H1 H2 H3 H4 H5 H6 H7 H8 H9 H10 H11 H12 H13 H14 H15 H16]. unfold cok in H16. rewrite E in H16. destruct H16 as (K1 & K2 & K3 & K4).
  assert (OC : forall u, ownc u c = is u nb /\ ownw u c = is u nb) by (intros u; unfold ownc, ownw; rewrite E; auto).
  assert (CN : cnt C nb = 0) by (pose proof (place _ _ _ _ _ _ H nb) as P; rewrite (proj1 (OC nb)), is_same in P; lia).
  assert (OF : forall u, ownf (nb :: C) ps (mkC FIdle (W3 e)) u = ownf C ps c u).
  { intros u. unfold ownf. rewrite cnt_cons, (proj1 (OC u)). unfold ownc, ownw. cbn [c_m]. lia. }
  assert (CI : forall u, u <> nb -> cnt (nb :: C) u = cnt C u) by (intros u D; rewrite cnt_cons, is_diff by exact D; lia).
  split.
  - constructor; qs; auto.
    + cbn [c_f]. rewrite EF in H1. apply fli_ext with (ownf C ps c) (holdf ps); auto.
    + constructor. rewrite K4. exact H2.
    + intros u [<-|I]; [lia|auto].
    + intros u [<-|I] X; [exact K3|auto].
    + intros u [<-|I] D; [contradiction|]. destruct (Nat.eq_dec u (q_hd m)) as [->|D']; [exact K1|auto].
    + destruct H6 as [H6|(I & T)]; [auto|]. right. split; [right; exact I|exact T].
    + intros u N F. rewrite OF. auto.
    + intros u F W. apply H11; [exact F|]. unfold ownw in W. cbn [c_m] in W. lia.
    + intros u W. destruct (H12 u W) as (A1 & A2 & A3 & A4 & A5). rewrite EF in A2. repeat split; auto. destruct A5 as [A5|A5]; [left; right; exact A5|auto].
    + intros u k. specialize (H13 u k). unfold cslot in *. rewrite E in H13. cbn [c_m]. rewrite cnt_cons. destruct (Nat.eq_dec u nb) as [->|D]; [|rewrite is_diff by exact D; exact H13].
      rewrite H13, CN, K2, K3. assert (R : rng B B k = 0). { unfold rng. destruct (Nat.leb_spec B k), (Nat.ltb_spec k B); cbn; lia. } rewrite R. lia.
    + intros p I. pose proof (H15 p I) as PP. unfold pok in *. qs. destruct (p_m p) eqn:PM; auto.
      * destruct PP as (Y1 & Y2 & Y3 & Y4 & Y5 & Y6 & Y7). rewrite CI by (intros ->; lia). repeat split; auto.
      * destruct PP as (Y1 & Y2). destruct Y1 as [Y1|Y1]; [|congruence]. rewrite CI by (intros ->; lia). split; auto.
    + unfold cok. cbn [c_m]. qs. lia.
  - unfold content, pre. rewrite E. cbn [c_m app flat_map]. unfold bvals at 1. qs. rewrite K2, K3, Nat.sub_diag. reflexivity.
Qed.

(** rewind: the three stores that prepare the new first block. *)
Lemma s_W2 m m' ps c c' C L val e h nb : QI m ps c C L val -> c_f c' = c_f c ->
  (c_m c = W2a e h nb /\ c_m c' = W2b e h nb /\ m' = set_bh nb B m \/ c_m c = W2b e h nb /\ c_m c' = W2c e h nb /\ m' = set_bt nb B m
   \/ c_m c = W2c e h nb /\ c_m c' = W2d e nb /\ m' = set_bnext nb (Some h) m) ->
  QI m' ps c' C L val /\ content m' c' C val = content m c C val.
Proof.
  intros H EF E. pose proof (qi_cok _ _ _ _ _ _ H) as K.
  assert (OC : forall u, ownc u c = is u nb /\ ownw u c = is u nb) by (intros u; unfold ownc, ownw; destruct E as [(E & _)|[(E & _)|(E & _)]]; rewrite E; auto).
  pose proof (place _ _ _ _ _ _ H nb) as P. rewrite (proj1 (OC nb)), is_same in P.
  assert (VN : wsum (vld nb) ps = 0). { destruct (Nat.eq_dec (wsum (vld nb) ps) 0) as [Z|Z]; [exact Z|]. destruct (qi_vld _ _ _ _ _ _ H nb) as (_ & _ & _ & Y & _); [lia|]. rewrite (proj2 (OC nb)), is_same in Y. discriminate. }
  assert (FR : frame nb m m'). { destruct E as [(_ & _ & ->)|[(_ & _ & ->)|(_ & _ & ->)]]; [apply frame_bh|apply frame_bt|apply frame_bnext]. }
  assert (HN : q_hd m <> nb). { intros Y. pose proof (hd_in _ _ _ _ _ _ H) as I. apply cnt_in in I. rewrite Y in I. lia. }
  split.
  - apply qi_frame with nb m ps c; auto; try lia.
    + apply sameps_refl.
    + split; [exact EF|]. split.
      * intros u. destruct E as [(E & E' & _)|[(E & E' & _)|(E & E' & _)]]; rewrite E, E'; split; discriminate.
      * intros u. unfold ownc, ownw, cslot. destruct E as [(E & E' & _)|[(E & E' & _)|(E & E' & _)]]; rewrite E, E'; auto.
    + intros p I. apply pok_frame with nb m ps c; auto; try lia.
      * apply sameps_refl.
      * split; [exact EF|]. split.
        -- intros u. destruct E as [(E & E' & _)|[(E & E' & _)|(E & E' & _)]]; rewrite E, E'; split; discriminate.
        -- intros u. unfold ownc, ownw, cslot. destruct E as [(E & E' & _)|[(E & E' & _)|(E & E' & _)]]; rewrite E, E'; auto.
      * destruct E as [(E & _)|[(E & _)|(E & _)]]; rewrite E; discriminate.
      * pose proof (wsum_in (vld nb) ps p I). lia.
      * pose proof (wsum_in (ownp nb) ps p I). lia.
      * apply (qi_pok _ _ _ _ _ _ H). exact I.
    + unfold cok in *. destruct E as [(E & E' & ->)|[(E & E' & ->)|(E & E' & ->)]]; rewrite E in K; rewrite E'; qs; rewrite ?fset_same, ?fset_other by (destruct K; congruence); intuition; congruence.
  - apply content_frame with nb; auto; try lia. unfold pre. destruct E as [(E & E' & ->)|[(E & E' & ->)|(E & E' & ->)]]; rewrite E, E'; reflexivity.
Qed.

Lemma s_WP_got m ps c C L val e h nb : QI m ps c C L val -> c_f c = FRes (Some nb) -> c_m c = WP e h -> QI m ps (mkC FIdle (W2a e h nb)) C L val.
Proof.
  intros H EF E. pose proof (qi_fl _ _ _ _ _ _ H) as X. rewrite EF in X.
  assert (NN : nb < q_n m). { pose proof (fi_pc _ _ _ _ _ _ X (FRes (Some nb))) as Y. apply Y. left. reflexivity. }
  assert (G : 0 < wsum (c_got nb) (c_f c :: map p_f ps)) by (rewrite EF; cbn; rewrite is_same; lia).
  destruct (fli_got _ _ _ _ _ _ _ X) as (O & X'). apply qi_cmove with c; auto.
  - cbn [c_f]. apply fli_ext with (fset (ownf C ps c) nb 1) (holdf ps); [|reflexivity|exact X'].
    intros u. unfold fset, ownf in *. unfold ownc, ownw in *. rewrite E in *. cbn [c_m]. destruct (Nat.eqb_spec u nb) as [->|D]; [rewrite is_same; lia|rewrite is_diff by exact D; lia].
  - intros u. cbn. lia.
  - intros u Y. congruence.
  - intros u k. unfold cslot. rewrite E. reflexivity.
  - intros u. destruct (Nat.eq_dec u nb) as [->|D]; [right|left].
    + split.
      * destruct (q_freed m nb) eqn:FR; [reflexivity|]. pose proof (qi_freed _ _ _ _ _ _ H nb NN FR). lia.
      * destruct (Nat.eq_dec (wsum (vld nb) ps) 0) as [Z|Z]; [exact Z|]. destruct (qi_vld _ _ _ _ _ _ H nb) as (_ & Y & _); lia.
    + unfold ownc, ownw. rewrite E. cbn. rewrite is_diff by exact D. auto.
  - pose proof (qi_cok _ _ _ _ _ _ H) as K. unfold cok in *. rewrite E in K. exact K.
Qed.

Lemma s_WP_alloc m ps c C L val e h : QI m ps c C L val -> c_f c = FRes None -> c_m c = WP e h -> QI (snd (alloc m)) ps (mkC FIdle (W2a e h (q_n m))) C L val.
Proof.
  intros H EF E. destruct (fresh_facts _ _ _ _ _ _ H) as (CN & ON & OC & TN & VN & HD & CS & SN).
  pose proof H as [H1 H2 H3 H4 H5 H6 H7 H8 H9 H10 H11 H12 H13 H14 H15 H16].
  assert (OC' : forall u, ownc u c = 0 /\ ownw u c = 0) by (intros u; unfold ownc, ownw; rewrite E; auto).
  assert (OC2 : forall u, ownc u (mkC FIdle (W2a e h (q_n m))) = is u (q_n m) /\ ownw u (mkC FIdle (W2a e h (q_n m))) = is u (q_n m)) by (intros u; unfold ownc, ownw; auto).
  constructor; unfold alloc, snd; qs; auto.
  - cbn [c_f]. rewrite EF in H1.
    apply fli_ext with (fset (ownf C ps c) (q_n m) 1) (holdf ps); auto.
    + intros u. unfold fset. destruct (Nat.eqb_spec u (q_n m)) as [->|D]; unfold ownf; rewrite (proj1 (OC2 _)); [rewrite is_same; lia|rewrite is_diff by exact D; rewrite (proj1 (OC' u)); lia].
    + apply fli_new. apply fli_ret with (FRes None); auto.
  - intros u X. apply H9 in X. lia.
  - intros u Nu X. unfold ownf. rewrite (proj1 (OC2 u)). unfold fset in X. destruct (Nat.eqb_spec u (q_n m)) as [->|D]; [rewrite is_same; lia|].
    assert (Y : 1 <= ownf C ps c u) by (apply H10; auto; lia). unfold ownf in Y. rewrite (proj1 (OC' u)) in Y. lia.
  - intros u X Y. unfold fset in X. destruct (Nat.eqb_spec u (q_n m)) as [D|D]; [rewrite D; split; [exact TN|lia]|].
    rewrite (proj2 (OC2 u)), is_diff in Y by exact D. apply H11; [exact X|lia].
  - intros u X. assert (D : u <> q_n m) by (intros ->; lia). rewrite (proj2 (OC2 u)), is_diff by exact D. rewrite EF in H12. destruct (H12 u X) as (A1 & A2 & A3 & A4 & A5). repeat split; auto.
  - intros u k. specialize (H13 u k). unfold cslot in *. rewrite E in H13. cbn [c_m]. unfold fset. destruct (Nat.eqb_spec u (q_n m)) as [->|D]; [|exact H13].
    rewrite SN, CN. reflexivity.
  - intros u k X. unfold fset in X. destruct (Nat.eqb_spec u (q_n m)) as [->|D]; [discriminate|]. auto.
  - intros q I. pose proof (H15 q I) as Y. unfold pok in *. qs. destruct (p_m q) eqn:X; auto.
    + destruct Y as (Y1 & Y2 & Y3 & Y4 & Y5 & Y6 & Y7). rewrite fset_other by (intros ->; lia). repeat split; auto.
    + destruct Y as (Y1 & Y2). destruct Y1 as [Y1|Y1]; [|congruence]. rewrite fset_other by (intros ->; lia). auto.
  - unfold cok in *. rewrite E in H16. cbn [c_m]. exact H16.
Qed.

(** ** Every step of the consumer *)
Ltac cmove H := eexists _, _, _; split; [apply (qi_cpc _ _ _ _ _ _ _ H); cbn; auto; try congruence|cbn].

Ltac cm1 H := cmove H; try reflexivity; try (unfold cok; cbn; repeat split; auto; lia).

Lemma cstep_inv spur c m c' m' o ps C L val : cstep B spur c m = Some (c', m', o) -> QI m ps c C L val ->
  (forall h, c_m c = D4 h -> c_f c = FIdle -> forall p t, In p ps -> p_m p <> P8b t h) ->
  exists C' L' val', QI m' ps c' C' L' val' /\ hist (content m c C val) o (content m' c' C' val').
Proof.
  intros E H NP. destruct c as [f pc]. pose proof (qi_cok _ _ _ _ _ _ H) as K. unfold cok in K. cbn [c_m] in K. cbn [cstep] in E.
  pose proof (hd_in _ _ _ _ _ _ H) as HC. pose proof (qi_bt _ _ _ _ _ _ H _ HC) as HB2.
  assert (FL : forall f0 f1 fl1, fstep spur f0 (q_fl m) = Some (f1, fl1) -> f = f0 -> exists C' L' val', QI (set_fl fl1 m) ps (mkC f1 pc) C' L' val' /\ hist (content m (mkC f pc) C val) [] (content (set_fl fl1 m) (mkC f1 pc) C' val')).
  { intros f0 f1 fl1 X ->. pose proof (qi_fl _ _ _ _ _ _ H) as Y. cbn [c_f] in Y.
    destruct (fstep_place _ _ _ _ _ _ _ _ _ _ X Y) as (L' & Y1 & Y2). exists C, L', val. split; [|cbn; reflexivity].
    apply (qi_fl_cons m fl1 f1 ps (mkC f0 pc) C L L' val H); [exact Y1|exact Y2]. }
  destruct f; try (match goal with X : match fstep ?s ?f ?g with _ => _ end = _ |- _ => destruct (fstep s f g) as [(f1, fl1)|] eqn:FS; [injection E as <- <- <-; exact (FL _ _ _ FS eq_refl)|discriminate] end); clear FL.
  - destruct pc; try discriminate.
    + (* D0 *) destruct (Nat.leb_spec (q_bt m (q_hd m)) (q_bh m (q_hd m))) as [G|G].
      * destruct (Nat.ltb_spec (q_bt m (q_hd m)) B) as [G2|G2]; injection E as <- <- <-.
        -- cmove H. split; [|reflexivity]. apply (empty_content _ _ _ _ _ _ H); auto.
           destruct (q_bnext m (q_hd m)) eqn:NX; [|reflexivity]. assert (q_bt m (q_hd m) = B) by (apply (qi_full _ _ _ _ _ _ H); [exact HC|congruence]). lia.
        -- cm1 H.
      * injection E as <- <- <-. cm1 H.
    + (* D2 *) destruct K as (K1 & K2 & K3). destruct (q_bnext m h) eqn:NX; injection E as <- <- <-.
      * cm1 H.
      * cmove H. split; [|reflexivity]. apply (empty_content _ _ _ _ _ _ H); auto; [congruence|rewrite <- K1; lia].
    + (* D3 *) injection E as <- <- <-. destruct (s_D3 _ _ _ _ _ _ _ _ H eq_refl eq_refl) as (X & Y). exists (tl C), L, val. split; [exact X|cbn; exact Y].
    + (* D4 *) injection E as <- <- <-. destruct (s_D4 _ _ _ _ _ _ _ H eq_refl eq_refl (NP h eq_refl eq_refl)) as (X & Y). exists C, L, val. split; [exact X|cbn; exact Y].
    + (* D1 *) injection E as <- <- <-. destruct (s_D1 _ _ _ _ _ _ _ _ H eq_refl eq_refl) as (X & Y). exists C, L, val. split; [exact X|cbn; exact Y].
    + (* D5 *) injection E as <- <- <-. destruct K as (K1 & K2). destruct (q_av m h hh) eqn:AV.
      * cm1 H.
      * exists C, L, val. split; [exact H|reflexivity].
    + (* D6 *) injection E as <- <- <-. destruct K as (K1 & K2 & K3). cmove H.
      exists (flat_map (bvals m val) C). split; [|reflexivity]. unfold content, pre. cbn. rewrite (qi_val _ _ _ _ _ _ H h hh K3). reflexivity.
    + (* D7 *) injection E as <- <- <-. destruct (s_D7 _ _ _ _ _ _ _ _ _ H eq_refl eq_refl) as (X & Y). exists C, L, val. split; [exact X|cbn; exact Y].
    + (* W0 *) destruct (Nat.eqb_spec (q_bh m (q_hd m)) 0) as [G|G]; injection E as <- <- <-; cm1 H.
    + (* W2a *) injection E as <- <- <-. destruct (s_W2 m (set_bh nb B m) ps (mkC FIdle (W2a e h nb)) (mkC FIdle (W2b e h nb)) C L val e h nb H) as (X & Y); [reflexivity|left; cbn; auto|]. exists C, L, val. split; [exact X|cbn; exact Y].
    + injection E as <- <- <-. destruct (s_W2 m (set_bt nb B m) ps (mkC FIdle (W2b e h nb)) (mkC FIdle (W2c e h nb)) C L val e h nb H) as (X & Y); [reflexivity|right; left; cbn; auto|]. exists C, L, val. split; [exact X|cbn; exact Y].
    + injection E as <- <- <-. destruct (s_W2 m (set_bnext nb (Some h) m) ps (mkC FIdle (W2c e h nb)) (mkC FIdle (W2d e nb)) C L val e h nb H) as (X & Y); [reflexivity|right; right; cbn; auto|]. exists C, L, val. split; [exact X|cbn; exact Y].
    + (* W2d *) injection E as <- <- <-. destruct (s_W2d _ _ _ _ _ _ _ _ H eq_refl eq_refl) as (X & Y). exists (nb :: C), L, val. split; [exact X|cbn; exact Y].
    + (* W3 *) injection E as <- <- <-. destruct (s_W3 _ _ _ _ _ _ _ H eq_refl eq_refl) as (X & Y). exists C, L, val. split; [exact X|cbn; exact Y].
    + (* W4 *) injection E as <- <- <-. destruct (s_W4 _ _ _ _ _ _ _ _ _ H eq_refl eq_refl) as (X & Y). exists C, L, (vset val h hh e). split; [exact X|cbn; exact Y].
    + (* W5 *) injection E as <- <- <-. destruct (s_W5 _ _ _ _ _ _ _ _ _ H eq_refl eq_refl) as (X & Y). exists C, L, val. split; [exact X|cbn; exact Y].
  - destruct pc; try discriminate. injection E as <- <- <-. cmove H. reflexivity.
  - destruct pc; try discriminate. destruct r as [nb|]; injection E as <- <- <-.
    + exists C, L, val. split; [apply (s_WP_got _ _ _ _ _ _ _ _ _ H eq_refl eq_refl)|reflexivity].
    + exists C, L, val. split; [apply (s_WP_alloc _ _ _ _ _ _ _ _ H eq_refl eq_refl)|reflexivity].
Qed.

Lemma enqs_hist i p m p' m' o spur l l' : pstep B spur i p m = Some (p', m', o) -> l' = l ++ enqs o -> hist l o l'.
Proof.
  intros E ->. assert (S : o = [] \/ (exists v, o = [OEnq i v]) \/ exists b, o = [ORetE i b]).
  { destruct p as [f pc v unb]. cbn [pstep] in E.
    destruct f; try (match goal with X : match fstep ?s ?f ?g with _ => _ end = _ |- _ => destruct (fstep s f g) as [(f1, fl1)|]; [injection E as <- <- <-; auto|discriminate] end);
    destruct pc; try discriminate; repeat match goal with X : context [if ?b then _ else _] |- _ => destruct b | X : context [match ?b with Some _ => _ | None => _ end] |- _ => destruct b end; try (injection E as <- <- <-; eauto). }
  destruct S as [->|[(v & ->)|(b & ->)]]; cbn; rewrite ?app_nil_r; reflexivity.
Qed.
End Proofs.

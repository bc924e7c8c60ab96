(** C40: the free list. *)
From Coq Require Import Arith List Bool Lia Permutation.
From Verif Require Import QueueModel.
Import ListNotations.

(** The blocks linked in the list, from [top] on. *)
Inductive linked (next : nat -> option nat) : option nat -> list nat -> Prop :=
| linked_nil : linked next None []
| linked_cons u l : linked next (next u) l -> linked next (Some u) (u :: l).

(** ** Lists of thread positions *)

Section Sum.
Context {A : Type}.
Fixpoint wsum (w : A -> nat) (l : list A) : nat := match l with [] => 0 | p :: l => w p + wsum w l end.
Lemma wsum_perm w l l' : Permutation l l' -> wsum w l = wsum w l'.
Proof. induction 1; cbn; lia. Qed.
Lemma pick i l (p : A) : nth_error l i = Some p -> exists r, Permutation l (p :: r) /\ forall q, Permutation (repl i q l) (q :: r).
Proof.
  revert l. induction i as [|i IH]; intros [|x l] H; cbn in H; try discriminate.
  - injection H as ->. exists l. split; [apply Permutation_refl|]. intros q. apply Permutation_refl.
  - destruct (IH l H) as (r & P1 & P2). exists (x :: r). split.
    + eapply perm_trans; [apply perm_skip; exact P1|apply perm_swap].
    + intros q. cbn. eapply perm_trans; [apply perm_skip; apply P2|apply perm_swap].
Qed.
Lemma wsum_in w l p : In p l -> w p <= wsum w l.
Proof. induction l as [|x l IH]; cbn; [intros []|]. intros [->|H]; [lia|]. specialize (IH H). lia. Qed.
Lemma wsum_pos w l : 0 < wsum w l -> exists p, In p l /\ 0 < w p.
Proof.
  induction l as [|x l IH]; cbn; [lia|]. intros H. destruct (w x) eqn:E; [|exists x; split; [auto|lia]].
  destruct IH as (p & I & P); [lia|]. exists p. auto.
Qed.
Lemma wsum_all0 w l : (forall p, In p l -> w p = 0) -> wsum w l = 0.
Proof. induction l as [|x l IH]; cbn; intros H; [reflexivity|]. rewrite (H x), IH; auto. Qed.
End Sum.

(** ** Invariant *)

Definition is (u v : nat) : nat := if u =? v then 1 else 0.

(** Temporary references the free list code holds itself. *)
Definition c_tmp (u : nat) (p : flpc) : nat :=
  match p with RSub v _ | PNext v | PCas v _ => is u v | _ => 0 end.
(** Blocks popped and not yet delivered. *)
Definition c_got (u : nat) (p : flpc) : nat :=
  match p with RSub v KGot | FRes (Some v) => is u v | _ => 0 end.
(** The thread that pushes u. *)
Definition c_psh (u : nat) (p : flpc) : nat :=
  match p with RLoad v _ | RSet v _ _ | RCas v _ _ => is u v | _ => 0 end.
Definition c_fix (u : nat) (p : flpc) : nat :=
  match p with RFix v _ => is u v | _ => 0 end.

Definition pc_ok (n : nat) (f : fl) (p : flpc) : Prop :=
  match p with
  | RSub u _ => u < n
  | RLoad u k | RSet u _ k | RFix u k => u < n /\ k <> KGot
  | RCas u t k => u < n /\ k <> KGot /\ f_next f u = t
  | PRef u => u < n
  | PInc u c => u < n /\ c <> 0
  | PNext u => u < n
  | PCas u nv => u < n /\ f_next f u = nv
  | FRes (Some u) => u < n
  | _ => True
  end.

Definition cnt (l : list nat) (u : nat) : nat := count_occ Nat.eq_dec l u.

Record FLI (f : fl) (n : nat) (ps : list flpc) (own hold : nat -> nat) (L : list nat) : Prop := mkFLI {
  fi_link : linked (f_next f) (f_top f) L;
  fi_ltn : forall u, In u L -> u < n;
  fi_own : forall u, n <= u -> own u = 0 /\ hold u = 0;
  fi_place : forall u, own u + wsum (c_got u) ps + cnt L u + wsum (c_psh u) ps <= 1;
  fi_rc : forall u, u < n -> f_rc f u + wsum (c_fix u) ps = own u + wsum (c_got u) ps + cnt L u + hold u + wsum (c_tmp u) ps;
  fi_fix : forall u, wsum (c_fix u) ps <= cnt L u;
  fi_fix0 : forall u, 0 < wsum (c_fix u) ps -> f_rc f u = 0;
  fi_psh0 : forall u, 0 < wsum (c_psh u) ps -> f_rc f u = 0;
  fi_pc : forall p, In p ps -> pc_ok n f p;
  (* a block that is nowhere else is still referenced: its push is delayed *)
  fi_live : forall u, u < n -> own u + wsum (c_got u) ps + cnt L u + wsum (c_psh u) ps = 0 -> 0 < hold u + wsum (c_tmp u) ps }.

Lemma fli_perm f n ps ps' own hold L : Permutation ps ps' -> FLI f n ps own hold L -> FLI f n ps' own hold L.
Proof.
  intros P [H1 H2 H3 H4 H5 H6 H7 H8 H9 H10].
  constructor; auto; try (intros u; rewrite <- ?(wsum_perm (c_tmp u) _ _ P), <- ?(wsum_perm (c_got u) _ _ P), <- ?(wsum_perm (c_psh u) _ _ P), <- ?(wsum_perm (c_fix u) _ _ P); auto; fail).
  intros p I. apply H9. apply Permutation_in with ps'; [apply Permutation_sym; exact P|exact I].
Qed.

Lemma is_same u : is u u = 1. Proof. unfold is. rewrite Nat.eqb_refl. reflexivity. Qed.
Lemma is_diff u v : u <> v -> is u v = 0. Proof. intros H. unfold is. destruct (Nat.eqb_spec u v); congruence. Qed.
Lemma is_le u v : is u v <= 1. Proof. unfold is. destruct (u =? v); lia. Qed.
Lemma fset_same {X} (f : nat -> X) k v : fset f k v k = v. Proof. unfold fset. rewrite Nat.eqb_refl. reflexivity. Qed.
Lemma fset_other {X} (f : nat -> X) k v j : j <> k -> fset f k v j = f j.
Proof. intros H. unfold fset. destruct (Nat.eqb_spec j k); congruence. Qed.

Lemma linked_fset next u t : forall p L, linked next p L -> ~ In u L -> linked (fset next u t) p L.
Proof.
  intros p L H. induction H as [|v l H IH]; intros N; [constructor|]. constructor. rewrite fset_other.
  - apply IH. intros I. apply N. right. exact I.
  - intros ->. apply N. left. reflexivity.
Qed.

Lemma cnt_in L u : In u L <-> 0 < cnt L u.
Proof. unfold cnt. apply count_occ_In. Qed.
Lemma cnt_cons L u v : cnt (v :: L) u = is u v + cnt L u.
Proof. unfold cnt, is. cbn. destruct (Nat.eq_dec v u), (Nat.eqb_spec u v); subst; congruence || lia. Qed.

Lemma oeqb_true a b : oeqb a b = true -> a = b.
Proof. destruct a, b; cbn; try discriminate; try reflexivity. intros H. apply Nat.eqb_eq in H. congruence. Qed.

Ltac eqcase u v := destruct (Nat.eq_dec u v) as [->|?]; [rewrite ?is_same, ?fset_same in *|rewrite ?(is_diff u v), ?(fset_other _ v _ u) in * by assumption].

(** Positions that do not matter for the invariant can be exchanged. *)
Lemma fli_swap f n p p' r own hold L : (forall u, c_tmp u p = c_tmp u p' /\ c_got u p = c_got u p' /\ c_psh u p = c_psh u p' /\ c_fix u p = c_fix u p') ->
  pc_ok n f p' -> FLI f n (p :: r) own hold L -> FLI f n (p' :: r) own hold L.
Proof.
  intros E O [H1 H2 H3 H4 H5 H6 H7 H8 H9 H10]. constructor; auto; cbn [wsum] in *.
  - intros u. destruct (E u) as (E1 & E2 & E3 & E4). specialize (H4 u). lia.
  - intros u N. destruct (E u) as (E1 & E2 & E3 & E4). specialize (H5 u N). lia.
  - intros u. destruct (E u) as (E1 & E2 & E3 & E4). specialize (H6 u). lia.
  - intros u X. destruct (E u) as (E1 & E2 & E3 & E4). apply H7. lia.
  - intros u X. destruct (E u) as (E1 & E2 & E3 & E4). apply H8. lia.
  - intros q [<-|I]; auto. apply H9. right. exact I.
  - intros u N. destruct (E u) as (E1 & E2 & E3 & E4). specialize (H10 u N). lia.
Qed.

Lemma pc_ok_next n f f' p : f_next f' = f_next f -> pc_ok n f p -> pc_ok n f' p.
Proof. intros E. destruct p; cbn; rewrite ?E; auto. Qed.

(** A thread's step inside the free list code. *)
Lemma fstep_inv spur p f p' f' n r own hold L : fstep spur p f = Some (p', f') -> FLI f n (p :: r) own hold L ->
  exists L', FLI f' n (p' :: r) own hold L'
    /\ (L' = L \/ (exists u, L' = u :: L) \/ (exists u, L = u :: L'))
    /\ (forall u, In u L -> f_next f' u = f_next f u).
Proof.
  intros E I. pose proof I as [H1 H2 H3 H4 H5 H6 H7 H8 H9 H10].
  destruct f as [top next rc]. cbn [f_top f_next f_rc] in *.
  pose proof (H9 p (or_introl eq_refl)) as OK.
  assert (OKr : forall q, In q r -> pc_ok n (mkFl top next rc) q) by (intros q Iq; apply H9; right; exact Iq).
  assert (SAME : forall p1, (forall u, c_tmp u p = c_tmp u p1 /\ c_got u p = c_got u p1 /\ c_psh u p = c_psh u p1 /\ c_fix u p = c_fix u p1) ->
     pc_ok n (mkFl top next rc) p1 -> exists L', FLI (mkFl top next rc) n (p1 :: r) own hold L' /\ (L' = L \/ (exists u, L' = u :: L) \/ (exists u, L = u :: L')) /\ (forall u, In u L -> next u = next u)).
  { intros p1 E1 O1. exists L. split; [|auto]. apply (fli_swap _ _ p); auto. }
  destruct p; cbn [fstep pc_ok] in *; try discriminate.
  - (* RSub *)
    injection E as <- <-. exists L. cbn [f_next]. split; [|auto]. cbn [wsum c_tmp c_got c_psh c_fix] in *.
    pose proof (H5 u OK) as R. rewrite is_same in R.
    assert (F0 : wsum (c_fix u) r = 0).
    { destruct (wsum (c_fix u) r) eqn:F; [reflexivity|]. exfalso. pose proof (H7 u). pose proof (H6 u). destruct k; rewrite ?is_same in *; lia. }
    assert (P0 : wsum (c_psh u) r = 0).
    { destruct (wsum (c_psh u) r) eqn:F; [reflexivity|]. exfalso. pose proof (H8 u). destruct k; rewrite ?is_same in *; lia. }
    destruct (Nat.eqb_spec (rc u) 1) as [R1|R1].
    + assert (K : k <> KGot) by (intros ->; cbn in R; lia).
      assert (Z : own u = 0 /\ cnt L u = 0 /\ wsum (c_got u) r = 0) by (destruct k; try congruence; lia).
      constructor; cbn [f_top f_next f_rc wsum c_tmp c_got c_psh c_fix]; auto.
      * intros v. specialize (H4 v). eqcase v u; [|destruct k; try congruence; lia]. destruct k; try congruence; lia.
      * intros v N. specialize (H5 v N). eqcase v u; destruct k; try congruence; lia.
      * intros v X. pose proof (H7 v) as Q. specialize (H6 v). eqcase v u; [lia|]. apply Q. lia.
      * intros v X. pose proof (H8 v) as Q. eqcase v u; [lia|]. apply Q. lia.
      * intros q [<-|Iq]; [split; assumption|]. apply (pc_ok_next n (mkFl top next rc)); auto.
      * intros v N X. specialize (H10 v N). eqcase v u; destruct k; try congruence; lia.
    + constructor; cbn [f_top f_next f_rc]; auto; cbn [wsum].
      * intros v. specialize (H4 v). destruct k; cbn [fin c_got c_psh] in *; lia.
      * intros v N. specialize (H5 v N). eqcase v u; destruct k; cbn [fin c_got c_psh c_fix c_tmp] in *; rewrite ?is_same, ?is_diff in * by assumption; lia.
      * intros v. specialize (H6 v). destruct k; cbn [fin c_fix]; lia.
      * intros v X. pose proof (H7 v) as Q. eqcase v u; [exfalso; destruct k; cbn in X; lia|]. apply Q. destruct k; cbn in X; lia.
      * intros v X. pose proof (H8 v) as Q. eqcase v u; [exfalso; destruct k; cbn in X; lia|]. apply Q. destruct k; cbn in X; lia.
      * intros q [<-|Iq]; [destruct k; cbn; auto|]. apply (pc_ok_next n (mkFl top next rc)); auto.
      * intros v N X. specialize (H10 v N). eqcase v u; destruct k; cbn [fin c_got c_psh c_fix c_tmp] in *; rewrite ?is_same, ?is_diff in * by assumption; lia.
  - (* RLoad *) injection E as <- <-. apply SAME; [intros v; cbn; auto|exact OK].
  - (* RSet *)
    injection E as <- <-. exists L. cbn [wsum c_tmp c_got c_psh c_fix f_next] in *. destruct OK as (OK & K).
    assert (R0 : rc u = 0) by (apply H8; rewrite is_same; lia).
    assert (NL : ~ In u L) by (rewrite cnt_in; specialize (H4 u); rewrite is_same in H4; lia).
    assert (T0 : wsum (c_tmp u) r = 0) by (specialize (H5 u OK); specialize (H6 u); specialize (H4 u); rewrite is_same in H4; lia).
    split; [constructor; cbn [f_top f_next f_rc wsum c_tmp c_got c_psh c_fix]; auto|split; [auto|]].
    + apply linked_fset; assumption.
    + intros q [<-|Iq]; [cbn; rewrite fset_same; auto|]. specialize (OKr q Iq).
      assert (T : c_tmp u q = 0) by (pose proof (wsum_in (c_tmp u) r q Iq); lia).
      assert (S : c_psh u q = 0).
      { pose proof (wsum_in (c_psh u) r q Iq). specialize (H4 u). rewrite is_same in H4. lia. }
      destruct q; cbn in *; auto.
      * destruct OKr as (? & ? & ?). repeat split; auto. rewrite fset_other; auto. intros ->. rewrite is_same in S. discriminate.
      * destruct OKr as (? & ?). split; auto. rewrite fset_other; auto. intros ->. rewrite is_same in T. discriminate.
    + intros v Iv. apply fset_other. intros ->. contradiction.
  - (* RCas *)
    destruct OK as (OK & K & NX). cbn [f_next] in NX.
    destruct (oeqb top t && negb spur) eqn:C; injection E as <- <-; [|apply SAME; [intros v; cbn; auto|split; assumption]].
    apply andb_true_iff in C. destruct C as (C & _). apply oeqb_true in C. subst t.
    assert (R0 : rc u = 0) by (apply H8; cbn; rewrite is_same; lia).
    pose proof (H4 u) as PL. cbn [wsum c_tmp c_got c_psh c_fix] in *. rewrite is_same in PL.
    exists (u :: L). split; [|split; [right; left; eauto|auto]].
    constructor; cbn [f_top f_next f_rc wsum c_tmp c_got c_psh c_fix]; auto.
    + constructor. rewrite NX. exact H1.
    + intros v [<-|Iv]; auto.
    + intros v. specialize (H4 v). rewrite cnt_cons. lia.
    + intros v N. specialize (H5 v N). rewrite cnt_cons. lia.
    + intros v. specialize (H6 v). rewrite cnt_cons. lia.
    + intros v X. pose proof (H7 v) as Q. eqcase v u; [assumption|]. apply Q. lia.
    + intros v X. pose proof (H8 v) as Q. apply Q. lia.
    + intros q [<-|Iq]; [split; assumption|]. apply (pc_ok_next n (mkFl top next rc)); auto.
    + intros v N X. specialize (H10 v N). rewrite cnt_cons in X. lia.
  - (* RFix *)
    injection E as <- <-. exists L. cbn [wsum c_tmp c_got c_psh c_fix f_next] in *. destruct OK as (OK & K). split; [|auto].
    pose proof (H5 u OK) as R. pose proof (H6 u) as F. pose proof (H4 u) as PL. rewrite is_same in *.
    assert (R0 : rc u = 0) by (apply H7; rewrite is_same; lia).
    constructor; cbn [f_top f_next f_rc]; auto; cbn [wsum].
    + intros v. specialize (H4 v). destruct k; cbn in *; try congruence; lia.
    + intros v N. specialize (H5 v N). eqcase v u; destruct k; cbn [fin c_got c_psh c_fix c_tmp]; try congruence; lia.
    + intros v. specialize (H6 v). eqcase v u; destruct k; cbn [fin c_fix]; try congruence; lia.
    + intros v X. pose proof (H7 v) as Q. eqcase v u; [exfalso; destruct k; cbn in X; try congruence; lia|]. apply Q. destruct k; cbn in X; try congruence; lia.
    + intros v X. pose proof (H8 v) as Q. eqcase v u; [exfalso; destruct k; cbn in X; try congruence; lia|]. apply Q. destruct k; cbn in X; try congruence; lia.
    + intros q [<-|Iq]; [destruct k; cbn; auto; congruence|]. apply (pc_ok_next n (mkFl top next rc)); auto.
    + intros v N X. specialize (H10 v N). eqcase v u; destruct k; cbn [fin c_got c_psh c_fix c_tmp] in *; try congruence; lia.
  - (* PLoad *)
    injection E as <- <-. apply SAME; destruct top as [u|]; cbn; auto. apply H2. inversion H1; subst. left. reflexivity.
  - (* PRef *)
    injection E as <- <-. apply SAME; destruct (Nat.eqb_spec (rc u) 0); cbn; auto.
  - (* PInc *)
    destruct OK as (OK & C0).
    destruct ((rc u =? c) && negb spur) eqn:C; injection E as <- <-; [|apply SAME; [intros v; cbn; auto|constructor]].
    apply andb_true_iff in C. destruct C as (C & _). apply Nat.eqb_eq in C. subst c.
    exists L. split; [|auto]. cbn [wsum c_tmp c_got c_psh c_fix] in *.
    constructor; cbn [f_top f_next f_rc wsum c_tmp c_got c_psh c_fix]; auto.
    + intros v N. specialize (H5 v N). eqcase v u; lia.
    + intros v X. pose proof (H7 v) as Q. eqcase v u; [exfalso; lia|]. apply Q. lia.
    + intros v X. pose proof (H8 v) as Q. eqcase v u; [exfalso; lia|]. apply Q. lia.
    + intros q [<-|Iq]; [exact OK|]. apply (pc_ok_next n (mkFl top next rc)); auto.
    + intros v N X. specialize (H10 v N). lia.
  - (* PNext *) injection E as <- <-. apply SAME; cbn; auto.
  - (* PCas *)
    destruct OK as (OK & NX). cbn [f_next] in NX.
    destruct (oeqb top (Some u) && negb spur) eqn:C; injection E as <- <-; [|apply SAME; [intros v; cbn; auto|exact OK]].
    apply andb_true_iff in C. destruct C as (C & _). apply oeqb_true in C. subst top nv.
    inversion H1 as [|u' L' HL Eu EL]. subst u' L. exists L'. cbn [wsum c_tmp c_got c_psh c_fix] in *.
    split; [|split; [right; right; eauto|auto]].
    pose proof (H5 u OK) as R. pose proof (H4 u) as PL. rewrite cnt_cons, is_same in *.
    assert (F0 : wsum (c_fix u) r = 0).
    { destruct (wsum (c_fix u) r) eqn:F; [reflexivity|]. exfalso. pose proof (H7 u). pose proof (H6 u). rewrite cnt_cons, is_same in *. lia. }
    constructor; cbn [f_top f_next f_rc wsum c_tmp c_got c_psh c_fix]; auto.
    + intros v Iv. apply H2. right. exact Iv.
    + intros v. specialize (H4 v). rewrite cnt_cons in H4. lia.
    + intros v N. specialize (H5 v N). rewrite cnt_cons in H5. lia.
    + intros v. specialize (H6 v). rewrite cnt_cons in H6. eqcase v u; lia.
    + intros q [<-|Iq]; [exact OK|]. apply (pc_ok_next n (mkFl (Some u) next rc)); auto.
    + intros v N X. specialize (H10 v N). rewrite cnt_cons in H10. lia.
Qed.

(** Client actions. *)
Lemma fli_push f n r own hold L u : FLI f n (FIdle :: r) own hold L -> own u = 1 ->
  FLI f n (RSub u KDone :: r) (fset own u 0) hold L.
Proof.
  intros [H1 H2 H3 H4 H5 H6 H7 H8 H9 H10] O. cbn [wsum c_tmp c_got c_psh c_fix] in *.
  assert (N : u < n) by (destruct (Nat.lt_ge_cases u n) as [|G]; [assumption|]; destruct (H3 u G); lia).
  constructor; auto; cbn [wsum c_tmp c_got c_psh c_fix].
  - intros v G. destruct (H3 v G). eqcase v u; lia.
  - intros v. specialize (H4 v). eqcase v u; lia.
  - intros v G. specialize (H5 v G). eqcase v u; lia.
  - intros q [<-|I]; [exact N|]. apply H9. right. exact I.
  - intros v G. specialize (H10 v G). eqcase v u; lia.
Qed.

Lemma fli_drop f n r own hold L u h : FLI f n (FIdle :: r) own hold L -> hold u = S h ->
  FLI f n (RSub u KDone :: r) own (fset hold u h) L.
Proof.
  intros [H1 H2 H3 H4 H5 H6 H7 H8 H9 H10] O. cbn [wsum c_tmp c_got c_psh c_fix] in *.
  assert (N : u < n) by (destruct (Nat.lt_ge_cases u n) as [|G]; [assumption|]; destruct (H3 u G); lia).
  constructor; auto; cbn [wsum c_tmp c_got c_psh c_fix].
  - intros v G. destruct (H3 v G). eqcase v u; lia.
  - intros v G. specialize (H5 v G). eqcase v u; lia.
  - intros q [<-|I]; [exact N|]. apply H9. right. exact I.
  - intros v G. specialize (H10 v G). eqcase v u; lia.
Qed.

Lemma fli_take f n ps own hold L u : FLI f n ps own hold L -> u < n -> f_rc f u <> 0 ->
  FLI (mkFl (f_top f) (f_next f) (fset (f_rc f) u (f_rc f u + 1))) n ps own (fset hold u (S (hold u))) L.
Proof.
  intros [H1 H2 H3 H4 H5 H6 H7 H8 H9 H10] N R.
  constructor; auto; cbn [f_top f_next f_rc].
  - intros v G. destruct (H3 v G). eqcase v u; lia.
  - intros v G. specialize (H5 v G). eqcase v u; lia.
  - intros v X. pose proof (H7 v X) as Q. eqcase v u; lia.
  - intros v X. pose proof (H8 v X) as Q. eqcase v u; lia.
  - intros v G. specialize (H10 v G). eqcase v u; lia.
Qed.

Lemma fli_call f n r own hold L : FLI f n (FIdle :: r) own hold L -> FLI f n (PLoad :: r) own hold L.
Proof. intros H. apply (fli_swap _ _ FIdle); auto. exact I. Qed.

Lemma fli_ret f n p r own hold L : (p = FDone \/ p = FRes None) -> FLI f n (p :: r) own hold L -> FLI f n (FIdle :: r) own hold L.
Proof. intros E H. apply (fli_swap _ _ p); auto; [|exact I]. intros u. destruct E as [-> | ->]; cbn; auto. Qed.

Lemma fli_got f n r own hold L u : FLI f n (FRes (Some u) :: r) own hold L -> own u = 0 /\ FLI f n (FIdle :: r) (fset own u 1) hold L.
Proof.
  intros [H1 H2 H3 H4 H5 H6 H7 H8 H9 H10]. cbn [wsum c_tmp c_got c_psh c_fix] in *.
  assert (N : u < n) by (apply (H9 (FRes (Some u))); left; reflexivity).
  assert (O : own u = 0) by (specialize (H4 u); rewrite is_same in H4; lia).
  split; [exact O|]. constructor; auto; cbn [wsum c_tmp c_got c_psh c_fix].
  - intros v G. destruct (H3 v G). eqcase v u; lia.
  - intros v. specialize (H4 v). eqcase v u; lia.
  - intros v G. specialize (H5 v G). eqcase v u; lia.
  - intros q [<-|I]; [exact Logic.I|]. apply H9. right. exact I.
  - intros v G. specialize (H10 v G). eqcase v u; lia.
Qed.

Lemma fli_new f n ps own hold L : FLI f n ps own hold L ->
  FLI (mkFl (f_top f) (fset (f_next f) n None) (fset (f_rc f) n 1)) (S n) ps (fset own n 1) hold L.
Proof.
  intros [H1 H2 H3 H4 H5 H6 H7 H8 H9 H10].
  assert (NL : ~ In n L) by (intros I; specialize (H2 n I); lia).
  assert (Z : forall c : nat -> flpc -> nat, (forall p, pc_ok n f p -> c n p = 0) -> wsum (c n) ps = 0).
  { intros c Hc. apply wsum_all0. intros p I. apply Hc. auto. }
  assert (Z1 : wsum (c_tmp n) ps = 0).
  { apply Z. intros [] O; cbn in *; auto; apply is_diff; lia. }
  assert (Z2 : wsum (c_got n) ps = 0).
  { apply Z. intros [|? []| | | | | | | | | | |[]] O; cbn in *; auto; apply is_diff; lia. }
  assert (Z3 : wsum (c_psh n) ps = 0).
  { apply Z. intros [] O; cbn in *; auto; apply is_diff; lia. }
  assert (Z4 : wsum (c_fix n) ps = 0).
  { apply Z. intros [] O; cbn in *; auto; apply is_diff; lia. }
  assert (C : cnt L n = 0) by (destruct (cnt L n) eqn:E; [reflexivity|]; exfalso; apply NL, cnt_in; lia).
  destruct (H3 n (Nat.le_refl n)) as (O & HO).
  constructor; auto; cbn [f_top f_next f_rc].
  - apply linked_fset; assumption.
  - intros v Iv. specialize (H2 v Iv). lia.
  - intros v G. assert (v <> n) by lia. rewrite fset_other by assumption. apply H3. lia.
  - intros v. specialize (H4 v). eqcase v n; lia.
  - intros v G. specialize (H5 v). eqcase v n; lia.
  - intros v X. pose proof (H7 v X) as Q. eqcase v n; lia.
  - intros v X. pose proof (H8 v X) as Q. eqcase v n; lia.
  - intros p I. specialize (H9 p I). destruct p; cbn in *; auto; try (repeat split; lia).
    + destruct H9; split; [lia|assumption].
    + destruct H9; split; [lia|assumption].
    + destruct H9 as (? & ? & ?). repeat split; [lia|assumption|]. rewrite fset_other by lia. assumption.
    + destruct H9; split; [lia|assumption].
    + destruct H9; split; [lia|]. rewrite fset_other by lia. assumption.
    + destruct r; [lia|exact Logic.I].
  - intros v G. specialize (H10 v). eqcase v n; lia.
Qed.

(** ** The free list as a whole *)

Definition b2n (b : bool) : nat := if b then 1 else 0.
Definition LInv (s : lsys) (L : list nat) : Prop := FLI (l_fl s) (l_n s) (l_thr s) (fun u => b2n (l_own s u)) (l_hold s) L.

Lemma fli_ext f n ps own own' hold hold' L : (forall u, own u = own' u) -> (forall u, hold u = hold' u) ->
  FLI f n ps own hold L -> FLI f n ps own' hold' L.
Proof.
  intros E F [H1 H2 H3 H4 H5 H6 H7 H8 H9 H10]. constructor; auto.
  - intros u G. rewrite <- E, <- F. auto.
  - intros u. rewrite <- E. auto.
  - intros u G. rewrite <- E, <- F. auto.
  - intros u G. rewrite <- E, <- F. auto.
Qed.

Lemma lstep_inv ev s s' L : lstep ev s = Some s' -> LInv s L ->
  exists L', LInv s' L' /\ (L' = L \/ (exists u, L' = u :: L) \/ (exists u, L = u :: L'))
    /\ (forall u, In u L -> f_next (l_fl s') u = f_next (l_fl s) u).
Proof.
  intros E H. destruct s as [f n thr own hold]. unfold LInv in *. cbn [l_fl l_n l_thr l_own l_hold] in *. destruct ev; cbn [lstep] in E.
  - injection E as <-. exists L. cbn. split; [|split; [auto|]].
    + apply fli_ext with (fset (fun u => b2n (own u)) n 1) hold; [|auto|apply fli_new; exact H].
      intros u. unfold fset. destruct (u =? n); reflexivity.
    + intros u I. apply fset_other. intros ->. destruct H as [_ H2 _ _ _ _ _ _ _ _]. specialize (H2 n I). lia.
  - destruct (nth_error thr i) as [[]|] eqn:T; try discriminate. destruct (own u) eqn:O; [|discriminate]. injection E as <-.
    exists L. cbn. split; [|auto]. destruct (pick i thr _ T) as (r & P1 & P2).
    apply (fli_perm _ _ (RSub u KDone :: r)); [apply Permutation_sym, P2|].
    apply fli_ext with (fset (fun u => b2n (own u)) u 0) hold; [|auto|].
    + intros v. unfold fset. destruct (v =? u); reflexivity.
    + apply fli_push; [apply (fli_perm _ _ thr); auto|]. rewrite O. reflexivity.
  - destruct (nth_error thr i) as [[]|] eqn:T; try discriminate. injection E as <-.
    exists L. cbn. split; [|auto]. destruct (pick i thr _ T) as (r & P1 & P2).
    apply (fli_perm _ _ (PLoad :: r)); [apply Permutation_sym, P2|]. apply fli_call. apply (fli_perm _ _ thr); auto.
  - destruct (u <? n) eqn:U; [|discriminate]. apply Nat.ltb_lt in U. destruct (Nat.eqb_spec (f_rc f u) 0) as [|R]; [discriminate|]. injection E as <-.
    exists L. cbn. split; [|auto]. apply fli_take; auto.
  - destruct (nth_error thr i) as [[]|] eqn:T; try discriminate. destruct (hold u) as [|h] eqn:O; [discriminate|]. injection E as <-.
    exists L. cbn. split; [|auto]. destruct (pick i thr _ T) as (r & P1 & P2).
    apply (fli_perm _ _ (RSub u KDone :: r)); [apply Permutation_sym, P2|].
    apply fli_drop; [apply (fli_perm _ _ thr); auto|exact O].
  - destruct (nth_error thr i) as [p|] eqn:T; [|discriminate]. destruct (fstep spur p f) as [[p' f']|] eqn:F; [|discriminate]. injection E as <-.
    destruct (pick i thr _ T) as (r & P1 & P2).
    destruct (fstep_inv spur p f p' f' n r _ hold L F (fli_perm _ _ _ _ _ _ _ P1 H)) as (L' & I & S & X).
    exists L'. cbn. split; [|auto]. apply (fli_perm _ _ (p' :: r)); [apply Permutation_sym, P2|exact I].
  - destruct (nth_error thr i) as [p|] eqn:T; [|discriminate]. destruct (pick i thr _ T) as (r & P1 & P2).
    assert (D : (p = FDone \/ p = FRes None) /\ s' = mkL f n (repl i FIdle thr) own hold \/ exists u, p = FRes (Some u) /\ s' = mkL f n (repl i FIdle thr) (fset own u true) hold).
    { destruct p; try discriminate; [injection E as <-; auto|]. destruct r0; injection E as <-; [right; eauto|auto]. }
    exists L. destruct D as [(D & ->)|(u & -> & ->)]; cbn; (split; [|auto]); apply (fli_perm _ _ (FIdle :: r)); try apply Permutation_sym, P2.
    + apply (fli_ret _ _ p); [exact D|]. apply (fli_perm _ _ thr); auto.
    + apply fli_ext with (fset (fun u => b2n (own u)) u 1) hold; [|auto|].
      * intros v. unfold fset. destruct (v =? u); reflexivity.
      * apply fli_got. apply (fli_perm _ _ thr); auto.
Qed.

Lemma linit_inv k : LInv (linit k) [].
Proof.
  assert (Z : forall c : nat -> flpc -> nat, (forall u, c u FIdle = 0) -> forall u, wsum (c u) (repeat FIdle k) = 0).
  { intros c Hc u. apply wsum_all0. intros p I. apply repeat_spec in I. subst p. auto. }
  constructor; cbn; auto; try (intros u I; contradiction || lia).
  - constructor.
  - intros u. rewrite !Z by reflexivity. lia.
  - intros u. rewrite !Z by reflexivity. lia.
  - intros p I. apply repeat_spec in I. subst p. exact Logic.I.
Qed.

Lemma lrun_inv evs : forall s s' L, lrun evs s = Some s' -> LInv s L -> exists L', LInv s' L'.
Proof.
  induction evs as [|ev evs IH]; intros s s' L R H; cbn [lrun] in R; [injection R as <-; eauto|].
  destruct (lstep ev s) as [s1|] eqn:E; [|discriminate]. destruct (lstep_inv ev s s1 L E H) as (L1 & H1 & _). apply (IH s1 s' L1); auto.
Qed.

(** When pop is about to return a block, nobody owns it, no other pop is about
    to return it, and it is not linked. *)
Theorem C40_single_owner : forall k evs s, lrun evs (linit k) = Some s ->
  forall i u, nth_error (l_thr s) i = Some (FRes (Some u)) ->
  l_own s u = false
  /\ (forall j, nth_error (l_thr s) j = Some (FRes (Some u)) -> j = i)
  /\ forall L, linked (f_next (l_fl s)) (f_top (l_fl s)) L -> ~ In u L.
Proof.
  intros k evs s R i u T. destruct (lrun_inv evs _ _ _ R (linit_inv k)) as (L & H).
  destruct s as [f n thr own hold]. unfold LInv in H. cbn [l_fl l_n l_thr l_own l_hold] in *. destruct (pick i thr _ T) as (r & P1 & P2).
  pose proof (fli_perm _ _ _ _ _ _ _ P1 H) as [H1 H2 H3 H4 H5 H6 H7 H8 H9 H10].
  pose proof (H4 u) as PL. cbn in PL. rewrite is_same in PL. split; [destruct (own u); [cbn in PL; lia|reflexivity]|]. split.
  - intros j Tj. destruct (Nat.eq_dec j i) as [|N]; [assumption|]. exfalso.
    assert (I : In (FRes (Some u)) (repl i FIdle thr)).
    { clear - T Tj N. revert j i T Tj N. induction thr as [|x thr IH]; intros [|j] [|i] T Tj N; cbn in *; try discriminate; try congruence.
      - left. congruence.
      - right. apply nth_error_In in Tj. exact Tj.
      - right. apply (IH j i); auto. }
    apply (Permutation_in _ (P2 FIdle)) in I. destruct I as [I|I]; [discriminate|].
    pose proof (wsum_in (c_got u) r _ I) as W. cbn in W. rewrite is_same in W. lia.
  - intros L' HL I.
    assert (EL : L' = L).
    { clear - HL H1. revert L H1. induction HL; intros L H1; inversion H1; subst; [reflexivity|]. f_equal. auto. }
    subst L'. apply cnt_in in I. lia.
Qed.
Print Assumptions C40_single_owner.

(** When no call is in progress and no temporary reference is held, the list
    consists of exactly the blocks nobody owns, each once. *)
Theorem C40_all_available : forall k evs s, lrun evs (linit k) = Some s ->
  (forall i p, nth_error (l_thr s) i = Some p -> p = FIdle) -> (forall u, l_hold s u = 0) ->
  exists L, linked (f_next (l_fl s)) (f_top (l_fl s)) L /\ NoDup L
    /\ forall u, In u L <-> u < l_n s /\ l_own s u = false.
Proof.
  intros k evs s R Q HO. destruct (lrun_inv evs _ _ _ R (linit_inv k)) as (L & H).
  destruct s as [f n thr own hold]. unfold LInv in H. cbn [l_fl l_n l_thr l_own l_hold] in *.
  destruct H as [H1 H2 H3 H4 H5 H6 H7 H8 H9 H10].
  assert (Z : forall c : nat -> flpc -> nat, (forall u, c u FIdle = 0) -> forall u, wsum (c u) thr = 0).
  { intros c Hc u. apply wsum_all0. intros p I. apply In_nth_error in I. destruct I as (i & I). rewrite (Q i p I). auto. }
  exists L. split; [exact H1|]. split.
  - apply (NoDup_count_occ Nat.eq_dec). intros u. specialize (H4 u). unfold cnt in H4. lia.
  - intros u. rewrite cnt_in. specialize (H4 u). specialize (H10 u). rewrite (Z c_got), (Z c_psh) in H4, H10 by reflexivity. rewrite (Z c_tmp), HO in H10 by reflexivity. split.
    + intros C. split; [apply H2, cnt_in, C|]. destruct (own u); [cbn in H4; lia|reflexivity].
    + intros (N & O). rewrite O in *. cbn [b2n] in *. specialize (H10 N). revert H10. clear. destruct (cnt L u); lia.
Qed.
Print Assumptions C40_all_available.

(** No step changes the link of a block while it is linked. *)
Theorem C40_not_modified : forall k evs s ev s' L u, lrun evs (linit k) = Some s -> lstep ev s = Some s' ->
  linked (f_next (l_fl s)) (f_top (l_fl s)) L -> In u L -> f_next (l_fl s') u = f_next (l_fl s) u.
Proof.
  intros k evs s ev s' L u R E HL I. destruct (lrun_inv evs _ _ _ R (linit_inv k)) as (L0 & H).
  assert (EL : L = L0).
  { destruct H as [H1 _ _ _ _ _ _ _ _ _]. clear - HL H1. revert L0 H1. induction HL; intros L0 H1; inversion H1; subst; [reflexivity|]. f_equal. auto. }
  subst L0. destruct (lstep_inv ev s s' L E H) as (L' & _ & _ & X). auto.
Qed.
Print Assumptions C40_not_modified.

(** A step changes the linked blocks only by adding or removing the first. *)
Theorem C40_only_ends : forall k evs s ev s' L, lrun evs (linit k) = Some s -> lstep ev s = Some s' ->
  linked (f_next (l_fl s)) (f_top (l_fl s)) L ->
  exists L', linked (f_next (l_fl s')) (f_top (l_fl s')) L'
    /\ (L' = L \/ (exists u, L' = u :: L) \/ (exists u, L = u :: L')).
Proof.
  intros k evs s ev s' L R E HL. destruct (lrun_inv evs _ _ _ R (linit_inv k)) as (L0 & H).
  assert (EL : L = L0).
  { destruct H as [H1 _ _ _ _ _ _ _ _ _]. clear - HL H1. revert L0 H1. induction HL; intros L0 H1; inversion H1; subst; [reflexivity|]. f_equal. auto. }
  subst L0. destruct (lstep_inv ev s s' L E H) as (L' & [H1 _ _ _ _ _ _ _ _ _] & X & _). eauto.
Qed.
Print Assumptions C40_only_ends.

(** Thread 0 stops inside pop holding block 1 (the top); meanwhile thread 1
    pops both blocks and pushes block 1 back (delayed, thread 0 references
    it), so the top is 0's old successor again. *)
Definition aba : list lev :=
  [LNew; LNew; LPush 0 0; LStep 0 false; LStep 0 false; LStep 0 false; LStep 0 false; LStep 0 false; LRet 0;
   LPush 0 1; LStep 0 false; LStep 0 false; LStep 0 false; LStep 0 false; LStep 0 false; LRet 0;
   LPop 0; LStep 0 false; LStep 0 false; LStep 0 false; LStep 0 false;
   LPop 1; LStep 1 false; LStep 1 false; LStep 1 false; LStep 1 false; LStep 1 false; LStep 1 false; LRet 1;
   LPop 1; LStep 1 false; LStep 1 false; LStep 1 false; LStep 1 false; LStep 1 false; LStep 1 false; LRet 1;
   LPush 1 1; LStep 1 false; LRet 1;
   LStep 0 false; LStep 0 false; LStep 0 false; LStep 0 false; LStep 0 false; LStep 0 false;
   LStep 0 false; LStep 0 false; LStep 0 false; LStep 0 false; LStep 0 false; LStep 0 false].

Example C40_nonvacuous : exists s, lrun aba (linit 2) = Some s /\ nth_error (l_thr s) 0 = Some (FRes (Some 1)) /\ l_own s 0 = true.
Proof. eexists. split; [vm_compute; reflexivity|]. split; reflexivity. Qed.

Example C40_quiescent_nonvacuous : exists s L, lrun (firstn 16 aba) (linit 2) = Some s /\ (forall u, l_hold s u = 0)
  /\ l_thr s = [FIdle; FIdle] /\ linked (f_next (l_fl s)) (f_top (l_fl s)) L /\ L = [1; 0].
Proof.
  eexists. exists [1; 0]. split; [vm_compute; reflexivity|]. split; [reflexivity|]. split; [reflexivity|]. split; [|reflexivity].
  constructor. cbn. constructor. cbn. constructor.
Qed.

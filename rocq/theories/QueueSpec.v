(** What "first in, first out" means for the observable effects of a queue:
    a specification that knows nothing about blocks, slots or the free list. *)
From Coq Require Import Arith List Permutation.
From Verif Require Import QueueModel.
Import ListNotations.

Section Spec.
Context {V : Type}.

(** [hist l o l']: starting with the elements l (front first), the effects in
    o, in this order, are those of a queue, and leave l'. An enqueue adds at
    the back, a dequeue returns the front, "empty" is reported only when there
    is nothing, and rewind puts an element back at the front. Calls and
    returns do not touch the contents. *)
Fixpoint hist (l : list V) (o : list (obs V)) (l' : list V) : Prop :=
  match o with
  | [] => l' = l
  | OEnq _ v :: o => hist (l ++ [v]) o l'
  | ODeq _ v :: o => exists l1, l = v :: l1 /\ hist l1 o l'
  | OEmpty _ :: o => l = [] /\ hist l o l'
  | ORew v :: o => hist (v :: l) o l'
  | _ :: o => hist l o l'
  end.

Lemma hist_app o o' : forall l l1 l', hist l o l1 -> hist l1 o' l' -> hist l (o ++ o') l'.
Proof.
  induction o as [|x o IH]; cbn; intros l l1 l' H1 H2; [subst; exact H2|].
  destruct x; eauto.
  - destruct H1 as (l2 & -> & H1). eauto.
  - destruct H1 as (-> & H1). eauto.
Qed.

(** Life of the enqueue calls of thread i: a call either takes effect exactly
    once, with the value passed, and returns true, or returns false and has no
    effect. *)
Inductive pst := PIdle | PCalled (v : V) | PDone.
Fixpoint proto (i : nat) (st : pst) (o : list (obs V)) : Prop :=
  match o with
  | [] => True
  | OCall j v :: o => if j =? i then st = PIdle /\ proto i (PCalled v) o else proto i st o
  | OEnq j v :: o => if j =? i then st = PCalled v /\ proto i PDone o else proto i st o
  | ORetE j b :: o => if j =? i then (if b then st = PDone else exists v, st = PCalled v) /\ proto i PIdle o else proto i st o
  | _ :: o => proto i st o
  end.

(** Life of the try_dequeue calls of consumer i: it returns the value it has
    taken out of the queue, or "nothing" after having found the queue empty. *)
Inductive cst := CIdle | CTook (v : V) | CEmpty.
Fixpoint cproto (i : nat) (st : cst) (o : list (obs V)) : Prop :=
  match o with
  | [] => True
  | ODeq j v :: o => if j =? i then st = CIdle /\ cproto i (CTook v) o else cproto i st o
  | OEmpty j :: o => if j =? i then st = CIdle /\ cproto i CEmpty o else cproto i st o
  | ORetD j r :: o => if j =? i then st = (match r with Some v => CTook v | None => CEmpty end) /\ cproto i CIdle o else cproto i st o
  | _ :: o => cproto i st o
  end.

(** Values enqueued, dequeued, put back. *)
Definition enqueued (o : list (obs V)) : list V := flat_map (fun x => match x with OEnq _ v => [v] | _ => [] end) o.
Definition dequeued (o : list (obs V)) : list V := flat_map (fun x => match x with ODeq _ v => [v] | _ => [] end) o.
Definition rewound (o : list (obs V)) : list V := flat_map (fun x => match x with ORew v => [v] | _ => [] end) o.

(** Without rewind the values come out in the order in which they went in,
    each exactly once; what is left is the rest. *)
Lemma hist_fifo o : forall l l', hist l o l' -> rewound o = [] -> l ++ enqueued o = dequeued o ++ l'.
Proof.
  unfold enqueued, dequeued, rewound.
  induction o as [|x o IH]; cbn [hist flat_map]; intros l l' H R; [subst; apply app_nil_r|].
  destruct x; cbn [app] in *; try (apply IH; auto; fail).
  - rewrite <- (IH _ _ H R), <- app_assoc. reflexivity.
  - destruct H as (l1 & -> & H). cbn [app]. f_equal. apply IH; auto.
  - destruct H as (-> & H). apply (IH [] l'); auto.
  - discriminate.
Qed.

(** In general nothing is lost and nothing is duplicated. *)
Lemma hist_multiset o : forall l l', hist l o l' -> Permutation (l ++ enqueued o ++ rewound o) (dequeued o ++ l').
Proof.
  unfold enqueued, dequeued, rewound.
  induction o as [|x o IH]; cbn [hist flat_map]; intros l l' H; [subst; cbn [app]; rewrite app_nil_r; apply Permutation_refl|].
  destruct x; cbn [app] in *; try (apply IH; auto; fail).
  - eapply perm_trans; [|apply IH; exact H]. rewrite <- app_assoc. apply Permutation_refl.
  - destruct H as (l1 & -> & H). cbn [app]. apply perm_skip. apply IH. exact H.
  - destruct H as (-> & H). apply (IH [] l'). exact H.
  - eapply perm_trans; [|apply IH; exact H]. cbn [app]. rewrite !app_assoc. apply Permutation_sym, Permutation_middle.
Qed.
End Spec.

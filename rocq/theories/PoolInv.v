(** Invariants of one connection, from its view and the log of what happened
    about it. *)
From Coq Require Import Arith NArith List Bool Lia.
From Verif Require Import PoolModel PoolProofs.
Import ListNotations.

Fixpoint cnt {A} (p : A -> bool) (l : list A) : nat := match l with [] => 0 | a :: l => (if p a then 1 else 0) + cnt p l end.
Lemma cnt_app {A} (p : A -> bool) l m : cnt p (l ++ m) = cnt p l + cnt p m.
Proof. induction l as [|a l IH]; [reflexivity|]. cbn. rewrite IH. lia. Qed.
Lemma cnt_In {A} (p : A -> bool) l : 0 < cnt p l <-> exists a, In a l /\ p a = true.
Proof.
  induction l as [|a l IH]; cbn; [split; [lia|intros (x & [] & _)]|]. destruct (p a) eqn:E.
  - split; [intros _; exists a; auto|lia].
  - rewrite IH. split; intros (x & I & X); exists x; [auto|destruct I as [<-|I]; [congruence|auto]].
Qed.
Lemma cnt_0 {A} (p : A -> bool) l : cnt p l = 0 <-> forall a, In a l -> p a = false.
Proof.
  split.
  - intros E a I. destruct (p a) eqn:X; [|reflexivity]. assert (0 < cnt p l) by (apply cnt_In; eauto). lia.
  - intros H. destruct (cnt p l) eqn:E; [reflexivity|]. assert (X : 0 < cnt p l) by lia. apply cnt_In in X. destruct X as (a & I & X). rewrite (H a I) in X. discriminate.
Qed.

Definition b2n (b : bool) : nat := if b then 1 else 0.
Definition nb (b : bool) : nat := if b then 0 else 1.

Definition isF a := match a with AFeed _ => true | _ => false end.
Definition isX a := match a with AWExch _ => true | _ => false end.
Definition isG r a := match a with AGo _ r' => Bool.eqb r r' | _ => false end.
Definition isI a := match a with AInc _ => true | _ => false end.
Definition isT a := match a with ATearW _ => true | _ => false end.
Definition isP a := match a with APostDel _ => true | _ => false end.
Definition isE a := match a with ADExch _ => true | _ => false end.
Definition isDel a := match a with ADel _ => true | _ => false end.
Definition isS a := match a with ASetup _ => true | _ => false end.
Definition isTD a := match a with ATearD _ => true | _ => false end.
Definition isO a := match a with AOff _ => true | _ => false end.
Definition isR a := match a with ARelease _ => true | _ => false end.
Definition isC b a := match a with ACb _ b' => Bool.eqb b b' | _ => false end.
Definition isPG r a := match a with APostGo _ r' => Bool.eqb r r' | _ => false end.

Definition oC b o := match o with OCb _ b' _ => Bool.eqb b b' | _ => false end.
Definition oC1 r o := match o with OCb _ true (Some r') => Bool.eqb r r' | _ => false end.
Definition oClose o := match o with OClose _ _ => true | _ => false end.
Definition oFed o := match o with OFed _ => true | _ => false end.
Definition oTorn o := match o with OTorn _ => true | _ => false end.
Definition oRecv o := match o with ORecv _ _ => true | _ => false end.
Definition oIo o := match o with OIo _ _ => true | _ => false end.
Definition oUb o := match o with OUb _ => true | _ => false end.

Definition rH r := match r with RHand => 1 | _ => 0 end.
Definition rN r := match r with RNone => 1 | _ => 0 end.
Definition rT r := match r with RTls => 1 | _ => 0 end.
Definition rP r := match r with RPlain => 1 | _ => 0 end.

Definition wkd (k : option nat) : nat := match k with Some _ => 1 | None => 0 end.
Definition used (v : view) (l : list obs) : nat :=
  cnt isF (v_w v) + rH (c_recv (v_k v)) + cnt isS (v_d v) + cnt (isC true) (v_u v) + cnt (oC true) l.

Record A (tls dead : bool) (v : view) (l : list obs) : Prop := {
  a_evc : b2n (c_evc (v_k v)) + wkd (c_worker (v_k v)) <= 1;
  a_term : cnt isP (v_w v) + cnt isDel (v_d v) + nb (v_lv v) <= b2n (c_term (v_k v));
  a_term' : b2n dead = 0 -> cnt isP (v_w v) + cnt isDel (v_d v) + nb (v_lv v) = b2n (c_term (v_k v));
  a_off : nb (v_lv v) = cnt isO (v_d v) + cnt (isC false) (v_u v) + cnt (oC false) l;
  a_close : nb (v_lv v) = cnt isR (v_d v) + cnt oClose l;
  a_tear : 0 < cnt isT (v_w v) + cnt isTD (v_d v) -> b2n (c_term (v_k v)) = 1;
  a_work : wkd (c_worker (v_k v)) = 0 -> length (v_w v) = 0 /\ rN (c_recv (v_k v)) = 1 /\ b2n (c_evs (v_k v)) = 0;
  a_recv : rN (c_recv (v_k v)) = 1 -> cnt isS (v_d v) + cnt (isC true) (v_u v) + cnt (isPG true) (v_u v) + cnt (isPG false) (v_u v) + cnt (isG true) (v_w v) + cnt (isG false) (v_w v) + cnt (oC true) l = 0;
  a_evs : b2n (c_evs (v_k v)) + b2n (c_term (v_k v)) + rN (c_recv (v_k v)) >= 1;
  a_one : used v l <= 1;
  a_ub : cnt oUb l = 0;
  a_gt : 0 < cnt (isPG true) (v_u v) + cnt (isG true) (v_w v) -> 0 < cnt (oC1 true) l;
  a_gf : 0 < cnt (isPG false) (v_u v) + cnt (isG false) (v_w v) -> 0 < cnt (oC1 false) l;
  a_tls : rT (c_recv (v_k v)) = 1 -> 0 < cnt (oC1 true) l;
  a_kt : b2n tls = 1 -> rP (c_recv (v_k v)) = 0;
  a_kp : b2n tls = 0 -> rN (c_recv (v_k v)) + rP (c_recv (v_k v)) = 1;
  a_arm : b2n tls = 0 -> 0 < b2n (c_arm (v_k v)) + b2n (c_rs (v_k v)) -> 0 < cnt (oC1 true) l + cnt (oC1 false) l;
  a_no : b2n tls = 1 -> b2n dead = 0 -> 0 < cnt (oC1 false) l -> 0 < b2n (c_term (v_k v)) + cnt (isPG false) (v_u v) + cnt (isG false) (v_w v) + cnt isX (v_w v) }.

Ltac vinv H :=
  inversion H; subst; clear H;
  try match goal with
  | H : vget (kind_of ?a) _ = _, H2 : conn_of ?a = Some _ |- _ =>
      destruct a; try discriminate H2; cbn [conn_of] in H2; injection H2 as ->
  end;
  try match goal with
  | H : vget (kind_of (ACb _ ?b)) _ = _ |- _ => destruct b
  | H : vget (kind_of (AGo _ ?b)) _ = _ |- _ => destruct b
  | H : vget (kind_of (APostGo _ ?b)) _ = _ |- _ => destruct b
  end;
  repeat match goal with H : context [vio _ ?i _] |- _ => unfold vio in H; destruct i end.

Ltac norm :=
  unfold vwterm, vdterm in *;
  cbn [kind_of vget vput vpush vk vgone v_k v_w v_d v_u v_lv tl app vact istask
       c_fd c_worker c_term c_evc c_evs c_arm c_rs c_recv set_worker set_term set_evc set_sock set_rs set_recv] in *.

(** Split on what the step looked at. *)
Ltac spl :=
  repeat (norm; match goal with
  | H : (if ?b then _ else _) = _ |- _ => destruct b eqn:?
  | H : match ?b with _ => _ end = _ |- _ => is_var b; destruct b eqn:?
  | H : (_, _) = (_, _) |- _ => injection H as <- <-
  | H : Some (_, _) = Some (_, _) |- _ => injection H as <- <-
  | H : None = Some _ |- _ => discriminate H
  | H : _ :: _ = _ :: _ |- _ => injection H as ? ?
  | H : ?x = _ :: _ |- _ => is_var x; subst x
  | H : (let '(_, _) := ?p in _) = _ |- _ => destruct p eqn:?
  | |- context [match ?b with Some _ => _ | None => _ end] => is_var b; destruct b eqn:?
  | |- context [if ?b then vpush _ _ else _] => destruct b eqn:?
  | |- context [if ?b then _ else vpush _ _] => destruct b eqn:?
  | |- context [if ?b then vput _ _ _ else _] => destruct b eqn:?
  | |- context [if ?b then vk _ _ else _] => destruct b eqn:?
  end; subst).

Ltac cn := rewrite ?cnt_app, ?app_length in *;
  cbn [cnt isF isX isG isI isT isP isE isDel isS isTD isO isR isC isPG oC oC1 oClose oFed oTorn oRecv oIo oUb rH rN rT rP b2n nb wkd used Bool.eqb c_worker length app
       v_k v_w v_d v_u v_lv c_fd c_worker c_term c_evc c_evs c_arm c_rs c_recv negb andb] in *.

(** Pairs of an element satisfying p and a later one satisfying q. *)
Fixpoint inv {A} (p q : A -> bool) (l : list A) : nat := match l with [] => 0 | a :: l => (if p a then cnt q l else 0) + inv p q l end.
Lemma inv_snoc {A} (p q : A -> bool) l a : inv p q (l ++ [a]) = inv p q l + (if q a then cnt p l else 0).
Proof. induction l as [|x l IH]; [cbn; destruct (p a), (q a); reflexivity|]. cbn. rewrite IH, cnt_app. cbn. destruct (p x), (q a); lia. Qed.

Lemma inv_snoc2 {A} (p q : A -> bool) l a b : inv p q (l ++ [a; b]) = inv p q l + (if q a then cnt p l else 0) + (if q b then cnt p l + (if p a then 1 else 0) else 0).
Proof. change [a; b] with ([a] ++ [b]). rewrite app_assoc, !inv_snoc, cnt_app. cbn. rewrite Nat.add_0_r. reflexivity. Qed.

(** Every element satisfying q has one satisfying p before it. *)
Definition after {A} (p q : A -> bool) (l : list A) : Prop := forall l1 a l2, l = l1 ++ a :: l2 -> q a = true -> 0 < cnt p l1.
Lemma after_app {A} (p q : A -> bool) l m : after p q l -> cnt q m = 0 \/ 0 < cnt p l -> after p q (l ++ m).
Proof.
  intros H C l1 a l2 E Q. assert (X : (exists l3, l = l1 ++ a :: l3) \/ exists l3, l1 = l ++ l3 /\ m = l3 ++ a :: l2).
  { clear - E. revert l1 E. induction l as [|x l IH]; intros l1 E; [right; exists l1; auto|]. destruct l1 as [|y l1]; cbn in E; [injection E as -> E; left; exists l; reflexivity|].
    injection E as -> E. destruct (IH l1 E) as [(l3 & ->)|(l3 & -> & ->)]; [left; exists l3; reflexivity|right; exists l3; auto]. }
  destruct X as [(l3 & X)|(l3 & -> & ->)]; [exact (H _ _ _ X Q)|]. rewrite cnt_app. destruct C as [C|C]; [|lia]. rewrite cnt_app in C. cbn in C. rewrite Q in C. lia.
Qed.

Lemma tasks_cnt l : forallb istask l = true -> cnt isT l = 0 /\ cnt isTD l = 0 /\ cnt isP l = 0 /\ cnt isO l = 0 /\ cnt isR l = 0 /\ cnt isI l = 0.
Proof. induction l as [|a l IH]; cbn [forallb]; intros H; [cbn; lia|]. apply andb_true_iff in H. destruct H as (H1 & H2). specialize (IH H2). destruct a; try discriminate; cbn; lia. Qed.

Lemma b2n_le b : b2n b <= 1. Proof. destruct b; cbn; lia. Qed.
Lemma r_le r : rH r + rN r + rT r + rP r <= 1. Proof. destruct r; cbn; lia. Qed.
Lemma nb_b2n b : nb b + b2n b = 1. Proof. destruct b; reflexivity. Qed.


Ltac cb := repeat match goal with |- context [OCb _ _ (Some ?b)] => is_var b; destruct b | H : negb ?b = _ |- _ => is_var b; destruct b | H : context [isC _ (ACb _ ?b)] |- _ => is_var b; destruct b
  | H : context [isG _ (AGo _ ?b)] |- _ => is_var b; destruct b | H : context [isPG _ (APostGo _ ?b)] |- _ => is_var b; destruct b end.
Ltac bnd := repeat match goal with
  | |- context [b2n ?b] => is_var b; lazymatch goal with H : b2n b <= 1 |- _ => fail | _ => pose proof (b2n_le b) end
  | H0 : context [b2n ?b] |- _ => is_var b; lazymatch goal with H : b2n b <= 1 |- _ => fail | _ => pose proof (b2n_le b) end
  | H0 : context [rN ?b] |- _ => is_var b; lazymatch goal with H : rH b + _ + _ + _ <= 1 |- _ => fail | _ => pose proof (r_le b) end
  end.

Ltac cng := unfold vpush, vk, vgone; cbn [kind_of vput v_k v_w v_d v_u v_lv c_fd c_worker c_term c_evc c_evs c_arm c_rs c_recv app set_worker set_term set_evc set_sock set_rs set_recv]; rewrite ?cnt_app, ?app_length;
  cbn [cnt isF isX isG isI isT isP isE isDel isS isTD isO isR isC isPG oC oC1 oClose oFed oTorn oRecv oIo oUb rH rN rT rP b2n nb wkd used Bool.eqb c_worker length app
       v_k v_w v_d v_u v_lv c_fd c_worker c_term c_evc c_evs c_arm c_rs c_recv negb andb].

Lemma A_step tls dead cm fo c v o v' l : A tls dead v l -> vstep tls dead cm fo c v o v' -> A tls dead v' (l ++ o).
Proof.
  intros I H. destruct v as [[fd [wk|] term evc evs arm rs recv] w d u lv]; destruct tls; vinv H; spl; norm; try congruence; subst.
  all: destruct I as [i1 i2 i3 i4 i5 i6 i7 i8 i9 i10 i11 i12 i13 i14 i15 i16 i17 i18]; unfold used in *; cn; cb; cn; bnd.
  all: constructor; [
    try (clear i2 i3 i4 i5 i6 i7 i8 i9 i10 i11 i12 i13 i14 i15 i16 i17 i18; unfold used; cng; lia)
    |try (clear i1 i4 i5 i6 i7 i8 i9 i10 i11 i12 i13 i14 i15 i16 i17 i18; unfold used; cng; lia)
    |try (clear i1 i4 i5 i6 i7 i8 i9 i10 i11 i12 i13 i14 i15 i16 i17 i18; unfold used; cng; lia)
    |try (clear i1 i3 i5 i6 i7 i8 i9 i10 i11 i12 i13 i14 i15 i16 i17 i18; unfold used; cng; lia)
    |try (clear i1 i3 i4 i6 i7 i8 i9 i10 i11 i12 i13 i14 i15 i16 i17 i18; unfold used; cng; lia)
    |try (clear i1 i2 i3 i4 i5 i7 i8 i9 i10 i11 i12 i13 i14 i15 i16 i17 i18; unfold used; cng; lia)
    |try (clear i1 i2 i3 i4 i5 i6 i8 i9 i10 i11 i12 i13 i14 i15 i16 i17 i18; unfold used; cng; lia)
    |try (clear i1 i2 i3 i4 i5 i6 i9 i10 i11 i12 i13 i14 i15 i16 i17 i18; unfold used; cng; lia)
    |try (clear i1 i3 i4 i8 i10 i11 i12 i13 i14 i15 i16 i17 i18; unfold used; cng; lia)
    |try (clear i1 i2 i3 i4 i5 i6 i9 i11 i12 i13 i14 i15 i16 i17 i18; unfold used; cng; lia)
    |try (clear i1 i2 i3 i4 i5 i6 i10 i12 i13 i14 i15 i16 i17 i18; unfold used; cng; lia)
    |try (clear i1 i2 i3 i4 i5 i6 i7 i8 i9 i10 i11 i13 i14 i15 i16 i17 i18; unfold used; cng; lia)
    |try (clear i1 i2 i3 i4 i5 i6 i7 i8 i9 i10 i11 i12 i14 i15 i16 i17 i18; unfold used; cng; lia)
    |try (clear i1 i2 i3 i4 i5 i6 i7 i8 i9 i10 i11 i13 i15 i16 i17 i18; unfold used; cng; lia)
    |try (clear i1 i2 i3 i4 i5 i6 i7 i8 i9 i10 i11 i12 i13 i14 i16 i17 i18; unfold used; cng; lia)
    |try (clear i1 i2 i3 i4 i5 i6 i7 i8 i9 i10 i11 i12 i13 i14 i15 i17 i18; unfold used; cng; lia)
    |try (clear i1 i2 i3 i4 i5 i6 i7 i8 i9 i10 i11 i14 i15 i18; unfold used; cng; lia)
    |try (clear i1 i2 i3 i4 i5 i6 i10 i11 i12 i14 i15 i16 i17; unfold used; cng; lia)].
  all: try (destruct w as [|? ?]; [unfold used; cng; lia|cbn [length] in i7; lia]).
  all: destruct b; cng; lia.
Qed.

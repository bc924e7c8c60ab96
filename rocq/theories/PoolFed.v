(** Feeding and tearing down, when no worker fails. *)
From Coq Require Import Arith NArith List Bool Lia.
From Verif Require Import PoolModel PoolProofs PoolInv PoolCalm.
Import ListNotations.

Record C (v : view) (l : list obs) : Prop := {
  c_fed : cnt isF (v_w v) + cnt isI (v_w v) + cnt oFed l = wkd (c_worker (v_k v));
  c_torn : cnt isT (v_w v) + cnt isTD (v_d v) + cnt oTorn l = b2n (c_term (v_k v));
  c_hd : inv all isI (v_w v) = 0;
  c_tf : wkd (c_worker (v_k v)) = 1 -> 0 < cnt isT (v_w v) + cnt oTorn l -> cnt isF (v_w v) + cnt isI (v_w v) = 0 }.

Lemma C_step tls c v o v' l : A tls false v l -> B v l -> C v l -> vstep tls false true true c v o v' -> C v' (l ++ o).
Proof.
  intros I J K H. destruct I as [i1 i2 i3 i4 i5 i6 i7 i8 i9 i10 i11 i12 i13 i14 i15 i16 i17 i18]; destruct J as [j1 j2 j3 j4 j5 j6 j7 j8 j9 j10 j11]; destruct K as [k1 k2 k3 k4].
  clear i2 i3 i4 i5 i6 i8 i9 i10 i11 i12 i13 i14 i15 i16 i17 i18 j5 j6 j7 j8 j9 j10 j11.
  destruct v as [[fd [wk|] term evc evs arm rs recv] w d u lv]; vinv H; spl; norm; try congruence; subst.
  all: repeat match goal with H : true = true -> forall c, ~ In (ADExch c) _ |- _ => specialize (H eq_refl); apply noE in H | H : forall c, ~ In (ADel c) _ |- _ => apply noDel in H end.
  all: repeat match goal with H : forallb istask _ = true |- _ => apply tasks_cnt in H end.
  all: cn; cb; cn; cbn [inv all] in *; cn; bnd.
  all: try (exfalso; match goal with H : true = true -> AFeed ?c = AFeed ?c -> false = true |- _ => discriminate (H eq_refl eq_refl) end).
  all: try (destruct tls).
  all: constructor; try (snc; lia).
  all: try (destruct w as [|? ?]; [snc; lia|cbn [length] in i7; lia]).
Qed.

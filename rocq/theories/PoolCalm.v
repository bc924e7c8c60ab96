(** Invariants of a connection that is never found established while its
    termination is under way. *)
From Coq Require Import Arith NArith List Bool Lia.
From Verif Require Import PoolModel PoolProofs PoolInv.
Import ListNotations.

Definition all (_ : act) : bool := true.
Ltac snc := unfold vpush, vk, vgone;
  cbn [kind_of vput v_k v_w v_d v_u v_lv c_fd c_worker c_term c_evc c_evs c_arm c_rs c_recv app set_worker set_term set_evc set_sock set_rs set_recv];
  rewrite ?app_nil_r, ?inv_snoc2, ?inv_snoc; cbn [inv all]; cng.

Lemma nb_le b : nb b <= 1. Proof. destruct b; cbn; lia. Qed.
Lemma noE d : (forall c, ~ In (ADExch c) d) -> cnt isE d = 0.
Proof. intros H. apply cnt_0. intros a I. destruct a; try reflexivity. destruct (H _ I). Qed.
Lemma noDel d : (forall c, ~ In (ADel c) d) -> cnt isDel d = 0.
Proof. intros H. apply cnt_0. intros a I. destruct a; try reflexivity. destruct (H _ I). Qed.

Record B (v : view) (l : list obs) : Prop := {
  b_evc : b2n (c_evc (v_k v)) = 1 -> b2n (c_term (v_k v)) = 1 -> 0 < cnt isDel (v_d v) + cnt isR (v_d v);
  b_head : inv all isF (v_w v) = 0;
  b_feed : 0 < cnt isF (v_w v) -> b2n (c_term (v_k v)) = 0;
  b_work : 0 < cnt isE (v_d v) + cnt isTD (v_d v) -> wkd (c_worker (v_k v)) = 0;
  b_evs : b2n (c_evs (v_k v)) = 1 -> b2n (c_term (v_k v)) = 1 -> 0 < cnt isT (v_w v);
  b_setup : inv isDel isS (v_d v) = 0;
  b_gone : nb (v_lv v) = 1 -> cnt isS (v_d v) = 0;
  b_cb : inv (isC false) (isC true) (v_u v) = 0;
  b_off : 0 < cnt (oC false) l -> cnt (isC true) (v_u v) = 0;
  b_order : inv (oC false) (oC true) l = 0;
  b_io : inv oClose oIo l = 0 }.

Lemma B_step tls dead fo c v o v' l : A tls dead v l -> B v l -> vstep tls dead true fo c v o v' -> B v' (l ++ o).
Proof.
  intros I J H. destruct v as [[fd [wk|] term evc evs arm rs recv] w d u lv]; destruct tls; vinv H; spl; norm; try congruence; subst.
  all: repeat match goal with H : true = true -> forall c, ~ In (ADExch c) _ |- _ => specialize (H eq_refl); apply noE in H | H : forall c, ~ In (ADel c) _ |- _ => apply noDel in H end.
  all: try pose proof (nb_le lv).
  all: repeat match goal with H : forallb istask _ = true |- _ => apply tasks_cnt in H end.
  all: destruct I as [i1 i2 i3 i4 i5 i6 i7 i8 i9 i10 i11 i12 i13 i14 i15 i16 i17 i18]; unfold used in *; destruct J as [j1 j2 j3 j4 j5 j6 j7 j8 j9 j10 j11]; cn; cb; cn; cbn [inv all] in *; cn; bnd.
  all: constructor; [
    try (clear i2 i3 i4 i5 i6 i7 i8 i9 i10 i11 i12 i13 i14 i15 i16 i17 i18 j2 j3 j4 j5 j6 j7 j8 j9 j10 j11; snc; lia)
    |try (clear i1 i2 i3 i4 i5 i6 i8 i9 i10 i11 i12 i13 i14 i15 i16 i17 i18 j1 j3 j4 j5 j6 j7 j8 j9 j10 j11; snc; lia)
    |try (clear i2 i3 i4 i5 i6 i8 i9 i10 i11 i12 i13 i14 i15 i16 i17 i18 j5 j6 j7 j8 j9 j10 j11; snc; lia)
    |try (clear i1 i2 i3 i4 i5 i6 i7 i8 i9 i10 i11 i12 i13 i14 i15 i16 i17 i18 j1 j2 j3 j5 j6 j7 j8 j9 j10 j11; snc; lia)
    |try (clear i1 i2 i3 i4 i5 i6 i8 i9 i10 i11 i12 i13 i14 i15 i16 i17 i18 j1 j2 j6 j7 j8 j9 j10 j11; snc; lia)
    |try (clear i1 i3 i4 i5 i6 i9 i10 i11 i12 i13 i14 i15 i16 i17 i18 j1 j2 j7 j8 j9 j10 j11; snc; lia)
    |try (clear i1 i3 i4 i5 i6 i9 i10 i11 i12 i13 i14 i15 i16 i17 i18 j1 j2 j8 j9 j10 j11; snc; lia)
    |try (clear i1 i2 i3 i5 i6 i7 i8 i9 i10 i11 i12 i13 i14 i15 i16 i17 i18 j1 j2 j3 j4 j5 j6 j9 j10 j11; snc; lia)
    |try (clear i1 i2 i3 i5 i6 i7 i8 i9 i10 i11 i12 i13 i14 i15 i16 i17 i18 j1 j2 j3 j4 j5 j6 j10 j11; snc; lia)
    |try (clear i1 i2 i3 i5 i6 i7 i8 i9 i10 i11 i12 i13 i14 i15 i16 i17 i18 j1 j2 j3 j4 j5 j6 j7 j8 j11; snc; lia)
    |try (clear i1 i3 i4 i6 i7 i8 i9 i10 i11 i12 i13 i14 i15 i16 i17 i18 j1 j2 j3 j4 j6 j7 j8 j9 j10; snc; lia)].
  all: try (exfalso; match goal with H : ADel ?x = ADel ?x -> _ |- _ => apply (H eq_refl); reflexivity end).
  all: try (destruct w as [|? ?]; [snc; lia|cbn [length] in i7; lia]).
  all: snc; lia.
Qed.

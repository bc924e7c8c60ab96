(** C148-C150: what becomes of times. *)
From Coq Require Import ZArith Reals Psatz Lia Bool.
From Flocq Require Import Core BinarySingleNaN.
From Verif Require Import TimeModel.
From Verif Require RetryModel.
Open Scope R_scope.

(** ** Rounding *)

Section Rnd.
Variable prec emax : Z.
Context (Hp : Prec_gt_0 prec) (He : Prec_lt_emax prec emax).
Notation fe := (SpecFloat.fexp prec emax).
Notation RN := (round radix2 fe ZnearestE).

#[local] Instance fev : Valid_exp fe := fexp_correct prec emax Hp.

Lemma fe_form : forall e, fe e = Z.max (e - prec) (3 - emax - prec).
Proof. reflexivity. Qed.

Lemma fmt_bpow e : (3 - emax - prec <= e)%Z -> generic_format radix2 fe (bpow radix2 e).
Proof. intros H. apply generic_format_bpow. rewrite fe_form. unfold Prec_gt_0 in Hp. lia. Qed.

Lemma rn_err e x : Rabs x < bpow radix2 e -> (3 - emax - prec <= e - prec)%Z -> Rabs (RN x - x) <= bpow radix2 (e - prec - 1).
Proof.
  intros H E. destruct (Req_dec x 0) as [->|NZ]; [rewrite round_0, Rminus_0_r, Rabs_R0; [apply bpow_ge_0|auto with typeclass_instances]|].
  eapply Rle_trans; [apply error_le_half_ulp; exact fev|]. rewrite ulp_neq_0 by exact NZ. unfold cexp.
  replace (e - prec - 1)%Z with (-1 + (e - prec))%Z by lia. rewrite bpow_plus. replace (bpow radix2 (-1)) with (/ 2) by reflexivity.
  apply Rmult_le_compat_l; [lra|]. apply bpow_le. rewrite fe_form. pose proof (mag_le_bpow radix2 x e NZ H). lia.
Qed.

Lemma rn_abs e x : Rabs x <= bpow radix2 e -> (3 - emax - prec <= e)%Z -> Rabs (RN x) <= bpow radix2 e.
Proof. intros H E. apply abs_round_le_generic; [auto with typeclass_instances|auto with typeclass_instances|apply fmt_bpow; exact E|exact H]. Qed.

Lemma rn_small e x : Rabs x <= bpow radix2 e -> (3 - emax - prec <= e < emax)%Z -> Rlt_bool (Rabs (RN x)) (bpow radix2 emax) = true.
Proof. intros H E. apply Rlt_bool_true. eapply Rle_lt_trans; [apply (rn_abs e x H); lia|apply bpow_lt; lia]. Qed.

Lemma bmul e (x y : binary_float prec emax) : is_finite x = true -> is_finite y = true -> Rabs (B2R x * B2R y) <= bpow radix2 e -> (3 - emax - prec <= e < emax)%Z ->
  is_finite (@Bmult prec emax Hp He mode_NE x y) = true /\ B2R (@Bmult prec emax Hp He mode_NE x y) = RN (B2R x * B2R y).
Proof. intros F G H E. pose proof (Bmult_correct prec emax Hp He mode_NE x y) as X. cbn [round_mode] in X. rewrite (rn_small e _ H E) in X. destruct X as (X & Y & _). rewrite F, G in Y. auto. Qed.

Lemma badd e (x y : binary_float prec emax) : is_finite x = true -> is_finite y = true -> Rabs (B2R x + B2R y) <= bpow radix2 e -> (3 - emax - prec <= e < emax)%Z ->
  is_finite (@Bplus prec emax Hp He mode_NE x y) = true /\ B2R (@Bplus prec emax Hp He mode_NE x y) = RN (B2R x + B2R y).
Proof. intros F G H E. pose proof (Bplus_correct prec emax Hp He mode_NE x y F G) as X. cbn [round_mode] in X. rewrite (rn_small e _ H E) in X. destruct X as (X & Y & _). auto. Qed.

Lemma bsub e (x y : binary_float prec emax) : is_finite x = true -> is_finite y = true -> Rabs (B2R x - B2R y) <= bpow radix2 e -> (3 - emax - prec <= e < emax)%Z ->
  is_finite (@Bminus prec emax Hp He mode_NE x y) = true /\ B2R (@Bminus prec emax Hp He mode_NE x y) = RN (B2R x - B2R y).
Proof. intros F G H E. pose proof (Bminus_correct prec emax Hp He mode_NE x y F G) as X. cbn [round_mode] in X. rewrite (rn_small e _ H E) in X. destruct X as (X & Y & _). auto. Qed.

Lemma bdiv e (x y : binary_float prec emax) : is_finite x = true -> B2R y <> 0 -> Rabs (B2R x / B2R y) <= bpow radix2 e -> (3 - emax - prec <= e < emax)%Z ->
  is_finite (@Bdiv prec emax Hp He mode_NE x y) = true /\ B2R (@Bdiv prec emax Hp He mode_NE x y) = RN (B2R x / B2R y).
Proof. intros F G H E. pose proof (Bdiv_correct prec emax Hp He mode_NE x y G) as X. cbn [round_mode] in X. rewrite (rn_small e _ H E) in X. destruct X as (X & Y & _). rewrite F in Y. auto. Qed.

Lemma bofz e z : Rabs (IZR z) <= bpow radix2 e -> (3 - emax - prec <= e < emax)%Z ->
  is_finite (binary_normalize prec emax Hp He mode_NE z 0 false) = true /\ B2R (binary_normalize prec emax Hp He mode_NE z 0 false) = RN (IZR z).
Proof.
  intros H E. pose proof (binary_normalize_correct prec emax Hp He mode_NE z 0 false) as X. cbv zeta in X. replace (F2R (Float radix2 z 0)) with (IZR z) in X by (unfold F2R; cbn; ring).
  cbn [round_mode] in X. rewrite (rn_small e _ H E) in X. destruct X as (X & Y & _). auto.
Qed.

(** Integers of at most prec digits are represented exactly. *)
Lemma rn_int z : (Z.abs z <= 2 ^ prec)%Z -> (3 - emax - prec <= 0)%Z -> RN (IZR z) = IZR z.
Proof.
  intros H E. apply round_generic; [auto with typeclass_instances|].
  assert (HP : (0 < prec)%Z) by exact Hp.
  destruct (Z.eq_dec (Z.abs z) (2 ^ prec)) as [Q|Q].
  - assert (G : generic_format radix2 fe (bpow radix2 prec)) by (apply fmt_bpow; lia).
    assert (B : bpow radix2 prec = IZR (2 ^ prec)) by (rewrite <- (IZR_Zpower radix2) by lia; reflexivity).
    destruct (Z.abs_eq_or_opp z) as [A|A].
    + rewrite <- A, Q, <- B. exact G.
    + replace z with (- (2 ^ prec))%Z by lia. rewrite opp_IZR, <- B. apply generic_format_opp. exact G.
  - destruct (Z.eq_dec z 0) as [->|NZ]; [apply generic_format_0|].
    replace (IZR z) with (F2R (Float radix2 z 0)) by (unfold F2R; cbn; ring). apply generic_format_F2R. intros _. unfold cexp. rewrite fe_form.
    assert (M : (mag radix2 (F2R (Float radix2 z 0)) <= prec)%Z).
    { apply mag_le_bpow; [unfold F2R; cbn; rewrite Rmult_1_r; apply IZR_neq; exact NZ|]. unfold F2R. cbn. rewrite Rmult_1_r, <- abs_IZR. rewrite <- (IZR_Zpower radix2) by lia. apply IZR_lt. change (Z.abs z < 2 ^ prec)%Z. lia. }
    lia.
Qed.

Lemma bofz_exact z : (Z.abs z <= 2 ^ prec)%Z -> (3 - emax - prec <= 0)%Z ->
  is_finite (binary_normalize prec emax Hp He mode_NE z 0 false) = true /\ B2R (binary_normalize prec emax Hp He mode_NE z 0 false) = IZR z.
Proof.
  intros H E. assert (HP : (0 < prec)%Z) by exact Hp. assert (HE : (prec < emax)%Z) by exact He. destruct (bofz prec z) as (X & Y).
  - rewrite <- (IZR_Zpower radix2) by lia. rewrite <- abs_IZR. apply IZR_le. exact H.
  - lia.
  - split; [exact X|]. rewrite Y. apply rn_int; assumption.
Qed.

Lemma btrunc_spec (x : binary_float prec emax) : Btrunc x = Ztrunc (B2R x).
Proof.
  apply eq_IZR. rewrite (Btrunc_correct prec emax He x). unfold round, scaled_mantissa, cexp, FIX_exp, F2R. cbn. rewrite !Rmult_1_r. reflexivity.
Qed.
End Rnd.

Notation RD := (round radix2 (SpecFloat.fexp 53 1024) ZnearestE).
Notation RF := (round radix2 (SpecFloat.fexp 24 128) ZnearestE).
#[local] Instance vd : Valid_exp (SpecFloat.fexp 53 1024) := fexp_correct 53 1024 P53.
#[local] Instance vf : Valid_exp (SpecFloat.fexp 24 128) := fexp_correct 24 128 P24.


Lemma dofz_ok z : (Z.abs z <= 2 ^ 53)%Z -> is_finite (dofz z) = true /\ B2R (dofz z) = IZR z.
Proof. intros H. apply (bofz_exact 53 1024 P53 P53e z H). lia. Qed.
Lemma fofz_ok z : (Z.abs z <= 2 ^ 24)%Z -> is_finite (fofz z) = true /\ B2R (fofz z) = IZR z.
Proof. intros H. apply (bofz_exact 24 128 P24 P24e z H). lia. Qed.

Lemma rd_fmt (x : dbl) : RD (B2R x) = B2R x.
Proof. apply round_generic; [auto with typeclass_instances|apply generic_format_B2R]. Qed.

Lemma rd_mono x y : x <= y -> RD x <= RD y.
Proof. apply round_le; auto with typeclass_instances. Qed.

Lemma to_u64_ok (x : dbl) : is_finite x = true -> 0 <= B2R x -> B2R x < bpow radix2 64 -> exists n, to_u64 x = Some n /\ (0 <= n)%Z /\ IZR n <= B2R x < IZR n + 1.
Proof.
  intros F A B. unfold to_u64. rewrite F, (btrunc_spec 53 1024 P53e), (Ztrunc_floor _ A). exists (Zfloor (B2R x)). pose proof (Zfloor_lb (B2R x)). pose proof (Zfloor_ub (B2R x)).
  assert (0 <= Zfloor (B2R x))%Z by (apply Zfloor_lub; exact A).
  assert (Zfloor (B2R x) < 2 ^ 64)%Z. { apply lt_IZR. change (2 ^ 64)%Z with (Zpower radix2 64). rewrite (IZR_Zpower radix2) by lia. lra. }
  destruct (Z.leb_spec 0 (Zfloor (B2R x))); [|lia]. destruct (Z.ltb_spec (Zfloor (B2R x)) (2 ^ 64)); [|lia]. cbn [andb]. split; [reflexivity|]. split; [assumption|]. split; assumption.
Qed.

(** The product a timer is started with. *)
Lemma ms_product (t : dbl) : is_finite t = true -> 0 <= B2R t <= 4294967296 ->
  is_finite (dmul t (dofz 1000)) = true /\ B2R (dmul t (dofz 1000)) = RD (B2R t * 1000) /\ Rabs (RD (B2R t * 1000) - B2R t * 1000) <= / 4096 /\ 0 <= RD (B2R t * 1000) < bpow radix2 64.
Proof.
  intros F T. destruct (dofz_ok 1000 ltac:(lia)) as (F1 & V1).
  assert (S : Rabs (B2R t * 1000) < bpow radix2 42) by (rewrite Rabs_pos_eq by nra; cbn; nra).
  destruct (bmul 53 1024 P53 P53e 42 t (dofz 1000) F F1) as (A & B); [rewrite V1; apply Rlt_le; exact S|lia|].
  pose proof (rn_err 53 1024 P53 42 _ S ltac:(lia)) as E. replace (bpow radix2 (42 - 53 - 1)) with (/ 4096) in E by reflexivity.
  split; [exact A|]. split; [unfold dmul; rewrite B, V1; reflexivity|]. split; [exact E|]. split.
  - rewrite <- (round_0 radix2 (SpecFloat.fexp 53 1024) ZnearestE). apply rd_mono. nra.
  - apply Rabs_le_inv in E. cbn in S |- *. rewrite Rabs_pos_eq in S by nra. lra.
Qed.

(** ** C148 *)

(** The claim: a timer added for t seconds is started with the whole number of
    milliseconds in t, up to a 4000th; and a delay written as a whole number
    of milliseconds is that number. *)
Definition near_ms (t : R) (ms : Z) : Prop := t * 1000 - 1 - / 4096 < IZR ms <= t * 1000 + / 4096.
Definition C148_full : Prop :=
  (forall t : dbl, is_finite t = true -> 0 <= B2R t <= 4294967296 -> exists ms, timer_ms t = Some ms /\ near_ms (B2R t) ms)
  /\ forall k, (0 <= k <= 2 ^ 40)%Z -> timer_ms (lit k 1000) = Some k.

Theorem C148_delay : forall t : dbl, is_finite t = true -> 0 <= B2R t <= 4294967296 -> exists ms, timer_ms t = Some ms /\ near_ms (B2R t) ms.
Proof.
  intros t F T. destruct (ms_product t F T) as (A & B & C & D). destruct (to_u64_ok (dmul t (dofz 1000)) A) as (n & E & _ & G); [rewrite B; apply D|rewrite B; apply D|].
  exists n. split; [exact E|]. unfold near_ms. rewrite B in G. apply Rabs_le_inv in C. lra.
Qed.
Print Assumptions C148_delay.

(** A longer delay is not started with less. *)
Theorem C148_monotone : forall (t u : dbl) m n, is_finite t = true -> is_finite u = true -> 0 <= B2R t <= B2R u -> B2R u <= 4294967296 -> timer_ms t = Some m -> timer_ms u = Some n -> (m <= n)%Z.
Proof.
  intros t u m n F G T U E1 E2. destruct (ms_product t F ltac:(lra)) as (A & B & _ & D). destruct (ms_product u G ltac:(lra)) as (A' & B' & _ & D').
  unfold timer_ms, to_u64 in *. rewrite A in E1. rewrite A' in E2. rewrite (btrunc_spec 53 1024 P53e), B in E1. rewrite (btrunc_spec 53 1024 P53e), B' in E2.
  destruct (_ && _)%bool in E1; [|discriminate]. destruct (_ && _)%bool in E2; [|discriminate]. injection E1 as <-. injection E2 as <-. apply Ztrunc_le. apply rd_mono. nra.
Qed.
Print Assumptions C148_monotone.

(** Whole seconds are kept. *)
Theorem C148_seconds_partial : forall k, (0 <= k <= 2 ^ 32)%Z -> timer_ms (dofz k) = Some (1000 * k)%Z.
Proof.
  intros k K. destruct (dofz_ok k ltac:(lia)) as (F & V). destruct (ms_product (dofz k) F) as (A & B & _ & _).
  { rewrite V. split; [apply IZR_le; lia|]. change 4294967296 with (IZR (2 ^ 32)). apply IZR_le. lia. }
  unfold timer_ms, to_u64. rewrite A, (btrunc_spec 53 1024 P53e), B, V.
  assert (X : IZR k * 1000 = IZR (1000 * k)) by (rewrite mult_IZR; ring). rewrite X, (rn_int 53 1024 P53 (1000 * k)) by lia. rewrite Ztrunc_IZR.
  destruct (Z.leb_spec 0 (1000 * k)); [|lia]. destruct (Z.ltb_spec (1000 * k) (2 ^ 64)); [reflexivity|lia].
Qed.
Print Assumptions C148_seconds_partial.

(** Whole milliseconds may lose one. *)
Theorem C148_ms_partial : forall k, (0 <= k <= 2 ^ 40)%Z -> timer_ms (lit k 1000) = Some k \/ timer_ms (lit k 1000) = Some (k - 1)%Z.
Proof.
  intros k K. destruct (dofz_ok k ltac:(lia)) as (F & V). destruct (dofz_ok 1000 ltac:(lia)) as (_ & V1).
  assert (KR : 0 <= IZR k <= 1099511627776) by (split; [apply IZR_le; lia|]; change 1099511627776 with (IZR (2 ^ 40)); apply IZR_le; lia).
  assert (S : Rabs (IZR k / 1000) < bpow radix2 31) by (rewrite Rabs_pos_eq by lra; cbn; lra).
  destruct (bdiv 53 1024 P53 P53e 31 (dofz k) (dofz 1000) F) as (A & B); [rewrite V1; lra|rewrite V, V1; apply Rlt_le; exact S|lia|].
  rewrite V, V1 in B. pose proof (rn_err 53 1024 P53 31 _ S ltac:(lia)) as E. replace (bpow radix2 (31 - 53 - 1)) with (/ 8388608) in E by reflexivity. rewrite <- B in E. apply Rabs_le_inv in E.
  assert (P : 0 <= B2R (lit k 1000)). { unfold lit, ddiv. rewrite B. rewrite <- (round_0 radix2 (SpecFloat.fexp 53 1024) ZnearestE). apply rd_mono. lra. }
  destruct (C148_delay (lit k 1000) A) as (ms & M & N); [assert (E' : - / 8388608 <= B2R (lit k 1000) - IZR k / 1000 <= / 8388608) by exact E; lra|]. unfold near_ms in N. assert (E' : - / 8388608 <= B2R (lit k 1000) - IZR k / 1000 <= / 8388608) by exact E.
  assert (k - 2 < ms < k + 1)%Z as MM. { split; apply lt_IZR; [rewrite minus_IZR|rewrite plus_IZR]; lra. }
  rewrite M. assert (ms = k \/ ms = k - 1)%Z as [->| ->] by lia; auto.
Qed.
Print Assumptions C148_ms_partial.

(** ... and some do: 1.001 s is 1000 ms. *)
Theorem C148_ms_refuted : exists k, (0 <= k <= 2 ^ 40)%Z /\ timer_ms (lit k 1000) = Some (k - 1)%Z.
Proof. exists 1001%Z. split; [lia|]. vm_compute. reflexivity. Qed.
Print Assumptions C148_ms_refuted.

Theorem C148_full_refuted : ~ C148_full.
Proof. intros (_ & F). pose proof (F 1001%Z ltac:(lia)) as X. vm_compute in X. discriminate. Qed.
Print Assumptions C148_full_refuted.

(** A negative delay, one too long, an infinite one: undefined. *)
Theorem C148_undefined_refuted : timer_ms (dofz (-1)) = None /\ timer_ms (dofz (2 ^ 60)) = None /\ timer_ms (B754_infinity false) = None /\ timer_ms B754_nan = None.
Proof. vm_compute. auto. Qed.
Print Assumptions C148_undefined_refuted.

Example C148_nonvacuous : is_finite (lit 5 2) = true /\ timer_ms (lit 5 2) = Some 2500%Z /\ timer_ms (lit 1 2000) = Some 0%Z /\ timer_ms (lit 2 1) = Some 2000%Z.
Proof. vm_compute. auto. Qed.

(** ** C149 *)

Lemma rd_pos x : 0 <= x -> 0 <= RD x.
Proof. intros H. rewrite <- (round_0 radix2 (SpecFloat.fexp 53 1024) ZnearestE). apply rd_mono. exact H. Qed.

Lemma rd_le_fmt x (y : dbl) : x <= B2R y -> RD x <= B2R y.
Proof. intros H. rewrite <- (rd_fmt y). apply rd_mono. exact H. Qed.

Lemma quot_ok r : (0 <= r <= RAND_MAX)%Z -> is_finite (ddiv (dofz r) (dofz RAND_MAX)) = true /\ B2R (ddiv (dofz r) (dofz RAND_MAX)) = RD (IZR r / IZR RAND_MAX) /\ 0 <= RD (IZR r / IZR RAND_MAX) <= 1.
Proof.
  intros H. unfold RAND_MAX in *. destruct (dofz_ok r ltac:(lia)) as (F & V). destruct (dofz_ok 2147483647 ltac:(lia)) as (F1 & V1). destruct (dofz_ok 1 ltac:(lia)) as (_ & V0).
  assert (Q : 0 <= IZR r / 2147483647 <= 1).
  { assert (0 <= IZR r) by (apply IZR_le; lia). assert (IZR r <= 2147483647) by (apply IZR_le; lia). split; lra. }
  destruct (bdiv 53 1024 P53 P53e 0 (dofz r) (dofz 2147483647) F) as (A & B); [rewrite V1; lra|rewrite V, V1; rewrite Rabs_pos_eq by lra; cbn; lra|lia|].
  rewrite V, V1 in B. split; [exact A|]. split; [exact B|]. split; [apply rd_pos; lra|]. rewrite <- V0. apply rd_le_fmt. lra.
Qed.

(** The delay drawn lies between base and base + alpha * base, both rounded
    as the machine rounds. *)
Theorem C149_range : forall (base alpha : dbl) r, is_finite base = true -> is_finite alpha = true -> 0 <= B2R base <= bpow radix2 500 -> 0 <= B2R alpha <= bpow radix2 500 -> (0 <= r <= RAND_MAX)%Z ->
  is_finite (gen_rand_timeout base alpha r) = true /\ B2R base <= B2R (gen_rand_timeout base alpha r) <= RD (B2R base + RD (B2R alpha * B2R base)).
Proof.
  intros base alpha r F G HB HA R. destruct (quot_ok r R) as (Q1 & Q2 & Q3). set (q := RD (IZR r / IZR RAND_MAX)) in *.
  destruct (bmul 53 1024 P53 P53e 500 (ddiv (dofz r) (dofz RAND_MAX)) alpha Q1 G) as (A1 & A2); [rewrite Q2, Rabs_pos_eq by nra; nra|lia|]. rewrite Q2 in A2.
  assert (C : 0 <= RD (q * B2R alpha) <= B2R alpha) by (split; [apply rd_pos; nra|apply rd_le_fmt; nra]). set (c := RD (q * B2R alpha)) in *.
  assert (PB : bpow radix2 500 * bpow radix2 500 = bpow radix2 1000) by (rewrite <- bpow_plus; reflexivity).
  destruct (bmul 53 1024 P53 P53e 1000 (dmul (ddiv (dofz r) (dofz RAND_MAX)) alpha) base A1 F) as (D1 & D2); [unfold dmul; rewrite A2, Rabs_pos_eq by nra; rewrite <- PB; apply Rmult_le_compat; lra|lia|].
  unfold dmul in D2 at 2. rewrite A2 in D2.
  assert (E : 0 <= RD (c * B2R base) <= RD (B2R alpha * B2R base)) by (split; [apply rd_pos; nra|apply rd_mono; nra]).
  assert (E2 : RD (c * B2R base) <= bpow radix2 1000).
  { eapply Rle_trans; [apply Rle_abs|]. apply (rn_abs 53 1024 P53); [|lia]. rewrite Rabs_pos_eq by nra. rewrite <- PB. apply Rmult_le_compat; lra. }
  assert (B5 : bpow radix2 500 <= bpow radix2 1000) by (apply bpow_le; lia).
  assert (B6 : bpow radix2 1001 = 2 * bpow radix2 1000) by (change 1001%Z with (1 + 1000)%Z; rewrite bpow_plus; reflexivity).
  assert (VV : B2R (dmul (dmul (ddiv (dofz r) (dofz RAND_MAX)) alpha) base) = RD (c * B2R base)) by exact D2.
  destruct (badd 53 1024 P53 P53e 1001 base (dmul (dmul (ddiv (dofz r) (dofz RAND_MAX)) alpha) base) F D1) as (H1 & H2); [rewrite VV, Rabs_pos_eq by lra; lra|lia|]. rewrite VV in H2.
  split; [exact H1|]. assert (HV : B2R (gen_rand_timeout base alpha r) = RD (B2R base + RD (c * B2R base))) by exact H2. rewrite HV. split; [rewrite <- (rd_fmt base) at 1; apply rd_mono; lra|apply rd_mono; lra].
Qed.
Print Assumptions C149_range.

Lemma alpha0_ok : is_finite alpha0 = true /\ B2R alpha0 = / 2.
Proof.
  destruct (dofz_ok 1 ltac:(lia)) as (F & V). destruct (dofz_ok 2 ltac:(lia)) as (_ & V1).
  destruct (bdiv 53 1024 P53 P53e 0 (dofz 1) (dofz 2) F) as (A & B); [rewrite V1; lra|rewrite V, V1, Rabs_pos_eq by lra; cbn; lra|lia|].
  split; [exact A|]. assert (X : B2R alpha0 = RD (B2R (dofz 1) / B2R (dofz 2))) by exact B. rewrite X, V, V1. replace (1 / 2) with (bpow radix2 (-1)) by (cbn; lra).
  rewrite round_generic; [cbn; lra|auto with typeclass_instances|]. apply (fmt_bpow 53 1024 P53). lia.
Qed.

(** With the default and delays of up to 136 years: between base and one and a
    half of it, up to a microsecond. *)
Corollary C149_default : forall (base : dbl) r, is_finite base = true -> 0 <= B2R base <= 4294967296 -> (0 <= r <= RAND_MAX)%Z ->
  is_finite (gen_rand_timeout base alpha0 r) = true /\ B2R base <= B2R (gen_rand_timeout base alpha0 r) <= 3 / 2 * B2R base + / 1000000.
Proof.
  intros base r F HB R. destruct alpha0_ok as (FA & VA). assert (B5 : bpow radix2 33 <= bpow radix2 500) by (apply bpow_le; lia). replace (bpow radix2 33) with 8589934592 in B5 by reflexivity.
  destruct (C149_range base alpha0 r F FA) as (X & Y); [lra|rewrite VA; lra|exact R|]. split; [exact X|]. split; [apply Y|]. eapply Rle_trans; [apply Y|]. rewrite VA.
  assert (S1 : Rabs (/ 2 * B2R base) < bpow radix2 33) by (rewrite Rabs_pos_eq by lra; cbn; lra).
  pose proof (rn_err 53 1024 P53 33 _ S1 ltac:(lia)) as E1. replace (bpow radix2 (33 - 53 - 1)) with (/ 2097152) in E1 by reflexivity. apply Rabs_le_inv in E1.
  assert (S2 : Rabs (B2R base + RD (/ 2 * B2R base)) < bpow radix2 33). { pose proof (rd_pos (/ 2 * B2R base) ltac:(lra)). rewrite Rabs_pos_eq by lra. cbn. lra. }
  pose proof (rn_err 53 1024 P53 33 _ S2 ltac:(lia)) as E2. replace (bpow radix2 (33 - 53 - 1)) with (/ 2097152) in E2 by reflexivity. apply Rabs_le_inv in E2. lra.
Qed.
Print Assumptions C149_default.

(** For whole seconds the timer is started with between 1000 and 1500
    milliseconds for each: what RetryModel takes for granted. *)
Theorem C149_seconds : forall k r, (0 <= k <= 2 ^ 31)%Z -> (0 <= r <= RAND_MAX)%Z -> exists ms, timer_ms (gen_rand_timeout (dofz k) alpha0 r) = Some ms /\ (1000 * k <= ms <= 1500 * k)%Z.
Proof.
  intros k r K R. destruct (dofz_ok k ltac:(lia)) as (F & V). destruct alpha0_ok as (FA & VA).
  assert (KR : 0 <= IZR k <= 2147483648) by (split; [apply IZR_le; lia|]; change 2147483648 with (IZR (2 ^ 31)); apply IZR_le; lia).
  assert (B5 : bpow radix2 31 <= bpow radix2 500) by (apply bpow_le; lia). replace (bpow radix2 31) with 2147483648 in B5 by reflexivity.
  destruct (C149_range (dofz k) alpha0 r F FA) as (X & Y); [lra|rewrite VA; lra|exact R|]. rewrite VA, V in Y.
  assert (H1 : RD (/ 2 * IZR k) = / 2 * IZR k).
  { apply round_generic; [auto with typeclass_instances|]. destruct (Z.eq_dec k 0) as [->|NZ]; [rewrite Rmult_0_r; apply generic_format_0|].
    replace (/ 2 * IZR k) with (F2R (Float radix2 k (-1))) by (unfold F2R; cbn; lra). apply generic_format_F2R. intros _. unfold cexp. rewrite fe_form.
    assert (M : (mag radix2 (F2R (Float radix2 k (-1))) <= 32)%Z). { apply mag_le_bpow; [unfold F2R; cbn; apply (IZR_neq k 0) in NZ; lra|]. unfold F2R. cbn. rewrite Rabs_pos_eq by lra. lra. }
    lia. }
  assert (H2 : RD (IZR k + / 2 * IZR k) = 3 / 2 * IZR k).
  { replace (IZR k + / 2 * IZR k) with (3 / 2 * IZR k) by lra. apply round_generic; [auto with typeclass_instances|]. destruct (Z.eq_dec k 0) as [->|NZ]; [rewrite Rmult_0_r; apply generic_format_0|].
    replace (3 / 2 * IZR k) with (F2R (Float radix2 (3 * k) (-1))) by (unfold F2R; cbn [Fnum Fexp]; rewrite mult_IZR; cbn; lra). apply generic_format_F2R. intros _. unfold cexp. rewrite fe_form.
    assert (M : (mag radix2 (F2R (Float radix2 (3 * k) (-1))) <= 33)%Z). { apply mag_le_bpow; unfold F2R; cbn [Fnum Fexp]; rewrite mult_IZR; [cbn; apply (IZR_neq k 0) in NZ; lra|]. rewrite Rabs_pos_eq by (cbn; lra). cbn. lra. }
    lia. }
  rewrite H1, H2 in Y. destruct (ms_product _ X ltac:(lra)) as (A & B & _ & D).
  destruct (to_u64_ok _ A) as (n & E & _ & G); [rewrite B; apply D|rewrite B; apply D|]. exists n. split; [exact E|]. rewrite B in G.
  assert (L : IZR (1000 * k) <= RD (B2R (gen_rand_timeout (dofz k) alpha0 r) * 1000)). { rewrite <- (rn_int 53 1024 P53 (1000 * k)) by lia. apply rd_mono. rewrite mult_IZR. lra. }
  assert (U : RD (B2R (gen_rand_timeout (dofz k) alpha0 r) * 1000) <= IZR (1500 * k)). { rewrite <- (rn_int 53 1024 P53 (1500 * k)) by lia. apply rd_mono. rewrite mult_IZR. lra. }
  split; [|apply le_IZR; lra]. assert (1000 * k < n + 1)%Z by (apply lt_IZR; rewrite plus_IZR; lra). lia.
Qed.
Print Assumptions C149_seconds.

Corollary C149_drawn : forall k r, (0 <= k <= 2 ^ 31)%Z -> (0 <= r <= RAND_MAX)%Z -> exists ms, timer_ms (gen_rand_timeout (dofz k) alpha0 r) = Some ms /\ RetryModel.drawn (Z.to_nat (1000 * k)) (Z.to_nat ms) = true.
Proof.
  intros k r K R. destruct (C149_seconds k r K R) as (ms & E & M). exists ms. split; [exact E|]. unfold RetryModel.drawn. apply andb_true_intro. split; apply Nat.leb_le; [lia|].
  assert (X : (2 * (Z.to_nat (1000 * k) / 2) = Z.to_nat (1000 * k))%nat). { replace (Z.to_nat (1000 * k)) with (Z.to_nat (500 * k) * 2)%nat by lia. rewrite Nat.div_mul by lia. lia. }
  lia.
Qed.
Print Assumptions C149_drawn.

(** Both ends are reached, and a value between them. *)
Example C149_nonvacuous : timer_ms (gen_rand_timeout (dofz 2) alpha0 0) = Some 2000%Z /\ timer_ms (gen_rand_timeout (dofz 2) alpha0 RAND_MAX) = Some 3000%Z /\ timer_ms (gen_rand_timeout (dofz 2) alpha0 1000000000) = Some 2465%Z.
Proof. vm_compute. auto. Qed.

(** ** C150 *)

(** The claim: between start and stop, elapsed_sec is the time that went by on
    the clock and cpu_elapsed_sec the processor time, up to three millionths of
    a second. *)
Definition valid_tv (s us : Z) : Prop := (0 <= s < 2 ^ 32 - 1)%Z /\ (0 <= us < 1000000)%Z.
Definition secs (s us : Z) : R := IZR s + IZR us / 1000000.
Definition C150_full : Prop :=
  (forall s0 us0 s1 us1, valid_tv s0 us0 -> valid_tv s1 us1 -> Rabs (B2R (elapsed_sec s0 us0 s1 us1) - (secs s1 us1 - secs s0 us0)) <= / 1000000)
  /\ forall c0 c1, (0 <= c0 <= c1)%Z -> (c1 < 2 ^ 63)%Z -> Rabs (B2R (cpu_elapsed_sec c0 c1) - IZR (c1 - c0) / 1000000) <= 3 / 1000000.

Lemma micro_ok : is_finite (lit 1 1000000) = true /\ Rabs (B2R (lit 1 1000000) - / 1000000) <= bpow radix2 (-72).
Proof.
  destruct (dofz_ok 1 ltac:(lia)) as (F & V). destruct (dofz_ok 1000000 ltac:(lia)) as (_ & V1).
  assert (S : Rabs (1 / 1000000) < bpow radix2 (-18)) by (rewrite Rabs_pos_eq by lra; cbn; lra).
  destruct (bdiv 53 1024 P53 P53e (-18) (dofz 1) (dofz 1000000) F) as (A & B); [rewrite V1; lra|rewrite V, V1; apply Rlt_le; exact S|lia|].
  rewrite V, V1 in B. split; [exact A|]. replace (/ 1000000) with (1 / 1000000) by lra. pose proof (rn_err 53 1024 P53 (-18) _ S ltac:(lia)) as E. rewrite <- B in E. exact E.
Qed.

Lemma tv_ok s us : valid_tv s us -> is_finite (tv_sec s us) = true /\ Rabs (B2R (tv_sec s us) - secs s us) <= / 4194304 + / 1000000000 /\ 0 <= B2R (tv_sec s us) <= 4294967296.
Proof.
  intros (HS & HU). destruct (dofz_ok s ltac:(lia)) as (F & V). destruct (dofz_ok us ltac:(lia)) as (F1 & V1). destruct micro_ok as (F2 & V2).
  assert (SR : 0 <= IZR s <= 4294967294) by (split; [apply IZR_le; lia|]; change 4294967294 with (IZR (2 ^ 32 - 2)); apply IZR_le; lia).
  assert (UR : 0 <= IZR us <= 999999) by (split; apply IZR_le; lia).
  assert (BB : bpow radix2 (-72) <= / 1000000000000000000) by (cbn; lra). assert (V2' := Rabs_le_inv _ _ V2). set (u := lit 1 1000000) in *. assert (W0 : exists w, B2R u = w) by eauto. destruct W0 as (w0 & W0). rewrite W0 in V2, V2'.
  assert (W : 0 <= w0 <= 2 / 1000000) by lra. assert (M1 : 0 <= IZR us * w0 <= 999999 * (2 / 1000000)) by (split; [apply Rmult_le_pos; lra|apply Rmult_le_compat; lra]).
  assert (M2 : Rabs (IZR us * w0 - IZR us / 1000000) <= 999999 * / 1000000000000000000).
  { replace (IZR us * w0 - IZR us / 1000000) with (IZR us * (w0 - / 1000000)) by lra. rewrite Rabs_mult. apply Rmult_le_compat; [apply Rabs_pos|apply Rabs_pos|rewrite Rabs_pos_eq by lra; lra|apply Rabs_le; lra]. }
  apply Rabs_le_inv in M2.
  assert (S1 : Rabs (IZR us * w0) < bpow radix2 1) by (rewrite Rabs_pos_eq by lra; cbn; lra).
  destruct (bmul 53 1024 P53 P53e 1 (dofz us) u F1 F2) as (A & B); [rewrite V1, W0; apply Rlt_le; exact S1|lia|]. rewrite V1, W0 in B.
  pose proof (rn_err 53 1024 P53 1 _ S1 ltac:(lia)) as E1. assert (B1 : bpow radix2 (1 - 53 - 1) <= / 1000000000000) by (cbn; lra). apply Rabs_le_inv in E1.
  assert (P : 0 <= RD (IZR us * w0)) by (apply rd_pos; lra).
  assert (VM : B2R (dmul (dofz us) u) = RD (IZR us * w0)) by exact B.
  assert (NM : Rabs (B2R (dmul (dofz us) u) - IZR us / 1000000) <= / 1000000000) by (rewrite VM; apply Rabs_le; lra).
  apply Rabs_le_inv in NM. rewrite <- VM in P. set (w := B2R (dmul (dofz us) u)) in *.
  assert (S2 : Rabs (IZR s + w) < bpow radix2 32) by (rewrite Rabs_pos_eq by lra; cbn; lra).
  destruct (badd 53 1024 P53 P53e 32 (dofz s) (dmul (dofz us) u) F A) as (C & D); [rewrite V; apply Rlt_le; exact S2|lia|].
  assert (VT : B2R (tv_sec s us) = RD (IZR s + w)) by (rewrite V in D; exact D).
  pose proof (rn_err 53 1024 P53 32 _ S2 ltac:(lia)) as E2. replace (bpow radix2 (32 - 53 - 1)) with (/ 4194304) in E2 by reflexivity. apply Rabs_le_inv in E2.
  split; [exact C|]. rewrite VT. split; [apply Rabs_le; unfold secs; lra|]. split; [apply rd_pos; lra|].
  pose proof (rn_abs 53 1024 P53 32 (IZR s + w) (Rlt_le _ _ S2) ltac:(lia)) as X. apply Rabs_le_inv in X. cbn in X. lra.
Qed.

(** The wall clock; also when it was set back meanwhile. *)
Theorem C150_wall : forall s0 us0 s1 us1, valid_tv s0 us0 -> valid_tv s1 us1 ->
  is_finite (elapsed_sec s0 us0 s1 us1) = true /\ Rabs (B2R (elapsed_sec s0 us0 s1 us1) - (secs s1 us1 - secs s0 us0)) <= / 1000000.
Proof.
  intros s0 us0 s1 us1 H0 H1. destruct (tv_ok _ _ H0) as (F0 & E0 & R0). destruct (tv_ok _ _ H1) as (F1 & E1 & R1).
  assert (S : Rabs (B2R (tv_sec s1 us1) - B2R (tv_sec s0 us0)) <= bpow radix2 32) by (apply Rabs_le; cbn; lra).
  destruct (bsub 53 1024 P53 P53e 32 _ _ F1 F0 S ltac:(lia)) as (A & B). split; [exact A|].
  assert (VB : B2R (elapsed_sec s0 us0 s1 us1) = RD (B2R (tv_sec s1 us1) - B2R (tv_sec s0 us0))) by exact B. rewrite VB. apply Rabs_le_inv in E0, E1. apply Rabs_le_inv in S. replace (bpow radix2 32) with 4294967296 in S by reflexivity.
  destruct (Rlt_or_le (Rabs (B2R (tv_sec s1 us1) - B2R (tv_sec s0 us0))) (bpow radix2 32)) as [L|L].
  - pose proof (rn_err 53 1024 P53 32 _ L ltac:(lia)) as E. replace (bpow radix2 (32 - 53 - 1)) with (/ 4194304) in E by reflexivity. apply Rabs_le_inv in E. apply Rabs_le. lra.
  - set (d := B2R (tv_sec s1 us1) - B2R (tv_sec s0 us0)) in *. assert (EQ : RD d = d).
    { replace (bpow radix2 32) with 4294967296 in L by reflexivity. assert (Q : d = 4294967296 \/ d = - 4294967296) by (unfold Rabs in L; destruct (Rcase_abs d); [right|left]; lra).
      destruct Q as [->| ->]; [apply (rn_int 53 1024 P53 4294967296)|apply (rn_int 53 1024 P53 (-4294967296))]; lia. }
    rewrite EQ. unfold d. apply Rabs_le. lra.
Qed.
Print Assumptions C150_wall.

Lemma cpu_ok c : (0 <= c <= 2 ^ 24)%Z -> is_finite (fdiv (fofz c) (fofz 1000000)) = true /\ Rabs (B2R (fdiv (fofz c) (fofz 1000000)) - IZR c / 1000000) <= / 1048576 /\ 0 <= B2R (fdiv (fofz c) (fofz 1000000)) <= 17.
Proof.
  intros C. destruct (fofz_ok c ltac:(lia)) as (F & V). destruct (fofz_ok 1000000 ltac:(lia)) as (_ & V1).
  assert (CR : 0 <= IZR c <= 16777216) by (split; [apply IZR_le; lia|]; change 16777216 with (IZR (2 ^ 24)); apply IZR_le; lia).
  assert (S : Rabs (IZR c / 1000000) < bpow radix2 5) by (rewrite Rabs_pos_eq by lra; cbn; lra).
  destruct (bdiv 24 128 P24 P24e 5 (fofz c) (fofz 1000000) F) as (A & B); [rewrite V1; lra|rewrite V, V1; apply Rlt_le; exact S|lia|]. rewrite V, V1 in B.
  pose proof (rn_err 24 128 P24 5 _ S ltac:(lia)) as E. replace (bpow radix2 (5 - 24 - 1)) with (/ 1048576) in E by reflexivity.
  split; [exact A|]. assert (VB : B2R (fdiv (fofz c) (fofz 1000000)) = RF (IZR c / 1000000)) by exact B. rewrite VB. split; [exact E|]. apply Rabs_le_inv in E. split; [|lra].
  rewrite <- (round_0 radix2 (SpecFloat.fexp 24 128) ZnearestE). apply round_le; [auto with typeclass_instances|auto with typeclass_instances|lra].
Qed.

(** Processor time, in the first 16 seconds of it. *)
Theorem C150_cpu_partial : forall c0 c1, (0 <= c0 <= c1)%Z -> (c1 <= 2 ^ 24)%Z ->
  is_finite (cpu_elapsed_sec c0 c1) = true /\ Rabs (B2R (cpu_elapsed_sec c0 c1) - IZR (c1 - c0) / 1000000) <= 3 / 1000000.
Proof.
  intros c0 c1 H0 H1. destruct (cpu_ok c0 ltac:(lia)) as (F0 & E0 & R0). destruct (cpu_ok c1 ltac:(lia)) as (F1 & E1 & R1).
  assert (S : Rabs (B2R (fdiv (fofz c1) (fofz 1000000)) - B2R (fdiv (fofz c0) (fofz 1000000))) < bpow radix2 5) by (replace (bpow radix2 5) with 32 by reflexivity; apply Rabs_lt; lra).
  destruct (bsub 24 128 P24 P24e 5 _ _ F1 F0 (Rlt_le _ _ S) ltac:(lia)) as (A & B). split; [exact A|].
  pose proof (rn_err 24 128 P24 5 _ S ltac:(lia)) as E. replace (bpow radix2 (5 - 24 - 1)) with (/ 1048576) in E by reflexivity. rewrite <- B in E.
  assert (E' : Rabs (B2R (cpu_elapsed_sec c0 c1) - (B2R (fdiv (fofz c1) (fofz 1000000)) - B2R (fdiv (fofz c0) (fofz 1000000)))) <= / 1048576) by exact E.
  apply Rabs_le_inv in E', E0, E1. rewrite minus_IZR. apply Rabs_le. lra.
Qed.
Print Assumptions C150_cpu_partial.

(** After nineteen hours of processor time: four milliseconds are reported as
    none, and one microsecond as almost eight milliseconds. *)
Theorem C150_cpu_refuted :
  B2SF (cpu_elapsed_sec (2 ^ 36) (2 ^ 36 + 4096)) = B2SF (fofz 0)
  /\ B2SF (cpu_elapsed_sec (2 ^ 36 + 4096) (2 ^ 36 + 4097)) = B2SF (fdiv (fofz 1) (fofz 128)).
Proof. vm_compute. auto. Qed.
Print Assumptions C150_cpu_refuted.

Theorem C150_full_refuted : ~ C150_full.
Proof.
  intros (_ & F). pose proof (F (2 ^ 36) (2 ^ 36 + 4096) ltac:(lia) ltac:(lia))%Z as X.
  assert (Z0 : B2R (cpu_elapsed_sec (2 ^ 36) (2 ^ 36 + 4096)) = 0). { destruct C150_cpu_refuted as (H & _). apply (f_equal (SF2R radix2)) in H. rewrite !SF2R_B2SF in H. rewrite H. apply (fofz_ok 0). lia. }
  rewrite Z0 in X. replace (2 ^ 36 + 4096 - 2 ^ 36)%Z with 4096%Z in X by reflexivity. apply Rabs_le_inv in X. lra.
Qed.
Print Assumptions C150_full_refuted.

Example C150_nonvacuous : valid_tv 1700000000 999999 /\ valid_tv 1700000003 0 /\ B2SF (elapsed_sec 1700000000 999999 1700000003 0) = B2SF (ddiv (dofz 8388612) (dofz 4194304)) /\ B2SF (cpu_elapsed_sec 0 2500000) = B2SF (fdiv (fofz 5) (fofz 2)).
Proof. split; [unfold valid_tv; lia|]. split; [unfold valid_tv; lia|]. vm_compute. auto. Qed.

(** ** C151 *)

Lemma cut_exact (t : dbl) : 0 <= B2R t -> RD (B2R t - IZR (Zfloor (B2R t))) = B2R t - IZR (Zfloor (B2R t)).
Proof.
  intros P. apply round_generic; [auto with typeclass_instances|]. set (x := B2R t) in *. set (s := Zfloor x).
  assert (G : generic_format radix2 (SpecFloat.fexp 53 1024) x) by apply generic_format_B2R.
  assert (S0 : (0 <= s)%Z) by (apply Zfloor_lub; exact P). pose proof (Zfloor_lb x) as L. fold s in L.
  destruct (Z_lt_le_dec (cexp radix2 (SpecFloat.fexp 53 1024) x) 0) as [N|N].
  - set (e := cexp radix2 (SpecFloat.fexp 53 1024) x) in *. set (m := Ztrunc (scaled_mantissa radix2 (SpecFloat.fexp 53 1024) x)).
    assert (X : x = IZR m * bpow radix2 e) by exact G.
    assert (Q : x - IZR s = F2R (Float radix2 (m - s * Zpower radix2 (- e)) e)).
    { unfold F2R. cbn [Fnum Fexp]. rewrite minus_IZR, mult_IZR, (IZR_Zpower radix2) by lia. rewrite Rmult_minus_distr_r, Rmult_assoc, <- bpow_plus. replace (- e + e)%Z with 0%Z by lia. cbn [bpow]. rewrite <- X. ring. }
    rewrite Q. apply generic_format_F2R. intros NZ. rewrite <- Q. unfold e, cexp.
    assert (D : x - IZR s <> 0). { rewrite Q. intros H. apply eq_0_F2R in H. contradiction. }
    assert (M : (mag radix2 (x - IZR s) <= mag radix2 x)%Z). { apply mag_le_abs; [exact D|]. assert (0 <= IZR s) by (apply IZR_le; exact S0). rewrite !Rabs_pos_eq by lra. lra. }
    rewrite !fe_form. lia.
  - assert (Q : x - IZR s = 0).
    { assert (X : x = IZR (Ztrunc (scaled_mantissa radix2 (SpecFloat.fexp 53 1024) x) * Zpower radix2 (cexp radix2 (SpecFloat.fexp 53 1024) x))) by (rewrite mult_IZR, (IZR_Zpower radix2) by exact N; exact G).
      unfold s. rewrite X at 2. rewrite Zfloor_IZR, <- X. ring. }
    rewrite Q. apply generic_format_0.
Qed.

(** The greatest double below one bounds the part after the point. *)
Lemma frac_le (y : R) : generic_format radix2 (SpecFloat.fexp 53 1024) y -> 0 <= y < 1 -> y <= 1 - bpow radix2 (-53).
Proof.
  intros G H. replace (1 - bpow radix2 (-53)) with (pred radix2 (SpecFloat.fexp 53 1024) 1).
  - apply pred_ge_gt; [exact vd|exact G| |apply H]. replace 1 with (bpow radix2 0) by reflexivity. apply (fmt_bpow 53 1024 P53). lia.
  - change 1 with (bpow radix2 0). rewrite pred_bpow. f_equal.
Qed.

(** sec2tv gives whole seconds and microseconds of them, less than a million,
    which fall short of t by no more than a microsecond. *)
Theorem C151_sec2tv : forall t : dbl, is_finite t = true -> 0 <= B2R t <= 4294967296 ->
  exists s us, sec2tv t = Some (s, us) /\ (0 <= us < 1000000)%Z /\ IZR s <= B2R t < IZR s + 1 /\ secs s us - / 1000000000 <= B2R t < secs s us + / 1000000 + / 1000000000.
Proof.
  intros t F T. set (s := Zfloor (B2R t)). pose proof (Zfloor_lb (B2R t)) as L. pose proof (Zfloor_ub (B2R t)) as U. fold s in L, U.
  assert (S0 : (0 <= s)%Z) by (apply Zfloor_lub; apply T). assert (S1 : (s <= 4294967296)%Z) by (apply le_IZR; lra).
  assert (I1 : to_i64 t = Some s).
  { unfold to_i64. rewrite F, (btrunc_spec 53 1024 P53e), Ztrunc_floor by apply T. fold s. destruct (Z.leb_spec (- 2 ^ 63) s); [|lia]. destruct (Z.ltb_spec s (2 ^ 63)); [reflexivity|lia]. }
  destruct (dofz_ok s ltac:(lia)) as (FS & VS). destruct (dofz_ok 1000000 ltac:(lia)) as (F1 & V1).
  destruct (bsub 53 1024 P53 P53e 0 t (dofz s) F FS) as (A & B); [rewrite VS, Rabs_pos_eq by lra; cbn; lra|lia|]. rewrite VS in B. pose proof (cut_exact t ltac:(lra)) as CE. fold s in CE.
  assert (VD : B2R (dsub t (dofz s)) = B2R t - IZR s) by (rewrite <- CE; exact B).
  assert (FR : B2R t - IZR s <= 1 - bpow radix2 (-53)). { apply frac_le; [rewrite <- VD; apply generic_format_B2R|lra]. }
  set (y := B2R t - IZR s) in *. assert (Y : 0 <= y) by (unfold y; lra).
  assert (Y1 : y < 1) by (unfold y; lra). assert (SM : Rabs (y * 1000000) < bpow radix2 20) by (replace (bpow radix2 20) with 1048576 by reflexivity; rewrite Rabs_pos_eq by lra; lra).
  destruct (bmul 53 1024 P53 P53e 20 (dsub t (dofz s)) (dofz 1000000) A F1) as (C & D); [rewrite VD, V1; apply Rlt_le; exact SM|lia|]. rewrite VD, V1 in D.
  assert (VM : B2R (dmul (dsub t (dofz s)) (dofz 1000000)) = RD (y * 1000000)) by exact D.
  pose proof (rn_err 53 1024 P53 20 _ SM ltac:(lia)) as E. assert (EB : bpow radix2 (20 - 53 - 1) <= / 10000000000) by (cbn; lra). apply Rabs_le_inv in E.
  assert (LT : RD (y * 1000000) < 1000000).
  { assert (bpow radix2 (20 - 53 - 1) < 1000000 * bpow radix2 (-53)) by (cbn; lra). lra. }
  assert (P0 : 0 <= RD (y * 1000000)) by (apply rd_pos; lra).
  set (us := Zfloor (RD (y * 1000000))). pose proof (Zfloor_lb (RD (y * 1000000))) as L2. pose proof (Zfloor_ub (RD (y * 1000000))) as U2. fold us in L2, U2.
  assert (US0 : (0 <= us)%Z) by (apply Zfloor_lub; exact P0). assert (US1 : (us < 1000000)%Z) by (apply lt_IZR; lra).
  assert (I2 : to_i64 (dmul (dsub t (dofz s)) (dofz 1000000)) = Some us).
  { unfold to_i64. assert (C' : is_finite (dmul (dsub t (dofz s)) (dofz 1000000)) = true) by exact C. rewrite C', (btrunc_spec 53 1024 P53e), VM, Ztrunc_floor by exact P0. fold us. destruct (Z.leb_spec (- 2 ^ 63) us); [|lia]. destruct (Z.ltb_spec us (2 ^ 63)); [reflexivity|lia]. }
  exists s, us. split; [unfold sec2tv; rewrite I1, I2; reflexivity|]. split; [lia|]. split; [lra|]. unfold secs, y in *. lra.
Qed.
Print Assumptions C151_sec2tv.

Example C151_nonvacuous : sec2tv (lit 5 2) = Some (2, 500000)%Z /\ sec2tv (lit 1999999 1000000) = Some (1, 999999)%Z /\ sec2tv (lit 3 1000000) = Some (0, 3)%Z.
Proof. vm_compute. auto. Qed.

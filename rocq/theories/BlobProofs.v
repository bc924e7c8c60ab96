(** Proofs about Blob and Bits. *)
From Coq Require Import Arith NArith ZArith List Bool Lia ZifyBool ZifyN ZifyNat.
From Coq.Init Require Import Byte.
From Verif Require Import Base StreamModel StreamSpec StreamProofs BlobModel.
Import ListNotations.
Local Open Scope N_scope.

(** ** Words and bytes *)

(** The bytes of a word array in wire order. *)
Definition words_bytes (w : nat) (ws : list N) : bytes := flat_map (le_bytes w) ws.
Definition words_ok (w : nat) (ws : list N) : Prop := Forall (fun x => x < word_mod w) ws.

Lemma words_bytes_length w ws : length (words_bytes w ws) = (length ws * w)%nat.
Proof.
  induction ws as [|x ws IH]; [reflexivity|].
  unfold words_bytes in *. simpl. rewrite app_length, le_bytes_length, IH. lia.
Qed.

Lemma words_bytes_app w a b : words_bytes w (a ++ b) = words_bytes w a ++ words_bytes w b.
Proof. apply flat_map_app. Qed.

Lemma lor_shift8 x b w :
  x * 256 + byte_val b < word_mod w ->
  N.lor (N.shiftl x 8 mod word_mod w) (byte_val b) = byte_val b + 256 * x.
Proof.
  intros H. rewrite N.shiftl_mul_pow2. change (2 ^ 8) with 256.
  rewrite N.mod_small by lia.
  pose proof (byte_val_lt b) as B.
  assert (E : N.land (x * 256) (byte_val b) = 0).
  { apply N.bits_inj. intros i. rewrite N.land_spec, N.bits_0.
    destruct (N.ltb_spec i 8) as [Hi|Hi].
    - change 256 with (2 ^ 8). rewrite N.mul_pow2_bits_low by exact Hi. reflexivity.
    - rewrite andb_comm. destruct (N.testbit (byte_val b) i) eqn:T; [|reflexivity].
      exfalso. assert (byte_val b <> 0) by (intros Z; rewrite Z, N.bits_0 in T; discriminate).
      rewrite N.bits_above_log2 in T; [discriminate|].
      assert (byte_val b < 2 ^ 8) by exact B.
      apply N.log2_lt_pow2 in H1; lia. }
  rewrite <- N.lxor_lor by exact E. rewrite <- N.add_nocarry_lxor by exact E. lia.
Qed.

Lemma load_word_ok w0 rc : forall r d,
  (length rc + length d = w0)%nat ->
  load_word w0 (length rc) (rc ++ r) (le_word d) = Some (le_word (rev rc ++ d), r).
Proof.
  induction rc as [|b rc IH]; intros r d L.
  - reflexivity.
  - cbn [length app load_word]. rewrite lor_shift8.
    + change (byte_val b + 256 * le_word d) with (le_word (b :: d)).
      rewrite IH by (simpl in *; lia). simpl rev. rewrite <- app_assoc. reflexivity.
    + pose proof (le_word_lt (b :: d)) as H. cbn [le_word] in H.
      assert (M : word_mod (length (b :: d)) <= word_mod w0).
      { unfold word_mod. apply N.pow_le_mono_r; [lia|]. simpl in *. lia. }
      lia.
Qed.

Lemma load_words_ok w ws : forall r acc,
  words_ok w ws ->
  load_words w (length ws) (rev (words_bytes w ws) ++ r) acc = Some (ws ++ acc).
Proof.
  induction ws as [|x ws IH] using rev_ind; intros r acc F.
  - reflexivity.
  - apply Forall_app in F. destruct F as [F1 F2]. inversion F2 as [|? ? Hx _]; subst.
    rewrite app_length. simpl length. rewrite Nat.add_1_r.
    rewrite words_bytes_app, rev_app_distr. unfold words_bytes at 1. simpl flat_map.
    rewrite app_nil_r, <- app_assoc. cbn [load_words].
    assert (L : length (rev (le_bytes w x)) = w)
      by (rewrite rev_length; apply le_bytes_length).
    pose proof (load_word_ok w (rev (le_bytes w x))
                  (rev (words_bytes w ws) ++ r) []) as E.
    rewrite L in E. simpl le_word in E. rewrite E by (simpl; lia).
    rewrite rev_involutive, app_nil_r, le_word_small by exact Hx.
    rewrite IH by exact F1. rewrite <- app_assoc. reflexivity.
Qed.

(** Every byte string of the right length is the image of a word array. *)
Lemma words_of_bytes w n : (w > 0)%nat -> forall bs, length bs = (n * w)%nat ->
  exists ws, length ws = n /\ words_ok w ws /\ words_bytes w ws = bs.
Proof.
  intros W. induction n as [|n IH]; intros bs L.
  - destruct bs; [|discriminate]. exists []. repeat split. constructor.
  - simpl in L. destruct (IH (skipn w bs)) as (ws & L1 & F1 & E1).
    { rewrite skipn_length. lia. }
    assert (LF : length (firstn w bs) = w) by (rewrite firstn_length; lia).
    exists (le_word (firstn w bs) :: ws). repeat split.
    + simpl. congruence.
    + constructor; [|exact F1]. pose proof (le_word_lt (firstn w bs)). rewrite LF in H. exact H.
    + unfold words_bytes in *. simpl. rewrite E1.
      pose proof (le_bytes_le_word (firstn w bs)) as E. rewrite LF in E. rewrite E.
      apply firstn_skipn.
Qed.

Lemma words_bytes_inj w a : forall b, words_ok w a -> words_ok w b -> length a = length b ->
  words_bytes w a = words_bytes w b -> a = b.
Proof.
  induction a as [|x a IH]; intros [|y b] Fa Fb L E; try discriminate; [reflexivity|].
  inversion Fa; inversion Fb; subst. unfold words_bytes in E. simpl in E.
  assert (E1 : firstn w (le_bytes w x ++ flat_map (le_bytes w) a)
               = firstn w (le_bytes w y ++ flat_map (le_bytes w) b)) by congruence.
  assert (E2 : skipn w (le_bytes w x ++ flat_map (le_bytes w) a)
               = skipn w (le_bytes w y ++ flat_map (le_bytes w) b)) by congruence.
  rewrite !firstn_app, !le_bytes_length, Nat.sub_diag in E1.
  rewrite !firstn_O, !app_nil_r in E1.
  rewrite (firstn_all2 (le_bytes w x)), (firstn_all2 (le_bytes w y)) in E1
    by (rewrite le_bytes_length; lia).
  rewrite !skipn_app, !le_bytes_length, Nat.sub_diag in E2.
  rewrite (skipn_all2 (le_bytes w x)), (skipn_all2 (le_bytes w y)) in E2
    by (rewrite le_bytes_length; lia).
  simpl in E2.
  f_equal.
  - apply (le_bytes_inj w); assumption.
  - apply IH; try assumption. simpl in L. lia.
Qed.

Lemma words_val_snoc w ws x :
  le_word (words_bytes w (ws ++ [x]))
  = le_word (words_bytes w ws) + word_mod (length ws * w) * (x mod word_mod w).
Proof.
  rewrite words_bytes_app, le_word_app, words_bytes_length.
  unfold words_bytes at 2. simpl flat_map. rewrite app_nil_r, le_word_le_bytes. reflexivity.
Qed.

(** ** Blob *)

Definition blob_ok (w n : nat) (b : blob) : Prop :=
  length (bl_data b) = n /\ words_ok w (bl_data b)
  /\ (bl_loaded b = false -> bl_data b = repeat 0 n).

Lemma fold_put_words h w ws : forall s,
  fold_left (fun s x => ds_put_int h w (htole h w x) s) ws s
  = ds_put_data (words_bytes w ws) s.
Proof.
  induction ws as [|x ws IH]; intros s; simpl.
  - unfold ds_put_data. simpl. rewrite app_nil_r. destruct s; reflexivity.
  - rewrite IH. unfold ds_put_data, ds_put_int. simpl. rewrite htole_bytes, <- app_assoc.
    reflexivity.
Qed.

Lemma fold_put_zeros h w (ws : list N) : forall s,
  fold_left (fun s _ => ds_put_int h w (htole h w 0) s) ws s
  = ds_put_data (words_bytes w (repeat 0 (length ws))) s.
Proof.
  induction ws as [|x ws IH]; intros s; simpl.
  - unfold ds_put_data. simpl. rewrite app_nil_r. destruct s; reflexivity.
  - rewrite IH. unfold ds_put_data, ds_put_int. simpl. rewrite htole_bytes, <- app_assoc.
    reflexivity.
Qed.

Lemma words_bytes_zeros w n : words_bytes w (repeat 0 n) = repeat x00 (n * w).
Proof.
  assert (Z : forall w, le_bytes w 0 = repeat x00 w).
  { induction w0 as [|w0 IH]; [reflexivity|]. simpl. f_equal. exact IH. }
  induction n as [|n IH]; [reflexivity|]. unfold words_bytes in *. simpl.
  rewrite IH, Z, <- repeat_app. reflexivity.
Qed.

Lemma blob_serialize_eq h w n b s : blob_ok w n b ->
  blob_serialize h w b s = ds_put_data (words_bytes w (bl_data b)) s.
Proof.
  intros (L & F & Z). unfold blob_serialize. destruct (bl_loaded b) eqn:E.
  - apply fold_put_words.
  - rewrite fold_put_zeros, (Z eq_refl), repeat_length. reflexivity.
Qed.

Lemma blob_of_bytes_ok w n arr : (w > 0)%nat -> length arr = (n * w)%nat ->
  exists b, blob_of_bytes w n arr = Ret b tt /\ blob_ok w n b
            /\ words_bytes w (bl_data b) = arr /\ bl_loaded b = true.
Proof.
  intros W L. destruct (words_of_bytes w n W arr L) as (ws & L1 & F1 & E1).
  exists (mkBlob ws true). unfold blob_of_bytes.
  replace (lenN arr) with (N.of_nat (n * w)) by (unfold lenN; lia). rewrite N.eqb_refl.
  unfold blob_load. rewrite <- L, firstn_all, <- E1.
  rewrite <- (app_nil_r (rev (words_bytes w ws))). rewrite <- L1, load_words_ok by exact F1.
  rewrite app_nil_r. simpl. repeat split; auto. discriminate.
Qed.

Lemma blob_unser_loop_ok h w ws : (w > 0)%nat -> words_ok w ws ->
  forall done todo ld s rest,
  unread s (words_bytes w ws ++ rest) -> length todo = length ws ->
  exists s', blob_unser_loop h w done todo ld s = Ret tt (mkBlob (done ++ ws) true, s')
             /\ unread s' rest.
Proof.
  intros W. induction ws as [|x ws IH]; intros F done todo ld s rest U L.
  - destruct todo; [|discriminate]. exists s. simpl. rewrite app_nil_r. auto.
  - destruct todo as [|t todo]; [discriminate|]. inversion F as [|? ? Hx F']; subst.
    unfold words_bytes in U. simpl in U. rewrite <- app_assoc in U.
    destruct (get_int_ok h w s _ _ U (le_bytes_length w x)) as (s1 & E1 & U1 & _).
    cbn [blob_unser_loop]. rewrite E1.
    assert (V : letoh h w (native_word h (le_bytes w x)) = x).
    { rewrite <- (le_bytes_length w x) at 1. rewrite letoh_native, le_word_small; auto. }
    rewrite V. destruct (IH F' (done ++ [x]) todo ld s1 rest U1) as (s2 & E2 & U2).
    { simpl in L. lia. }
    exists s2. rewrite E2, <- app_assoc. auto.
Qed.

Lemma blob_unser_loop_short h w : (w > 0)%nat -> N.of_nat w < 2 ^ 62 ->
  forall todo done ld s u, unread s u -> lenN u < N.of_nat (length todo * w) ->
  exists b s', blob_unser_loop h w done todo ld s = Exn ExnFailure (b, s').
Proof.
  intros W W2. induction todo as [|t todo IH]; intros done ld s u U L.
  - simpl in L. lia.
  - cbn [blob_unser_loop]. destruct (get_int_keeps_unread h w s u U W2) as [A B].
    destruct (N.leb_spec (N.of_nat w) (lenN u)) as [C|C].
    + destruct (A C) as (s1 & E1 & U1). rewrite E1. eapply IH; [exact U1|].
      rewrite lenN_dropN. simpl length in L. lia.
    + rewrite (B C). eauto.
Qed.

(** The words that are there are stored, the bytes of the next one left alone. *)
Lemma blob_unser_loop_part h w : (w > 0)%nat -> N.of_nat w < 2 ^ 62 ->
  forall todo done ld s u, unread s u -> lenN u < N.of_nat (length todo * w) ->
  exists ws rest s', blob_unser_loop h w done todo ld s = Exn ExnFailure (mkBlob (done ++ ws ++ skipn (length ws) todo) ld, s')
    /\ u = words_bytes w ws ++ rest /\ (length rest < w)%nat /\ unread s' rest.
Proof.
  intros W W2. induction todo as [|t todo IH]; intros done ld s u U L.
  - simpl in L. lia.
  - cbn [blob_unser_loop]. destruct (get_int_keeps_unread h w s u U W2) as [A B].
    destruct (N.leb_spec (N.of_nat w) (lenN u)) as [C|C].
    + destruct (A C) as (s1 & E1 & U1). rewrite E1.
      set (x := letoh h w (native_word h (takeN (N.of_nat w) u))).
      assert (X : le_bytes w x = takeN (N.of_nat w) u).
      { unfold x. assert (K : length (takeN (N.of_nat w) u) = w).
        { pose proof (lenN_takeN (N.of_nat w) u) as K. unfold lenN in *. lia. }
        rewrite <- K at 1 2. rewrite letoh_native. apply le_bytes_le_word. }
      destruct (IH (done ++ [x]) ld s1 (dropN (N.of_nat w) u) U1) as (ws & rest & s' & E & V & R & U').
      { rewrite lenN_dropN. simpl length in L. lia. }
      exists (x :: ws), rest, s'. rewrite E, <- app_assoc. split; [reflexivity|]. split; [|auto].
      unfold words_bytes in *. cbn [flat_map]. rewrite X, <- app_assoc, <- V. symmetry. apply takeN_dropN.
    + rewrite (B C). exists [], u, s. split; [reflexivity|]. split; [reflexivity|].
      split; [unfold lenN in C; lia|exact U].
Qed.

Lemma words_eqb_eq a : forall b, length a = length b -> (words_eqb a b = true <-> a = b).
Proof.
  induction a as [|x a IH]; intros [|y b] L; try discriminate; simpl.
  - tauto.
  - destruct (N.eqb_spec x y) as [->|N1]; simpl.
    + rewrite IH by (simpl in L; lia). split; congruence.
    + split; [discriminate|]. intros E; congruence.
Qed.

Lemma words_ltb_loop_ok w : forall n a b, length a = S n -> length b = S n ->
  words_ok w a -> words_ok w b ->
  words_ltb_loop n a b = (le_word (words_bytes w a) <? le_word (words_bytes w b)).
Proof.
  assert (Ext : forall n a b x y, (n < length a)%nat -> (n < length b)%nat ->
            words_ltb_loop n (a ++ x) (b ++ y) = words_ltb_loop n a b).
  { induction n as [|n IH]; intros a b x y La Lb; cbn [words_ltb_loop].
    - rewrite !app_nth1 by lia. reflexivity.
    - rewrite !app_nth1 by lia. rewrite IH by lia. reflexivity. }
  induction n as [|n IH]; intros a b La Lb Fa Fb.
  - destruct a as [|x [|]]; try discriminate. destruct b as [|y [|]]; try discriminate.
    inversion Fa; inversion Fb; subst. unfold words_bytes; simpl.
    rewrite !app_nil_r, !le_word_small by assumption. reflexivity.
  - destruct (rev a) as [|x ra] eqn:Ra.
    { apply (f_equal (@rev N)) in Ra. rewrite rev_involutive in Ra. subst a. discriminate. }
    destruct (rev b) as [|y rb] eqn:Rb.
    { apply (f_equal (@rev N)) in Rb. rewrite rev_involutive in Rb. subst b. discriminate. }
    apply (f_equal (@rev N)) in Ra, Rb. rewrite rev_involutive in Ra, Rb.
    simpl in Ra, Rb. subst a b. set (a := rev ra) in *. set (b := rev rb) in *.
    rewrite app_length in La, Lb. simpl in La, Lb.
    apply Forall_app in Fa. destruct Fa as [Fa Fx]. apply Forall_app in Fb. destruct Fb as [Fb Fy].
    inversion Fx; inversion Fy; subst.
    cbn [words_ltb_loop]. rewrite !app_nth2 by lia.
    replace (S n - length a)%nat with 0%nat by lia. replace (S n - length b)%nat with 0%nat by lia.
    simpl nth. rewrite !words_val_snoc, !(N.mod_small _ (word_mod w)) by assumption.
    assert (LL : length a = length b) by lia.
    pose proof (le_word_lt (words_bytes w a)) as Wa. rewrite words_bytes_length in Wa.
    pose proof (le_word_lt (words_bytes w b)) as Wb. rewrite words_bytes_length in Wb.
    rewrite LL in *. set (M := word_mod (length b * w)) in *.
    destruct (N.eqb_spec x y) as [->|Nxy]; simpl negb.
    + rewrite Ext by lia. rewrite IH by (auto; lia).
      destruct (N.ltb_spec (le_word (words_bytes w a)) (le_word (words_bytes w b)));
        destruct (N.ltb_spec (le_word (words_bytes w a) + M * y) (le_word (words_bytes w b) + M * y));
        reflexivity || lia.
    + simpl. destruct (N.ltb_spec x y);
      destruct (N.ltb_spec (le_word (words_bytes w a) + M * x) (le_word (words_bytes w b) + M * y));
        try reflexivity; exfalso; nia.
Qed.

(** ** Bits *)

(** sizeof(T) for the unsigned integer types. *)
Definition datum_ok (w : nat) : Prop := w = 1%nat \/ w = 2%nat \/ w = 4%nat \/ w = 8%nat.

Lemma datum_shift w : datum_ok w ->
  bpd w = 2 ^ bshift w /\ 8 <= bpd w <= 64 /\ word_mod w = 2 ^ bpd w.
Proof. intros [-> | [-> | [-> | -> ]]]; repeat split; (reflexivity || discriminate). Qed.

(** Storage agrees with the recorded size. *)
Definition bits_ok (w : nat) (b : bits) : Prop :=
  bt_ndata b = bits_ndata w (bt_nbits b) /\ length (bt_data b) = N.to_nat (bt_ndata b)
  /\ words_ok w (bt_data b) /\ bt_nbits b < 2 ^ 32.

(** Sizes for which nbits + bit_per_datum - 1 does not wrap. *)
Definition no_wrap (w : nat) (nbits : N) : Prop := nbits + bpd w <= 2 ^ 32.

(** Bit [j] of the storage. *)
Definition bit_at (w : nat) (data : list N) (j : N) : bool :=
  N.testbit (nth (N.to_nat (j / bpd w)) data 0) (j mod bpd w).

Lemma idx_word w idx : datum_ok w -> N.shiftr idx (bshift w) = idx / bpd w.
Proof. intros D. destruct (datum_shift w D) as (E & _). rewrite N.shiftr_div_pow2, <- E. reflexivity. Qed.

Lemma idx_pos w idx : datum_ok w -> N.land idx (bpd w - 1) = idx mod bpd w.
Proof.
  intros D. destruct (datum_shift w D) as (E & _).
  rewrite E. rewrite N.sub_1_r, <- N.ones_equiv. apply N.land_ones.
Qed.

Lemma ndata_covers w nbits i : datum_ok w -> no_wrap w nbits -> i < nbits ->
  i / bpd w < bits_ndata w nbits.
Proof.
  intros D NW L. destruct (datum_shift w D) as (E & B & _).
  unfold bits_ndata, no_wrap, u32_max1 in *. rewrite N.mod_small by lia.
  apply N.div_lt_upper_bound; [lia|].
  pose proof (N.mul_succ_div_gt (nbits + bpd w - 1) (bpd w)). lia.
Qed.

Lemma land1_testbit d pos : N.land (N.shiftr d pos) 1 = N.b2n (N.testbit d pos).
Proof.
  change 1 with (N.ones 1). rewrite N.land_ones. rewrite N.shiftr_div_pow2.
  change (2 ^ 1) with 2. symmetry. apply N.testbit_spec'.
Qed.

Lemma bits_get_ok w b i : datum_ok w -> bits_ok w b -> no_wrap w (bt_nbits b) -> i < bt_nbits b ->
  bits_get w b i = Ret (N.b2n (bit_at w (bt_data b) i)) tt.
Proof.
  intros D (K1 & K2 & K3 & K4) NW L.
  unfold bits_get, bit_at. rewrite idx_word, idx_pos by exact D.
  pose proof (ndata_covers w _ i D NW L) as C. rewrite <- K1 in C.
  destruct (nth_error (bt_data b) (N.to_nat (i / bpd w))) as [d|] eqn:E.
  - rewrite (nth_error_nth _ _ _ E), land1_testbit. reflexivity.
  - apply nth_error_None in E. lia.
Qed.

Lemma xor_bit_small w d pos (c : bool) : datum_ok w -> d < word_mod w -> pos < bpd w ->
  N.lxor d (N.shiftl (N.b2n c) pos mod word_mod w) < word_mod w
  /\ forall j, N.testbit (N.lxor d (N.shiftl (N.b2n c) pos mod word_mod w)) j
               = xorb (N.testbit d j) (c && (j =? pos)).
Proof.
  intros D Hd Hp. destruct (datum_shift w D) as (_ & _ & W). rewrite W in *.
  assert (S : N.shiftl (N.b2n c) pos < 2 ^ bpd w).
  { rewrite N.shiftl_mul_pow2. destruct c; simpl N.b2n.
    - rewrite N.mul_1_l. apply N.pow_lt_mono_r; lia.
    - rewrite N.mul_0_l. apply N.neq_0_lt_0, N.pow_nonzero. lia. }
  rewrite N.mod_small by exact S. split.
  - destruct (N.eq_dec (N.lxor d (N.shiftl (N.b2n c) pos)) 0) as [->|NZ].
    { apply N.neq_0_lt_0, N.pow_nonzero. lia. }
    apply N.log2_lt_pow2; [lia|].
    pose proof (N.log2_lxor d (N.shiftl (N.b2n c) pos)) as LX.
    assert (A : d = 0 \/ N.log2 d < bpd w).
    { destruct (N.eq_dec d 0); [auto|right]. apply N.log2_lt_pow2; lia. }
    assert (B : N.shiftl (N.b2n c) pos = 0 \/ N.log2 (N.shiftl (N.b2n c) pos) < bpd w).
    { destruct (N.eq_dec (N.shiftl (N.b2n c) pos) 0); [auto|right]. apply N.log2_lt_pow2; lia. }
    pose proof (N.pow_nonzero 2 (bpd w)).
    assert (P : 0 < bpd w) by lia.
    destruct A as [A|A]; [rewrite A in * |]; (destruct B as [B|B]; [rewrite B in * |]);
      change (N.log2 0) with 0 in *; lia.
  - intros j. rewrite N.lxor_spec. f_equal.
    destruct c; simpl N.b2n; simpl andb.
    + rewrite N.shiftl_1_l, N.pow2_bits_eqb. apply N.eqb_sym.
    + rewrite N.shiftl_0_l, N.bits_0. reflexivity.
Qed.

(** A single update flips bit [i] when [c] holds of it and nothing else. *)
Lemma bits_xor_ok w f (c : bool -> bool) b i :
  datum_ok w -> bits_ok w b -> no_wrap w (bt_nbits b) -> i < bt_nbits b ->
  (forall d pos, f d pos = N.shiftl (N.b2n (c (N.testbit d pos))) pos) ->
  exists b', bits_xor w f b i = Ret tt b' /\ bits_ok w b' /\ bt_nbits b' = bt_nbits b
    /\ forall j, bit_at w (bt_data b') j
        = xorb (bit_at w (bt_data b) j) ((j =? i) && c (bit_at w (bt_data b) i)).
Proof.
  intros D (K1 & K2 & K3 & K4) NW L HF.
  destruct (datum_shift w D) as (_ & BB & _).
  unfold bits_xor. cbv zeta. rewrite idx_word, idx_pos by exact D.
  pose proof (ndata_covers w _ i D NW L) as C. rewrite <- K1 in C.
  destruct (nth_error (bt_data b) (N.to_nat (i / bpd w))) as [d|] eqn:E;
    [|apply nth_error_None in E; lia].
  assert (Hd : d < word_mod w)
    by (apply nth_error_In in E; revert E; apply (proj1 (Forall_forall _ _) K3)).
  assert (Hp : i mod bpd w < bpd w) by (apply N.mod_lt; lia).
  destruct (xor_bit_small w d (i mod bpd w) (c (N.testbit d (i mod bpd w))) D Hd Hp) as [X1 X2].
  rewrite <- HF in X1, X2.
  set (d' := N.lxor d (f d (i mod bpd w) mod word_mod w)) in *.
  assert (Nth : nth (N.to_nat (i / bpd w)) (bt_data b) 0 = d) by (apply nth_error_nth; exact E).
  eexists. split; [reflexivity|]. split; [|split; [reflexivity|]].
  - repeat split; simpl; auto.
    + rewrite upd_length. exact K2.
    + unfold words_ok in *. rewrite Forall_forall in *. intros x Hx.
      apply In_nth with (d := 0) in Hx. destruct Hx as (k & Lk & Ek).
      rewrite upd_length in Lk.
      destruct (Nat.eq_dec (N.to_nat (i / bpd w)) k) as [Eqk|Ne]; [subst k|].
      * rewrite nth_upd_same in Ek by exact Lk. rewrite <- Ek. exact X1.
      * rewrite nth_upd_other in Ek by exact Ne. rewrite <- Ek. apply K3. apply nth_In. exact Lk.
  - intros j. simpl. unfold bit_at. rewrite Nth.
    destruct (N.eq_dec (j / bpd w) (i / bpd w)) as [Eq|Ne].
    + rewrite Eq, nth_upd_same by lia. rewrite X2, Nth. f_equal.
      rewrite andb_comm. f_equal.
      destruct (N.eqb_spec (j mod bpd w) (i mod bpd w)) as [E1|E1]; destruct (N.eqb_spec j i) as [E2|E2];
        try reflexivity; exfalso.
      * apply E2. rewrite (N.div_mod j (bpd w)), (N.div_mod i (bpd w)) by lia. congruence.
      * apply E1. congruence.
    + rewrite nth_upd_other by lia.
      destruct (N.eqb_spec j i) as [E2|E2]; [congruence|]. simpl. rewrite xorb_false_r. reflexivity.
Qed.

Lemma lxor1_b2n c : N.lxor (N.b2n c) 1 = N.b2n (negb c).
Proof. destruct c; reflexivity. Qed.

Lemma bits_clear_ok w b : bits_ok w b ->
  bits_ok w (bits_clear b) /\ forall j, bit_at w (bt_data (bits_clear b)) j = false.
Proof.
  intros (K1 & K2 & K3 & K4).
  assert (E : bt_data (bits_clear b) = repeat 0 (N.to_nat (bt_ndata b))).
  { simpl. rewrite skipn_all2 by lia. apply app_nil_r. }
  split.
  - unfold bits_ok. rewrite E. repeat split; simpl; auto.
    + apply repeat_length.
    + unfold words_ok. apply Forall_forall. intros x Hx. apply repeat_spec in Hx. subst.
      apply word_mod_pos.
  - intros j. rewrite E. unfold bit_at.
    replace (nth (N.to_nat (j / bpd w)) (repeat 0 (N.to_nat (bt_ndata b))) 0) with 0.
    + apply N.bits_0.
    + symmetry. apply nth_repeat.
Qed.

(** ** Bits codec *)

Lemma bits_serialize_eq h w b s :
  bits_serialize h w b s
  = ds_put_data (le_bytes 4 (bt_nbits b) ++ words_bytes w (bt_data b)) s.
Proof.
  unfold bits_serialize. rewrite fold_put_words. unfold ds_put_data, ds_put_int. simpl ds_buf.
  rewrite htole_bytes. simpl ds_off. rewrite <- app_assoc. reflexivity.
Qed.

Lemma bits_unser_loop_ok h w ws : words_ok w ws -> forall acc s rest,
  unread s (words_bytes w ws ++ rest) ->
  exists s', bits_unser_loop h w (length ws) acc s = Ret (acc ++ ws) s' /\ unread s' rest.
Proof.
  induction ws as [|x ws IH]; intros F acc s rest U.
  - exists s. simpl in *. rewrite app_nil_r. auto.
  - inversion F as [|? ? Hx F']; subst.
    unfold words_bytes in U. simpl in U. rewrite <- app_assoc in U.
    destruct (get_int_ok h w s _ _ U (le_bytes_length w x)) as (s1 & E1 & U1 & _).
    cbn [length bits_unser_loop]. rewrite E1. cbn [obind].
    assert (V : letoh h w (native_word h (le_bytes w x)) = x).
    { rewrite <- (le_bytes_length w x) at 1. rewrite letoh_native, le_word_small; auto. }
    rewrite V. destruct (IH F' (acc ++ [x]) s1 rest U1) as (s2 & E2 & U2).
    exists s2. rewrite E2, <- app_assoc. auto.
Qed.

Lemma bits_unserialize_ok h w b s rest : bits_ok w b ->
  unread s (le_bytes 4 (bt_nbits b) ++ words_bytes w (bt_data b) ++ rest) ->
  exists s', bits_unserialize h w s = Ret b s' /\ unread s' rest.
Proof.
  intros (K1 & K2 & K3 & K4) U.
  destruct (get_int_ok h 4 s _ _ U (le_bytes_length 4 _)) as (s1 & E1 & U1 & _).
  unfold bits_unserialize. rewrite E1. cbn [obind].
  assert (V : letoh h 4 (native_word h (le_bytes 4 (bt_nbits b))) = bt_nbits b).
  { rewrite <- (le_bytes_length 4 (bt_nbits b)) at 1. rewrite letoh_native, le_word_small; auto. }
  rewrite V, <- K1. cbv zeta. rewrite <- K2.
  destruct (bits_unser_loop_ok h w (bt_data b) K3 [] s1 rest U1) as (s2 & E2 & U2).
  rewrite E2. cbn [obind]. exists s2. simpl. destruct b; simpl in *. auto.
Qed.

(** What a successful unserialize has produced. *)
Lemma bits_unser_loop_len h w n : forall acc s d s',
  bits_unser_loop h w n acc s = Ret d s' -> length d = (length acc + n)%nat.
Proof.
  induction n as [|n IH]; intros acc s d s' E; simpl in E.
  - inversion E; subst. lia.
  - destruct (ds_get_int h w s) as [x s1| |]; simpl in E; try discriminate.
    apply IH in E. rewrite app_length in E. simpl in E. lia.
Qed.

Lemma bits_unser_loop_words h w n : forall acc s d s',
  words_ok w acc -> bits_unser_loop h w n acc s = Ret d s' -> words_ok w d.
Proof.
  induction n as [|n IH]; intros acc s d s' F E; simpl in E.
  - inversion E; subst. exact F.
  - destruct (ds_get_int h w s) as [x s1| |] eqn:G; simpl in E; try discriminate.
    eapply IH; [|exact E]. apply Forall_app. split; [exact F|]. constructor; [|constructor].
    unfold letoh, htole. destruct h.
    + apply N.mod_lt. pose proof (word_mod_pos w). lia.
    + pose proof (le_word_lt (rev (le_bytes w x))) as L. rewrite rev_length, le_bytes_length in L.
      exact L.
Qed.

Lemma bits_unserialize_wf h w s b s' : bits_unserialize h w s = Ret b s' -> bits_ok w b.
Proof.
  unfold bits_unserialize. destruct (ds_get_int h 4 s) as [x s1| |]; simpl; try discriminate.
  destruct (bits_unser_loop h w _ [] s1) as [d s2| |] eqn:G; simpl; try discriminate.
  intros E. inversion E; subst. repeat split; simpl.
  - apply bits_unser_loop_len in G. simpl in G. exact G.
  - eapply bits_unser_loop_words; [|exact G]. constructor.
  - unfold letoh, htole. destruct h.
    + apply N.mod_lt. discriminate.
    + pose proof (le_word_lt (rev (le_bytes 4 x))) as L. rewrite rev_length, le_bytes_length in L.
      exact L.
Qed.

(** ** Bits from bytes *)

(** Bit [i] of a byte array. *)
Definition byte_bit (arr : bytes) (i : N) : bool :=
  N.testbit (byte_val (nth (N.to_nat (i / 8)) arr x00)) (i mod 8).

Lemma bits_get_storage w b i : datum_ok w -> bt_ndata b = bits_ndata w (bt_nbits b) ->
  length (bt_data b) = N.to_nat (bt_ndata b) -> no_wrap w (bt_nbits b) -> i < bt_nbits b ->
  bits_get w b i = Ret (N.b2n (bit_at w (bt_data b) i)) tt.
Proof.
  intros D K1 K2 NW L.
  unfold bits_get, bit_at. rewrite idx_word, idx_pos by exact D.
  pose proof (ndata_covers w _ i D NW L) as C. rewrite <- K1 in C.
  destruct (nth_error (bt_data b) (N.to_nat (i / bpd w))) as [d|] eqn:E.
  - rewrite (nth_error_nth _ _ _ E), land1_testbit. reflexivity.
  - apply nth_error_None in E. lia.
Qed.

Lemma testbit_byte_high b i : 8 <= i -> N.testbit (byte_val b) i = false.
Proof.
  intros H. destruct (N.eq_dec (byte_val b) 0) as [E|E].
  - rewrite E. apply N.bits_0.
  - apply N.bits_above_log2. pose proof (byte_val_lt b) as L.
    change 256 with (2 ^ 8) in L. apply N.log2_lt_pow2 in L; lia.
Qed.

Lemma testbit_cons b r i :
  N.testbit (byte_val b + 256 * r) i
  = if i <? 8 then N.testbit (byte_val b) i else N.testbit r (i - 8).
Proof.
  pose proof (byte_val_lt b) as B. change 256 with (2 ^ 8) in *.
  destruct (N.ltb_spec i 8) as [H|H].
  - rewrite <- (N.mod_pow2_bits_low _ 8 i H). rewrite N.mul_comm, N.mod_add by discriminate.
    rewrite N.mod_small by exact B. reflexivity.
  - replace i with (i - 8 + 8) at 1 by lia. rewrite <- N.div_pow2_bits.
    rewrite N.mul_comm, N.div_add by discriminate. rewrite N.div_small by exact B. reflexivity.
Qed.

Lemma testbit_le_word bs : forall i, N.testbit (le_word bs) i = byte_bit bs i.
Proof.
  induction bs as [|b bs IH]; intros i; unfold byte_bit.
  - cbn [le_word]. rewrite N.bits_0.
    replace (nth (N.to_nat (i / 8)) [] x00) with x00
      by (destruct (N.to_nat (i / 8)); reflexivity).
    rewrite N.bits_0. reflexivity.
  - cbn [le_word]. rewrite testbit_cons. destruct (N.ltb_spec i 8) as [H|H].
    + rewrite N.div_small, N.mod_small by exact H. reflexivity.
    + rewrite IH. unfold byte_bit.
      replace i with ((i - 8) + 1 * 8) at 3 4 by lia.
      rewrite N.div_add, N.mod_add by lia. rewrite N.add_1_r, N2Nat.inj_succ. reflexivity.
Qed.

Lemma shl_int_ok w b k : datum_ok w -> k <= 24 ->
  exists v, shl_int w b k = Some v
    /\ forall i, i < 32 -> i < bpd w ->
       N.testbit v i = (k <=? i) && N.testbit (byte_val b) (i - k).
Proof.
  intros D K. destruct (datum_shift w D) as (_ & B & W).
  unfold shl_int. destruct (N.leb_spec 32 k); [lia|]. eexists. split; [reflexivity|].
  intros i H1 H2. rewrite W, N.mod_pow2_bits_low by exact H2.
  assert (R : N.testbit (byte_val b * 2 ^ k) i = (k <=? i) && N.testbit (byte_val b) (i - k)).
  { destruct (N.leb_spec k i) as [G|G]; simpl.
    - apply N.mul_pow2_bits_high. exact G.
    - apply N.mul_pow2_bits_low. exact G. }
  destruct (N.ltb_spec (byte_val b * 2 ^ k) (2 ^ 31)); [exact R|].
  rewrite <- R. rewrite <- (N.mod_pow2_bits_low _ 32 i H1), <- (N.mod_pow2_bits_low (byte_val b * _) 32 i H1).
  f_equal. change (2 ^ 64 - 2 ^ 32) with (4294967295 * 2 ^ 32). apply N.mod_add. discriminate.
Qed.

Lemma load_datum_ok w : datum_ok w -> forall j k arr x,
  (8 * N.of_nat j + k <= 32 \/ arr = [] \/ 8 * lenN arr + k <= 32) ->
  exists y, load_datum w j k arr x = Some (y, skipn j arr)
    /\ forall i, i < 32 -> i < bpd w ->
       N.testbit y i = N.testbit x i || ((k <=? i) && N.testbit (le_word (firstn j arr)) (i - k)).
Proof.
  intros D. induction j as [|j IH]; intros k arr x H.
  - exists x. split; [reflexivity|]. intros i _ _. cbn [firstn le_word].
    rewrite N.bits_0, andb_false_r, orb_false_r. reflexivity.
  - destruct arr as [|b arr].
    + cbn [load_datum]. destruct (IH (k + 8) [] x) as (y & E & T).
      { right. left. reflexivity. }
      rewrite skipn_nil in E. exists y. rewrite skipn_nil. split; [exact E|].
      intros i H1 H2. rewrite T by assumption. rewrite !firstn_nil. cbn [le_word].
      rewrite !N.bits_0, !andb_false_r. reflexivity.
    + cbn [load_datum]. rewrite lenN_cons in H.
      destruct (shl_int_ok w b k D) as (v & Ev & Tv); [destruct H as [H|[H|H]]; try discriminate; lia|].
      rewrite Ev. destruct (IH (k + 8) arr (N.lor x v)) as (y & E & T).
      { destruct H as [H|[H|H]]; [left; lia|discriminate|right; right; lia]. }
      exists y. cbn [skipn]. split; [exact E|]. intros i H1 H2.
      rewrite T, N.lor_spec, Tv by assumption. cbn [firstn le_word].
      destruct (N.leb_spec k i) as [G|G]; simpl.
      * rewrite testbit_cons. destruct (N.ltb_spec (i - k) 8) as [G2|G2].
        -- destruct (N.leb_spec (k + 8) i); [lia|]. simpl. rewrite orb_false_r. reflexivity.
        -- destruct (N.leb_spec (k + 8) i); [|lia]. simpl.
           rewrite testbit_byte_high by exact G2. rewrite orb_false_r.
           replace (i - (k + 8)) with (i - k - 8) by lia. reflexivity.
      * destruct (N.leb_spec (k + 8) i); [lia|]. simpl. rewrite !orb_false_r. reflexivity.
Qed.

Lemma nth_firstn_lt {A} (l : list A) d : forall n i, (i < n)%nat -> nth i (firstn n l) d = nth i l d.
Proof.
  induction l as [|x l IH]; intros [|n] [|i] H; simpl; try lia; try reflexivity.
  apply IH. lia.
Qed.

Lemma nth_skipn_add {A} (l : list A) d : forall n i, nth i (skipn n l) d = nth (n + i) l d.
Proof.
  induction l as [|x l IH]; intros [|n] i; simpl; try reflexivity.
  - destruct i; reflexivity.
  - apply IH.
Qed.

Lemma load_data_ok w : datum_ok w -> forall n arr acc,
  ((w <= 4)%nat \/ (lenN arr <= 4)) ->
  exists ds, load_data w n arr acc = Some (acc ++ ds) /\ length ds = n
    /\ forall i, i < N.of_nat n * bpd w -> i < 8 * lenN arr ->
       N.testbit (nth (N.to_nat (i / bpd w)) ds 0) (i mod bpd w) = byte_bit arr i.
Proof.
  intros D. destruct (datum_shift w D) as (_ & B & _).
  induction n as [|n IH]; intros arr acc H.
  - exists []. simpl. rewrite app_nil_r. repeat split. intros i Hi. lia.
  - cbn [load_data].
    destruct (load_datum_ok w D w 0 arr 0) as (y & E & T).
    { destruct H; [left|right; right]; lia. }
    rewrite E. destruct (IH (skipn w arr) (acc ++ [y])) as (ds & E2 & L2 & T2).
    { destruct H as [H|H]; [left; exact H|right].
      unfold lenN in *. rewrite skipn_length. lia. }
    exists (y :: ds). rewrite E2, <- app_assoc. split; [reflexivity|]. split; [simpl; lia|].
    intros i Hi Hl. destruct (N.ltb_spec i (bpd w)) as [G|G].
    + rewrite N.div_small, N.mod_small by exact G. simpl nth.
      rewrite T; [|destruct H; unfold bpd in *; lia|exact G].
      rewrite N.bits_0. replace (0 <=? i) with true by (symmetry; apply N.leb_le; lia).
      cbn [orb andb]. rewrite N.sub_0_r, testbit_le_word.
      unfold byte_bit. rewrite nth_firstn_lt; [reflexivity|].
      assert (i / 8 < N.of_nat w); [|lia].
      apply N.div_lt_upper_bound; [lia|]. unfold bpd in G. lia.
    + assert (Q : i = (i - bpd w) + 1 * bpd w) by lia.
      assert (Ls : lenN arr > N.of_nat w) by (unfold bpd in G; lia).
      assert (Eq : N.testbit (nth (N.to_nat ((i - bpd w) / bpd w)) ds 0) ((i - bpd w) mod bpd w)
                   = byte_bit (skipn w arr) (i - bpd w)).
      { apply T2; [lia|]. unfold lenN in *. rewrite skipn_length. unfold bpd in *. lia. }
      rewrite Q at 1 2. rewrite N.div_add, N.mod_add by lia.
      rewrite N.add_1_r, N2Nat.inj_succ. simpl nth. rewrite Eq.
      unfold byte_bit. rewrite nth_skipn_add.
      assert (Q2 : i - bpd w + N.of_nat w * 8 = i) by (unfold bpd in *; lia).
      replace (w + N.to_nat ((i - bpd w) / 8))%nat
        with (N.to_nat ((i - bpd w + N.of_nat w * 8) / 8)) by (rewrite N.div_add by lia; lia).
      replace ((i - bpd w) mod 8) with ((i - bpd w + N.of_nat w * 8) mod 8) by (apply N.mod_add; lia).
      rewrite Q2. reflexivity.
Qed.

Lemma bits_load_ok w arr : datum_ok w -> ((w <= 4)%nat \/ lenN arr <= 4) ->
  no_wrap w (8 * lenN arr) ->
  exists b, bits_load w arr = Ret b tt /\ bits_size b = 8 * lenN arr
    /\ forall i, i < bits_size b -> bits_get w b i = Ret (N.b2n (byte_bit arr i)) tt.
Proof.
  intros D H NW. destruct (datum_shift w D) as (_ & B & _).
  unfold bits_load. cbv zeta.
  assert (E1 : lenN arr mod u32_max1 = lenN arr).
  { apply N.mod_small. unfold no_wrap, u32_max1 in *. lia. }
  assert (E2 : (lenN arr * 8) mod u32_max1 = 8 * lenN arr).
  { rewrite N.mod_small; [lia|]. unfold no_wrap, u32_max1 in *. lia. }
  rewrite E1, E2.
  assert (T : takeN (lenN arr) arr = arr).
  { unfold takeN, lenN. rewrite Nat2N.id. apply firstn_all. }
  rewrite T. set (nd := bits_ndata w (8 * lenN arr)).
  destruct (load_data_ok w D (N.to_nat nd) arr [] H) as (ds & E3 & L3 & T3).
  rewrite E3. simpl app. eexists. split; [reflexivity|]. split; [reflexivity|].
  intros i Hi. simpl in Hi.
  rewrite bits_get_storage; auto. simpl. f_equal. f_equal. unfold bit_at.
  apply T3; [|exact Hi].
  pose proof (ndata_covers w (8 * lenN arr) i D NW Hi) as C. fold nd in C.
  rewrite N2Nat.id. pose proof (N.mul_succ_div_gt i (bpd w)). nia.
Qed.

(** With 64-bit words a fifth byte is shifted by 32 as an int. *)
Lemma load_datum_undef arr : (5 <= length arr)%nat -> load_datum 8 8 0 arr 0 = None.
Proof.
  destruct arr as [|a [|b [|c [|d [|e arr]]]]]; simpl length; intros H; try lia. reflexivity.
Qed.

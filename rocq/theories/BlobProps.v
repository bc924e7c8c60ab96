(** C03 (Blob, Bits), C06 - C11: Blob and Bits. *)
From Coq Require Import Arith NArith List Bool Lia.
From Coq.Init Require Import Byte.
From Verif Require Import Base StreamModel StreamSpec StreamProofs BlobModel BlobProofs.
Import ListNotations.
Local Open Scope N_scope.

(** ** C06 *)

Theorem C06_blob_from_bytes : forall w n arr,
  (0 < w)%nat -> length arr = (n * w)%nat ->
  exists b, blob_of_bytes w n arr = Ret b tt /\ blob_is_null b = false /\ blob_ok w n b
            /\ forall h, blob_to_bytes h w b = arr.
Proof.
  intros w n arr W L. destruct (blob_of_bytes_ok w n arr W L) as (b & E & K & B & Ld).
  exists b. split; [exact E|]. split; [unfold blob_is_null; rewrite Ld; reflexivity|].
  split; [exact K|]. intros h. unfold blob_to_bytes. rewrite (blob_serialize_eq h w n b _ K).
  simpl. exact B.
Qed.
Print Assumptions C06_blob_from_bytes.

Theorem C06_blob_wrong_size : forall w n arr,
  lenN arr <> N.of_nat (n * w) -> blob_of_bytes w n arr = Exn ExnInvalidArg tt.
Proof.
  intros w n arr H. unfold blob_of_bytes. apply N.eqb_neq in H. rewrite H. reflexivity.
Qed.
Print Assumptions C06_blob_wrong_size.

Theorem C06_blob_unserialize : forall h w n b0 s bs rest,
  (0 < w)%nat -> length (bl_data b0) = n -> length bs = (n * w)%nat ->
  unread s (bs ++ rest) ->
  exists b s', blob_unserialize h w b0 s = Ret tt (b, s') /\ unread s' rest
    /\ blob_is_null b = false /\ blob_ok w n b
    /\ forall h', blob_to_bytes h' w b = bs.
Proof.
  intros h w n b0 s bs rest W L0 L U.
  destruct (words_of_bytes w n W bs L) as (ws & L1 & F1 & E1).
  rewrite <- E1 in U.
  destruct (blob_unser_loop_ok h w ws W F1 [] (bl_data b0) (bl_loaded b0) s rest U) as (s' & E & U').
  { congruence. }
  exists (mkBlob ws true), s'. split; [exact E|]. split; [exact U'|]. split; [reflexivity|].
  assert (K : blob_ok w n (mkBlob ws true)) by (repeat split; simpl; auto; discriminate).
  split; [exact K|]. intros h'. unfold blob_to_bytes. rewrite (blob_serialize_eq h' w n _ _ K).
  simpl. exact E1.
Qed.
Print Assumptions C06_blob_unserialize.

Theorem C06_blob_truncated : forall h w b0 s u,
  (0 < w)%nat -> N.of_nat w < 2 ^ 62 -> unread s u ->
  lenN u < N.of_nat (length (bl_data b0) * w) ->
  exists ws rest b s', blob_unserialize h w b0 s = Exn ExnFailure (b, s')
    /\ u = flat_map (le_bytes w) ws ++ rest /\ (length rest < w)%nat /\ unread s' rest
    /\ bl_data b = ws ++ skipn (length ws) (bl_data b0) /\ blob_is_null b = blob_is_null b0.
Proof.
  intros h w b0 s u W W2 U L.
  destruct (blob_unser_loop_part h w W W2 (bl_data b0) [] (bl_loaded b0) s u U L) as (ws & rest & s' & E & V & R & U').
  exists ws, rest, (mkBlob (ws ++ skipn (length ws) (bl_data b0)) (bl_loaded b0)), s'. auto 8.
Qed.
Print Assumptions C06_blob_truncated.

Theorem C06_blob_serialize_appends : forall h w n b s u,
  blob_ok w n b -> unread s u -> lenN (ds_buf s) + N.of_nat (n * w) < 2 ^ 62 ->
  unread (blob_serialize h w b s) (u ++ blob_to_bytes h w b)
  /\ length (blob_to_bytes h w b) = (n * w)%nat.
Proof.
  intros h w n b s u K U L. unfold blob_to_bytes. rewrite !(blob_serialize_eq h w n b _ K). simpl.
  destruct K as (K1 & _). split.
  - apply unread_put_data; [exact U|]. unfold lenN at 2. rewrite words_bytes_length, K1. exact L.
  - rewrite words_bytes_length, K1. reflexivity.
Qed.
Print Assumptions C06_blob_serialize_appends.

Theorem C06_blob_null_zero : forall h w n,
  blob_is_null (blob_null n) = true /\ blob_to_bytes h w (blob_null n) = repeat x00 (n * w).
Proof.
  intros h w n. split; [reflexivity|].
  assert (K : blob_ok w n (blob_null n)).
  { repeat split; simpl; [apply repeat_length|]. apply Forall_forall. intros x Hx.
    apply repeat_spec in Hx. subst. apply word_mod_pos. }
  unfold blob_to_bytes. rewrite (blob_serialize_eq h w n _ _ K). apply words_bytes_zeros.
Qed.
Print Assumptions C06_blob_null_zero.

Example C06_nonvacuous :
  let arr := [x01; x02; x03; x04; x05; x06; x07; x08] in
  blob_of_bytes 4 2 arr = Ret (mkBlob [67305985; 134678021] true) tt
  /\ blob_to_bytes BigE 4 (mkBlob [67305985; 134678021] true) = arr.
Proof. split; reflexivity. Qed.

(** ** C03 for Blob and Bits *)

Theorem C03_blob_cross_host : forall h1 h2 w n b,
  (0 < w)%nat -> blob_ok w n b -> bl_loaded b = true -> N.of_nat (n * w) < 2 ^ 62 ->
  blob_to_bytes h1 w b = blob_to_bytes h2 w b
  /\ exists s', blob_unserialize h2 w (blob_null n) (blob_serialize h1 w b (ds_new []))
                = Ret tt (b, s') /\ ds_size s' = 0.
Proof.
  intros h1 h2 w n b W K Ld L. unfold blob_to_bytes.
  rewrite (blob_serialize_eq h1 w n b _ K), (blob_serialize_eq h2 w n b _ K). split; [reflexivity|].
  destruct K as (K1 & K2 & _).
  destruct (blob_unser_loop_ok h2 w (bl_data b) W K2 [] (bl_data (blob_null n)) false
              (ds_put_data (words_bytes w (bl_data b)) (ds_new [])) []) as (s' & E & U').
  - rewrite app_nil_r. change (words_bytes w (bl_data b)) with ([] ++ words_bytes w (bl_data b)) at 2.
    apply unread_put_data.
    + apply unread_new. reflexivity.
    + unfold lenN. rewrite words_bytes_length, K1. exact L.
  - simpl. rewrite repeat_length. congruence.
  - exists s'. split; [|apply (unread_size _ _ U')]. unfold blob_unserialize.
    change (bl_loaded (blob_null n)) with false. rewrite E.
    destruct b; simpl in *. rewrite Ld. reflexivity.
Qed.
Print Assumptions C03_blob_cross_host.

Theorem C03_bits_cross_host : forall h1 h2 w b rest,
  bits_ok w b -> lenN (ds_buf (bits_serialize h1 w b (ds_new []))) + lenN rest < 2 ^ 62 ->
  bits_serialize h1 w b (ds_new []) = bits_serialize h2 w b (ds_new [])
  /\ exists s', bits_unserialize h2 w (ds_put_data rest (bits_serialize h1 w b (ds_new []))) = Ret b s'
               /\ unread s' rest.
Proof.
  intros h1 h2 w b rest K L. rewrite !bits_serialize_eq in *. split; [reflexivity|].
  apply bits_unserialize_ok; [exact K|]. exists [].
  unfold ds_put_data in *. cbn [ds_buf ds_off ds_new app] in *. rewrite <- app_assoc.
  repeat split. rewrite !lenN_app in *. lia.
Qed.
Print Assumptions C03_bits_cross_host.

(** ** C07 *)

Theorem C07_blob_eq : forall h w n a b,
  blob_ok w n a -> blob_ok w n b ->
  (blob_eqb a b = true <-> blob_to_bytes h w a = blob_to_bytes h w b)
  /\ (blob_neqb a b = true <-> blob_to_bytes h w a <> blob_to_bytes h w b)
  /\ (blob_eqb a b = true -> blob_cheap_hash a = blob_cheap_hash b).
Proof.
  intros h w n a b Ka Kb. unfold blob_to_bytes.
  rewrite (blob_serialize_eq h w n a _ Ka), (blob_serialize_eq h w n b _ Kb). simpl.
  destruct Ka as (La & Fa & _), Kb as (Lb & Fb & _).
  assert (L : length (bl_data a) = length (bl_data b)) by congruence.
  pose proof (words_eqb_eq _ _ L) as E.
  assert (M : blob_eqb a b = true <-> words_bytes w (bl_data a) = words_bytes w (bl_data b)).
  { unfold blob_eqb. rewrite E. split; [congruence|]. apply words_bytes_inj; auto. }
  split; [exact M|]. split.
  - unfold blob_neqb. rewrite negb_true_iff. rewrite <- M. destruct (blob_eqb a b); split; congruence.
  - unfold blob_eqb, blob_cheap_hash. rewrite E. congruence.
Qed.
Print Assumptions C07_blob_eq.

Theorem C07_blob_lt : forall h w n a b,
  (0 < n)%nat -> blob_ok w n a -> blob_ok w n b ->
  (blob_ltb a b = true <-> le_word (blob_to_bytes h w a) < le_word (blob_to_bytes h w b)).
Proof.
  intros h w n a b N0 Ka Kb. unfold blob_to_bytes.
  rewrite (blob_serialize_eq h w n a _ Ka), (blob_serialize_eq h w n b _ Kb). simpl.
  destruct Ka as (La & Fa & _), Kb as (Lb & Fb & _). unfold blob_ltb.
  rewrite La. destruct n as [|n]; [lia|]. rewrite Nat.sub_succ, Nat.sub_0_r.
  rewrite (words_ltb_loop_ok w) by assumption. apply N.ltb_lt.
Qed.
Print Assumptions C07_blob_lt.

Theorem C07_blob_total_order : forall w n a b c,
  (0 < n)%nat -> blob_ok w n a -> blob_ok w n b -> blob_ok w n c ->
  blob_ltb a a = false
  /\ (blob_ltb a b = true -> blob_ltb b c = true -> blob_ltb a c = true)
  /\ (blob_ltb a b = true \/ blob_eqb a b = true \/ blob_ltb b a = true)
  /\ (blob_ltb a b = true -> blob_eqb a b = false /\ blob_ltb b a = false).
Proof.
  intros w n a b c N0 Ka Kb Kc.
  pose proof (C07_blob_lt LittleE w n a a N0 Ka Ka) as Laa.
  pose proof (C07_blob_lt LittleE w n a b N0 Ka Kb) as Lab.
  pose proof (C07_blob_lt LittleE w n b a N0 Kb Ka) as Lba.
  pose proof (C07_blob_lt LittleE w n b c N0 Kb Kc) as Lbc.
  pose proof (C07_blob_lt LittleE w n a c N0 Ka Kc) as Lac.
  destruct (C07_blob_eq LittleE w n a b Ka Kb) as (Eab & _ & _).
  assert (Inj : le_word (blob_to_bytes LittleE w a) = le_word (blob_to_bytes LittleE w b) ->
                blob_to_bytes LittleE w a = blob_to_bytes LittleE w b).
  { apply le_word_inj. unfold blob_to_bytes.
    rewrite (blob_serialize_eq _ w n a _ Ka), (blob_serialize_eq _ w n b _ Kb). simpl.
    rewrite !words_bytes_length. destruct Ka as (La & _), Kb as (Lb & _). congruence. }
  remember (le_word (blob_to_bytes LittleE w a)) as x.
  remember (le_word (blob_to_bytes LittleE w b)) as y.
  remember (le_word (blob_to_bytes LittleE w c)) as z.
  repeat split.
  - destruct (blob_ltb a a); [|reflexivity]. exfalso. assert (x < x) by (apply Laa; reflexivity). lia.
  - intros H1 H2. apply Lac. apply Lab in H1. apply Lbc in H2. lia.
  - destruct (N.lt_trichotomy x y) as [T|[T|T]].
    + left. apply Lab. exact T.
    + right; left. apply Eab. apply Inj. exact T.
    + right; right. apply Lba. exact T.
  - destruct (blob_eqb a b) eqn:E; [|reflexivity]. exfalso.
    assert (EE : blob_to_bytes LittleE w a = blob_to_bytes LittleE w b) by (apply Eab; reflexivity).
    apply Lab in H. subst. rewrite EE in H. lia.
  - destruct (blob_ltb b a) eqn:E; [|reflexivity]. exfalso.
    apply Lab in H. assert (y < x) by (apply Lba; reflexivity). lia.
Qed.
Print Assumptions C07_blob_total_order.

Example C07_nonvacuous :
  let a := mkBlob [5; 1] true in let b := mkBlob [3; 2] true in
  blob_ok 8 2 a /\ blob_ok 8 2 b /\ blob_ltb a b = true /\ blob_ltb b a = false.
Proof.
  cbv zeta. split; [|split; [|split; reflexivity]];
    (split; [reflexivity|]; split; [repeat constructor|discriminate]).
Qed.

(** ** C08 *)

(** Operations a user performs, and what they mean on an ideal bit vector. *)
Inductive bits_op := OSet (i : N) | OUnset (i : N) | OFlip (i : N) | OClear.
Definition op_index_ok (n : N) (o : bits_op) : Prop :=
  match o with OSet i | OUnset i | OFlip i => i < n | OClear => True end.
Definition ideal_step (v : N -> bool) (o : bits_op) (j : N) : bool :=
  match o with
  | OSet i => if j =? i then true else v j
  | OUnset i => if j =? i then false else v j
  | OFlip i => if j =? i then negb (v j) else v j
  | OClear => false
  end.
Definition ideal_run (v : N -> bool) (ops : list bits_op) : N -> bool :=
  fold_left ideal_step ops v.
Definition bits_apply (w : nat) (b : bits) (o : bits_op) : outcome bits unit :=
  match o with
  | OSet i => bits_set w b i
  | OUnset i => bits_unset w b i
  | OFlip i => bits_flip w b i
  | OClear => Ret tt (bits_clear b)
  end.
Fixpoint bits_run (w : nat) (b : bits) (ops : list bits_op) : outcome bits unit :=
  match ops with
  | [] => Ret tt b
  | o :: ops' => obind (bits_apply w b o) (fun _ b' => bits_run w b' ops')
  end.

Lemma bits_apply_ok w b o v : datum_ok w -> bits_ok w b -> no_wrap w (bt_nbits b) ->
  op_index_ok (bt_nbits b) o -> (forall j, j < bt_nbits b -> bit_at w (bt_data b) j = v j) ->
  exists b', bits_apply w b o = Ret tt b' /\ bits_ok w b' /\ bt_nbits b' = bt_nbits b
    /\ forall j, j < bt_nbits b -> bit_at w (bt_data b') j = ideal_step v o j.
Proof.
  intros D K NW I V. destruct o as [i|i|i|]; simpl in *.
  - destruct (bits_xor_ok w (fun d pos => N.shiftl (N.lxor (N.land (N.shiftr d pos) 1) 1) pos)
                negb b i D K NW I) as (b' & E & K' & S & T).
    { intros d pos. rewrite land1_testbit, lxor1_b2n. reflexivity. }
    exists b'. repeat split; auto; try apply K'. intros j Hj. rewrite T, V by exact Hj.
    destruct (N.eqb_spec j i); simpl; [subst|rewrite xorb_false_r; reflexivity].
    rewrite V by exact Hj. destruct (v i); reflexivity.
  - destruct (bits_xor_ok w (fun d pos => N.shiftl (N.land (N.shiftr d pos) 1) pos)
                (fun c => c) b i D K NW I) as (b' & E & K' & S & T).
    { intros d pos. rewrite land1_testbit. reflexivity. }
    exists b'. repeat split; auto; try apply K'. intros j Hj. rewrite T, V by exact Hj.
    destruct (N.eqb_spec j i); simpl; [subst|rewrite xorb_false_r; reflexivity].
    rewrite V by exact Hj. destruct (v i); reflexivity.
  - destruct (bits_xor_ok w (fun d pos => N.shiftl 1 pos)
                (fun _ => true) b i D K NW I) as (b' & E & K' & S & T).
    { intros d pos. reflexivity. }
    exists b'. repeat split; auto; try apply K'. intros j Hj. rewrite T, V by exact Hj.
    destruct (N.eqb_spec j i); simpl; [subst; destruct (v i); reflexivity|].
    rewrite xorb_false_r; reflexivity.
  - destruct (bits_clear_ok w b K) as (K' & T).
    exists (bits_clear b). repeat split; auto; try apply K'.
Qed.

Lemma bits_run_ok w ops : datum_ok w -> forall b v, bits_ok w b -> no_wrap w (bt_nbits b) ->
  Forall (op_index_ok (bt_nbits b)) ops -> (forall j, j < bt_nbits b -> bit_at w (bt_data b) j = v j) ->
  exists b', bits_run w b ops = Ret tt b' /\ bits_ok w b' /\ bt_nbits b' = bt_nbits b
    /\ forall j, j < bt_nbits b -> bit_at w (bt_data b') j = ideal_run v ops j.
Proof.
  intros D. induction ops as [|o ops IH]; intros b v K NW F V.
  - exists b. simpl. repeat split; auto; try apply K.
  - inversion F as [|? ? Fo Fs]; subst.
    destruct (bits_apply_ok w b o v D K NW Fo V) as (b1 & E1 & K1 & S1 & T1).
    destruct (IH b1 (ideal_step v o) K1) as (b2 & E2 & K2 & S2 & T2); try (rewrite S1; assumption).
    exists b2. simpl. rewrite E1. simpl. rewrite E2. split; [reflexivity|]. split; [exact K2|].
    split; [congruence|]. intros j Hj. apply T2. rewrite S1. exact Hj.
Qed.

(** From any object [b] (whatever its uninitialised words contain), a history
    of in-range operations never goes wrong and every in-range get returns what
    the ideal bit vector holds, starting from what get returned before. *)
Theorem C08_bits_is_bit_vector : forall w b ops v,
  datum_ok w -> bits_ok w b -> no_wrap w (bits_size b) ->
  Forall (op_index_ok (bits_size b)) ops ->
  (forall j, j < bits_size b -> bits_get w b j = Ret (N.b2n (v j)) tt) ->
  exists b', bits_run w b ops = Ret tt b' /\ bits_size b' = bits_size b
    /\ forall j, j < bits_size b -> bits_get w b' j = Ret (N.b2n (ideal_run v ops j)) tt.
Proof.
  intros w b ops v D K NW F V.
  destruct (bits_run_ok w ops D b v K NW F) as (b' & E & K' & S & T).
  { intros j Hj. specialize (V j Hj). rewrite bits_get_ok in V by assumption.
    inversion V as [V1]. apply N.b2n_inj. exact V1. }
  exists b'. split; [exact E|]. split; [exact S|]. intros j Hj.
  unfold bits_size in *. rewrite bits_get_ok by (auto; rewrite S; assumption). rewrite T by exact Hj. reflexivity.
Qed.
Print Assumptions C08_bits_is_bit_vector.

(** A new object of any size, with any uninitialised contents, qualifies. *)
Theorem C08_bits_new_ok : forall w nbits junk,
  datum_ok w -> no_wrap w nbits -> length junk = N.to_nat (bits_ndata w nbits) -> words_ok w junk ->
  bits_ok w (bits_new w nbits junk) /\ bits_size (bits_new w nbits junk) = nbits
  /\ forall j, j < nbits -> exists c : bool, bits_get w (bits_new w nbits junk) j = Ret (N.b2n c) tt.
Proof.
  intros w nbits junk D NW L F.
  assert (K : bits_ok w (bits_new w nbits junk)).
  { repeat split; simpl; auto. destruct (datum_shift w D) as (_ & B & _). unfold no_wrap in NW. lia. }
  split; [exact K|]. split; [reflexivity|]. intros j Hj. eexists. apply bits_get_ok; auto.
Qed.
Print Assumptions C08_bits_new_ok.

Example C08_nonvacuous :
  let b := bits_new 8 70 [0; 3] in
  datum_ok 8 /\ bits_ok 8 b /\ no_wrap 8 (bits_size b)
  /\ bits_run 8 b [OSet 63; OFlip 64; OUnset 65; OFlip 5]
     = Ret tt (mkBits [9223372036854775840; 0] 70 2).
Proof.
  cbv zeta. split; [do 3 right; reflexivity|]. split.
  - split; [vm_compute; reflexivity|]. split; [vm_compute; reflexivity|].
    split; [repeat constructor|vm_compute; reflexivity].
  - split; [vm_compute; discriminate|vm_compute; reflexivity].
Qed.

(** ** C09 *)

Theorem C09_bits_roundtrip : forall h w b s rest,
  bits_ok w b -> unread s [] -> lenN (ds_buf s) + 4 + N.of_nat (length (bt_data b) * w) + lenN rest < 2 ^ 62 ->
  exists b' s', bits_unserialize h w (ds_put_data rest (bits_serialize h w b s)) = Ret b' s'
    /\ bits_size b' = bits_size b
    /\ (forall i, bits_get w b' i = bits_get w b i) /\ unread s' rest.
Proof.
  intros h w b s rest K U L. rewrite bits_serialize_eq.
  assert (U' : unread (ds_put_data rest (ds_put_data (le_bytes 4 (bt_nbits b) ++ words_bytes w (bt_data b)) s))
                 (le_bytes 4 (bt_nbits b) ++ words_bytes w (bt_data b) ++ rest)).
  { destruct U as (c & Hb & Ho & Hl). exists c. rewrite app_nil_r in Hb.
    unfold ds_put_data. cbn [ds_buf ds_off]. rewrite Hb. split; [rewrite <- !app_assoc; reflexivity|]. split; [exact Ho|].
    rewrite Hb in L. unfold lenN in *. rewrite !app_length, le_bytes_length, words_bytes_length. lia. }
  destruct (bits_unserialize_ok h w b _ rest K U') as (s' & E & U2).
  exists b, s'. auto.
Qed.
Print Assumptions C09_bits_roundtrip.

Theorem C09_bits_truncated : forall h w b s u,
  datum_ok w -> bits_ok w b ->
  (exists v, u ++ v = le_bytes 4 (bt_nbits b) ++ words_bytes w (bt_data b) /\ v <> []) ->
  unread s u ->
  exists e s', bits_unserialize h w s = Exn e s'.
Proof.
  intros h w b s u D K (v & Ev & Nv) U.
  destruct (bits_unserialize h w s) as [b' s'| |] eqn:E; [|eauto|].
  - exfalso. unfold bits_unserialize in E.
    destruct (get_int_keeps_unread h 4 s u U) as [A B]; [reflexivity|].
    destruct (N.leb_spec 4 (lenN u)) as [C|C]; [|rewrite (B C) in E; discriminate].
    destruct (A C) as (s1 & E1 & U1). rewrite E1 in E. cbn [obind] in E.
    assert (TK : takeN (N.of_nat 4) u = le_bytes 4 (bt_nbits b)).
    { rewrite <- (takeN_app (N.of_nat 4) u v C), Ev.
      replace (N.of_nat 4) with (lenN (le_bytes 4 (bt_nbits b))) by (unfold lenN; rewrite le_bytes_length; reflexivity).
      apply takeN_app_lenN. }
    rewrite TK in E.
    destruct K as (K1 & K2 & K3 & K4).
    assert (V : letoh h 4 (native_word h (le_bytes 4 (bt_nbits b))) = bt_nbits b).
    { rewrite <- (le_bytes_length 4 (bt_nbits b)) at 1. rewrite letoh_native, le_word_small; auto. }
    rewrite V, <- K1, <- K2 in E. cbv zeta in E.
    assert (Sh : lenN (dropN (N.of_nat 4) u) < N.of_nat (length (bt_data b) * w)).
    { apply (f_equal (@lenN byte)) in Ev. rewrite !lenN_app in Ev.
      rewrite lenN_dropN. unfold lenN in *. rewrite le_bytes_length, words_bytes_length in Ev.
      destruct v; [congruence|]. simpl length in Ev. lia. }
    revert E U1 Sh. generalize (dropN (N.of_nat 4) u) as u1. generalize (length (bt_data b)) as n.
    clear -D. intros n u1 E U1 Sh.
    assert (W2 : N.of_nat w < 2 ^ 62) by (destruct D as [-> | [-> | [-> | -> ]]]; reflexivity).
    assert (G : forall n acc s1 u1, unread s1 u1 -> lenN u1 < N.of_nat (n * w) ->
              forall d s2, bits_unser_loop h w n acc s1 <> Ret d s2).
    { clear -D W2. induction n as [|n IH]; intros acc s1 u1 U1 Sh d s2.
      - simpl in Sh. lia.
      - simpl. destruct (get_int_keeps_unread h w s1 u1 U1 W2) as [A B].
        destruct (N.leb_spec (N.of_nat w) (lenN u1)) as [C|C].
        + destruct (A C) as (s3 & E3 & U3). rewrite E3. cbn [obind]. eapply IH; [exact U3|].
          rewrite lenN_dropN. simpl in Sh. lia.
        + rewrite (B C). simpl. discriminate. }
    destruct (bits_unser_loop h w n [] s1) as [d s2| |] eqn:E2; simpl in E; try discriminate.
    eapply G; eauto.
  - exfalso. unfold bits_unserialize in E.
    assert (W2 : N.of_nat w < 2 ^ 62) by (destruct D as [-> | [-> | [-> | -> ]]]; reflexivity).
    assert (G : forall n acc s1 u1, unread s1 u1 -> bits_unser_loop h w n acc s1 <> Undef).
    { clear -D W2. induction n as [|n IH]; intros acc s1 u1 U1.
      - discriminate.
      - simpl. destruct (get_int_keeps_unread h w s1 u1 U1 W2) as [A B].
        destruct (N.leb_spec (N.of_nat w) (lenN u1)) as [C|C].
        + destruct (A C) as (s3 & E3 & U3). rewrite E3. cbn [obind]. eapply IH; exact U3.
        + rewrite (B C). simpl. discriminate. }
    destruct (get_int_keeps_unread h 4 s u U) as [A B]; [reflexivity|].
    destruct (N.leb_spec 4 (lenN u)) as [C|C]; [|rewrite (B C) in E; discriminate].
    destruct (A C) as (s1 & E1 & U1). rewrite E1 in E. cbn [obind] in E. cbv zeta in E.
    destruct (bits_unser_loop h w _ [] s1) as [d s2| |] eqn:E2; simpl in E; try discriminate.
    eapply G; eauto.
Qed.
Print Assumptions C09_bits_truncated.

Example C09_nonvacuous :
  let b := mkBits [9223372036854775840; 1] 70 2 in
  bits_ok 8 b
  /\ bits_unserialize BigE 8 (bits_serialize LittleE 8 b (ds_new []))
     = Ret b (mkDS (ds_buf (bits_serialize LittleE 8 b (ds_new []))) 20).
Proof.
  cbv zeta. split; [|vm_compute; reflexivity].
  split; [reflexivity|]. split; [reflexivity|]. split; [repeat constructor|reflexivity].
Qed.

(** ** C10 *)

(** Every in-range get on a received object is defined, except for the sizes
    for which nbits + bit_per_datum - 1 wraps ... *)
Theorem C10_received_bits_backed_partial : forall h w s b s' i,
  datum_ok w -> bits_unserialize h w s = Ret b s' ->
  bits_size b <= 2 ^ 32 - bpd w -> i < bits_size b ->
  exists v, bits_get w b i = Ret v tt /\ v <= 1.
Proof.
  intros h w s b s' i D E L Hi. apply bits_unserialize_wf in E.
  destruct (datum_shift w D) as (_ & B & _).
  rewrite bits_get_ok; auto.
  - eexists. split; [reflexivity|]. destruct (bit_at w (bt_data b) i); vm_compute; discriminate.
  - unfold no_wrap, bits_size in *. lia.
Qed.
Print Assumptions C10_received_bits_backed_partial.

(** ... and for every larger size none of the bits is backed by storage. *)
Theorem C10_large_bits_unbacked : forall h w s b s' i,
  datum_ok w -> bits_unserialize h w s = Ret b s' ->
  2 ^ 32 - bpd w < bits_size b -> bits_get w b i = Undef.
Proof.
  intros h w s b s' i D E L. apply bits_unserialize_wf in E. destruct E as (K1 & K2 & K3 & K4).
  destruct (datum_shift w D) as (_ & B & _). unfold bits_size in L.
  assert (Z : bt_ndata b = 0).
  { rewrite K1. unfold bits_ndata, u32_max1.
    replace ((bt_nbits b + bpd w - 1) mod 2 ^ 32) with (bt_nbits b + bpd w - 1 - 2 ^ 32).
    - apply N.div_small. lia.
    - replace (bt_nbits b + bpd w - 1) with ((bt_nbits b + bpd w - 1 - 2 ^ 32) + 1 * 2 ^ 32) at 2
        by (revert K4; lia).
      rewrite N.mod_add by discriminate. symmetry. apply N.mod_small. change (2 ^ 32) with 4294967296 in *. lia. }
  rewrite Z in K2. destruct (bt_data b) eqn:Dt; [|discriminate].
  unfold bits_get. rewrite Dt. destruct (N.to_nat (N.shiftr i (bshift w))); reflexivity.
Qed.
Print Assumptions C10_large_bits_unbacked.

(** Such an object is received from four bytes. *)
Theorem C10_received_bits_backed_refuted : exists h w s b s' i,
  datum_ok w /\ bits_unserialize h w s = Ret b s' /\ i < bits_size b /\ bits_get w b i = Undef.
Proof.
  exists LittleE, 8%nat, (ds_new [xff; xff; xff; xff]), (mkBits [] 4294967295 0),
    (mkDS [xff; xff; xff; xff] 4), 7.
  split; [do 3 right; reflexivity|]. repeat split; vm_compute; reflexivity.
Qed.
Print Assumptions C10_received_bits_backed_refuted.

Example C10_nonvacuous :
  bits_unserialize LittleE 8 (ds_new [xff; xff; xff; xff])
  = Ret (mkBits [] 4294967295 0) (mkDS [xff; xff; xff; xff] 4)
  /\ bits_get 8 (mkBits [] 4294967295 0) 0 = Undef
  /\ bits_unserialize LittleE 8 (ds_new [x03; x00; x00; x00; x05; x00; x00; x00; x00; x00; x00; x00])
     = Ret (mkBits [5] 3 1) (mkDS [x03; x00; x00; x00; x05; x00; x00; x00; x00; x00; x00; x00] 12).
Proof. repeat split; vm_compute; reflexivity. Qed.

(** ** C11 *)

(** True for word types up to 32 bits, and for 64-bit words up to four bytes ... *)
Theorem C11_bits_from_bytes_partial : forall w arr,
  datum_ok w -> ((w <= 4)%nat \/ lenN arr <= 4) -> 8 * lenN arr + bpd w <= 2 ^ 32 ->
  exists b, bits_load w arr = Ret b tt /\ bits_size b = 8 * lenN arr
    /\ forall i, i < bits_size b ->
       bits_get w b i = Ret (N.b2n (N.testbit (byte_val (nth (N.to_nat (i / 8)) arr x00)) (i mod 8))) tt.
Proof. intros w arr D H NW. exact (bits_load_ok w arr D H NW). Qed.
Print Assumptions C11_bits_from_bytes_partial.

(** ... and undefined for the default Bits (64-bit words) with five bytes or more. *)
Theorem C11_bits_from_five_bytes_undefined : forall arr,
  5 <= lenN arr -> 8 * lenN arr + 64 <= 2 ^ 32 -> bits_load 8 arr = Undef.
Proof.
  intros arr L NW. unfold bits_load. cbv zeta.
  assert (E1 : lenN arr mod u32_max1 = lenN arr)
    by (apply N.mod_small; unfold u32_max1; lia).
  assert (E2 : (lenN arr * 8) mod u32_max1 = lenN arr * 8)
    by (apply N.mod_small; unfold u32_max1; lia).
  rewrite E1, E2.
  assert (ND : 0 < bits_ndata 8 (lenN arr * 8)).
  { unfold bits_ndata. change (bpd 8) with 64. rewrite N.mod_small by (unfold u32_max1; lia).
    apply N.div_str_pos. lia. }
  destruct (N.to_nat (bits_ndata 8 (lenN arr * 8))) eqn:EN; [lia|].
  cbn [load_data]. rewrite load_datum_undef; [reflexivity|].
  unfold takeN, lenN in *. rewrite Nat2N.id, firstn_all. lia.
Qed.
Print Assumptions C11_bits_from_five_bytes_undefined.

Theorem C11_bits_from_bytes_refuted : exists w arr, datum_ok w /\ bits_load w arr = Undef.
Proof.
  exists 8%nat, [x01; x02; x03; x04; x05]. split; [do 3 right; reflexivity|vm_compute; reflexivity].
Qed.
Print Assumptions C11_bits_from_bytes_refuted.

Example C11_nonvacuous :
  bits_load 1 [x05; x80] = Ret (mkBits [5; 128] 16 2) tt
  /\ bits_load 8 [x05; x80; x00; xff] = Ret (mkBits [18446744073692807173] 32 1) tt
  /\ bits_load 8 [x00; x00; x00; x00; x00] = Undef.
Proof. repeat split; vm_compute; reflexivity. Qed.

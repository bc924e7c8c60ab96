(** Shared vocabulary: bytes, machine words, host byte order, outcomes.
    Nothing in this file models a particular function except where a comment
    cites one. *)
From Coq Require Import NArith ZArith List Lia Bool.
From Coq.Init Require Import Byte.
From Coq.Strings Require Import Byte.
Import ListNotations.
Local Open Scope N_scope.

Arguments N.add : simpl never.
Arguments N.sub : simpl never.
Arguments N.mul : simpl never.
Arguments N.div : simpl never.
Arguments N.modulo : simpl never.
Arguments N.pow : simpl never.
Arguments N.of_nat : simpl never.
Arguments N.to_nat : simpl never.

(** ** Bytes *)

(** A uint8_t (include/salticidae/type.h 51: bytearray_t = vector<uint8_t>). *)
Definition bytes := list byte.

(** Truncation of an integer to uint8_t. *)
Definition byte_of (n : N) : byte :=
  match Byte.of_N (n mod 256) with Some b => b | None => x00 end.

Definition byte_val (b : byte) : N := Byte.to_N b.

Lemma byte_val_lt b : byte_val b < 256.
Proof. unfold byte_val. pose proof (Byte.to_N_bounded b). lia. Qed.

Lemma byte_of_val b : byte_of (byte_val b) = b.
Proof.
  unfold byte_of, byte_val. rewrite N.mod_small.
  - rewrite Byte.of_to_N. reflexivity.
  - apply byte_val_lt.
Qed.

Lemma byte_val_of n : byte_val (byte_of n) = n mod 256.
Proof.
  unfold byte_of, byte_val.
  destruct (Byte.of_N (n mod 256)) eqn:E.
  - apply Byte.to_of_N in E. exact E.
  - apply Byte.of_N_None_iff in E.
    pose proof (N.mod_lt n 256). lia.
Qed.

Lemma byte_val_inj a b : byte_val a = byte_val b -> a = b.
Proof. intros H. rewrite <- (byte_of_val a), <- (byte_of_val b), H. reflexivity. Qed.

Lemma byte_of_inj_mod a b : byte_of a = byte_of b -> a mod 256 = b mod 256.
Proof. intros H. rewrite <- !byte_val_of, H. reflexivity. Qed.

Definition byte_eqb (a b : byte) : bool := byte_val a =? byte_val b.

Lemma byte_eqb_eq a b : byte_eqb a b = true <-> a = b.
Proof.
  unfold byte_eqb. rewrite N.eqb_eq. split.
  - apply byte_val_inj.
  - intros ->. reflexivity.
Qed.

Lemma byte_eq_dec (a b : byte) : {a = b} + {a <> b}.
Proof.
  destruct (byte_eqb a b) eqn:E.
  - left. apply byte_eqb_eq. exact E.
  - right. intros H. apply byte_eqb_eq in H. congruence.
Defined.

Fixpoint bytes_eqb (a b : bytes) : bool :=
  match a, b with
  | [], [] => true
  | x :: a', y :: b' => byte_eqb x y && bytes_eqb a' b'
  | _, _ => false
  end.

Lemma bytes_eqb_eq a b : bytes_eqb a b = true <-> a = b.
Proof.
  revert b; induction a as [|x a IH]; intros [|y b]; simpl; split; intros H;
    try reflexivity; try discriminate.
  - apply andb_true_iff in H. destruct H as [H1 H2].
    apply byte_eqb_eq in H1. apply IH in H2. congruence.
  - inversion H; subst. apply andb_true_iff. split.
    + apply byte_eqb_eq. reflexivity.
    + apply IH. reflexivity.
Qed.

(** ** Little-endian words *)

(** The [w] bytes of [x], least significant first. *)
Fixpoint le_bytes (w : nat) (x : N) : bytes :=
  match w with
  | O => []
  | S w' => byte_of x :: le_bytes w' (x / 256)
  end.

(** The number denoted by a byte string, least significant byte first. *)
Fixpoint le_word (bs : bytes) : N :=
  match bs with
  | [] => 0
  | b :: bs' => byte_val b + 256 * le_word bs'
  end.

Definition word_mod (w : nat) : N := 2 ^ (8 * N.of_nat w).

Lemma word_mod_0 : word_mod 0 = 1.
Proof. reflexivity. Qed.

Lemma word_mod_S w : word_mod (S w) = 256 * word_mod w.
Proof.
  unfold word_mod. rewrite Nat2N.inj_succ.
  replace (8 * N.succ (N.of_nat w)) with (8 + 8 * N.of_nat w) by lia.
  rewrite N.pow_add_r. reflexivity.
Qed.

Lemma word_mod_pos w : 0 < word_mod w.
Proof. unfold word_mod. apply N.neq_0_lt_0. apply N.pow_nonzero. lia. Qed.

Lemma le_bytes_length w x : length (le_bytes w x) = w.
Proof. revert x; induction w as [|w IH]; intros x; simpl; [reflexivity|]. rewrite IH. reflexivity. Qed.

Lemma le_word_lt bs : le_word bs < word_mod (length bs).
Proof.
  induction bs as [|b bs IH]; simpl length.
  - simpl. rewrite word_mod_0. lia.
  - rewrite word_mod_S. cbn [le_word]. pose proof (byte_val_lt b). lia.
Qed.

Lemma le_word_le_bytes w x : le_word (le_bytes w x) = x mod word_mod w.
Proof.
  revert x; induction w as [|w IH]; intros x.
  - simpl. rewrite word_mod_0, N.mod_1_r. reflexivity.
  - cbn [le_bytes le_word]. rewrite IH, byte_val_of, word_mod_S.
    rewrite N.mod_mul_r; [|lia|].
    + reflexivity.
    + pose proof (word_mod_pos w). lia.
Qed.

Lemma le_bytes_le_word bs : le_bytes (length bs) (le_word bs) = bs.
Proof.
  induction bs as [|b bs IH]; [reflexivity|].
  cbn [length le_bytes le_word]. f_equal.
  - apply byte_val_inj. rewrite byte_val_of.
    rewrite N.mul_comm, N.mod_add by lia.
    apply N.mod_small, byte_val_lt.
  - replace ((byte_val b + 256 * le_word bs) / 256) with (le_word bs).
    + exact IH.
    + rewrite N.mul_comm, N.div_add by lia.
      rewrite N.div_small by apply byte_val_lt. lia.
Qed.

Lemma le_word_small w x : x < word_mod w -> le_word (le_bytes w x) = x.
Proof. intros H. rewrite le_word_le_bytes. apply N.mod_small. exact H. Qed.

Lemma le_bytes_inj w x y :
  x < word_mod w -> y < word_mod w -> le_bytes w x = le_bytes w y -> x = y.
Proof.
  intros Hx Hy H. rewrite <- (le_word_small w x Hx), <- (le_word_small w y Hy), H.
  reflexivity.
Qed.

Lemma le_bytes_mod w x : le_bytes w (x mod word_mod w) = le_bytes w x.
Proof.
  pose proof (le_bytes_le_word (le_bytes w x)) as H.
  rewrite le_bytes_length, le_word_le_bytes in H. exact H.
Qed.

Lemma le_word_app a b : le_word (a ++ b) = le_word a + word_mod (length a) * le_word b.
Proof.
  induction a as [|x a IH].
  - change (length (@nil byte)) with 0%nat. rewrite word_mod_0. simpl app. cbn [le_word]. lia.
  - cbn [app le_word length]. rewrite IH, word_mod_S. lia.
Qed.

Lemma le_word_inj a b : length a = length b -> le_word a = le_word b -> a = b.
Proof.
  intros L H. rewrite <- (le_bytes_le_word a), <- (le_bytes_le_word b), L, H.
  reflexivity.
Qed.

(** ** Host byte order *)

Inductive endian := LittleE | BigE.

(** Memory image of an integral object of [w] bytes on host [h]. *)
Definition native_bytes (h : endian) (w : nat) (x : N) : bytes :=
  match h with
  | LittleE => le_bytes w x
  | BigE => rev (le_bytes w x)
  end.

(** The integer a memory image denotes on host [h]. *)
Definition native_word (h : endian) (bs : bytes) : N :=
  match h with
  | LittleE => le_word bs
  | BigE => le_word (rev bs)
  end.

(** include/salticidae/type.h 55-58, htole<uint16/32/64> (htole16, htole32,
    htole64 of <endian.h>): the identity on a little-endian host, a byte swap
    on a big-endian one. *)
Definition htole (h : endian) (w : nat) (x : N) : N :=
  match h with
  | LittleE => x mod word_mod w
  | BigE => le_word (rev (le_bytes w x))
  end.

(** include/salticidae/type.h 60-63, letoh<...>: same conversion. *)
Definition letoh (h : endian) (w : nat) (x : N) : N := htole h w x.

Lemma native_bytes_length h w x : length (native_bytes h w x) = w.
Proof. destruct h; simpl; rewrite ?rev_length; apply le_bytes_length. Qed.

Lemma native_word_bytes h w x : native_word h (native_bytes h w x) = x mod word_mod w.
Proof. destruct h; simpl; rewrite ?rev_involutive; apply le_word_le_bytes. Qed.

Lemma native_bytes_word h bs : native_bytes h (length bs) (native_word h bs) = bs.
Proof.
  destruct h; simpl.
  - apply le_bytes_le_word.
  - rewrite <- rev_length at 1. rewrite le_bytes_le_word. apply rev_involutive.
Qed.

Lemma native_word_lt h bs : native_word h bs < word_mod (length bs).
Proof. destruct h; simpl; [|rewrite <- rev_length]; apply le_word_lt. Qed.

Lemma htole_bytes h w x : native_bytes h w (htole h w x) = le_bytes w x.
Proof.
  destruct h; simpl.
  - apply le_bytes_mod.
  - assert (L : length (rev (le_bytes w x)) = w)
      by (rewrite rev_length; apply le_bytes_length).
    pose proof (le_bytes_le_word (rev (le_bytes w x))) as H.
    rewrite L in H. rewrite H. apply rev_involutive.
Qed.

Lemma letoh_native h bs : letoh h (length bs) (native_word h bs) = le_word bs.
Proof.
  destruct h; simpl.
  - apply N.mod_small, le_word_lt.
  - rewrite <- rev_length at 1. rewrite le_bytes_le_word, rev_involutive. reflexivity.
Qed.

(** ** Machine integers *)

(** Values of size_t are taken modulo [size_max1] (64-bit target). *)
Definition size_max1 : N := 2 ^ 64.
Definition u32_max1 : N := 2 ^ 32.

Definition szadd (a b : N) : N := (a + b) mod size_max1.
Definition szsub (a b : N) : N := (a + size_max1 - b mod size_max1) mod size_max1.

Definition lenN {A} (l : list A) : N := N.of_nat (length l).

Lemma lenN_nil {A} : lenN (@nil A) = 0. Proof. reflexivity. Qed.
Lemma lenN_cons {A} (x : A) l : lenN (x :: l) = 1 + lenN l.
Proof. unfold lenN. simpl length. lia. Qed.
Lemma lenN_app {A} (a b : list A) : lenN (a ++ b) = lenN a + lenN b.
Proof. unfold lenN. rewrite app_length. lia. Qed.

Definition takeN {A} (n : N) (l : list A) := firstn (N.to_nat n) l.
Definition dropN {A} (n : N) (l : list A) := skipn (N.to_nat n) l.

Lemma takeN_dropN {A} n (l : list A) : takeN n l ++ dropN n l = l.
Proof. apply firstn_skipn. Qed.

Lemma lenN_takeN {A} n (l : list A) : lenN (takeN n l) = N.min n (lenN l).
Proof. unfold lenN, takeN. rewrite firstn_length. lia. Qed.

Lemma lenN_dropN {A} n (l : list A) : lenN (dropN n l) = lenN l - n.
Proof. unfold lenN, dropN. rewrite skipn_length. lia. Qed.

Lemma dropN_app_lenN {A} (a b : list A) : dropN (lenN a) (a ++ b) = b.
Proof.
  unfold dropN, lenN. rewrite Nat2N.id, skipn_app, skipn_all, Nat.sub_diag. reflexivity.
Qed.

Lemma takeN_app_lenN {A} (a b : list A) : takeN (lenN a) (a ++ b) = a.
Proof.
  unfold takeN, lenN. rewrite Nat2N.id, firstn_app, firstn_all, Nat.sub_diag.
  simpl. apply app_nil_r.
Qed.

Lemma dropN_dropN {A} a b (l : list A) : dropN a (dropN b l) = dropN (b + a) l.
Proof.
  unfold dropN. rewrite N2Nat.inj_add. generalize (N.to_nat a) as i.
  generalize (N.to_nat b) as j. clear a b. intros j i.
  revert l; induction j as [|j IH]; intros l; simpl.
  - reflexivity.
  - destruct l; [destruct i; reflexivity|apply IH].
Qed.

Lemma dropN_all {A} n (l : list A) : lenN l <= n -> dropN n l = [].
Proof. unfold lenN, dropN. intros H. apply skipn_all2. lia. Qed.

Lemma dropN_0 {A} (l : list A) : dropN 0 l = l.
Proof. reflexivity. Qed.

Lemma dropN_app {A} n (a b : list A) : n <= lenN a -> dropN n (a ++ b) = dropN n a ++ b.
Proof.
  unfold dropN, lenN. intros H. rewrite skipn_app.
  replace (N.to_nat n - length a)%nat with 0%nat by lia. reflexivity.
Qed.

Lemma takeN_app {A} n (a b : list A) : n <= lenN a -> takeN n (a ++ b) = takeN n a.
Proof.
  unfold takeN, lenN. intros H. rewrite firstn_app.
  replace (N.to_nat n - length a)%nat with 0%nat by lia. simpl. apply app_nil_r.
Qed.

(** ** Outcomes of a C++ call *)

(** Exceptions the modelled code throws, by kind. *)
Inductive exn :=
| ExnFailure        (* std::ios_base::failure("insufficient buffer") *)
| ExnInvalidArg     (* std::invalid_argument *)
| ExnRuntime        (* std::runtime_error *)
| ExnOutOfRange     (* std::out_of_range *)
| ExnSalti (code : Z).  (* SalticidaeError with its code *)

(** Result of running code on a state: normal return, exception (the state
    reached when it was thrown is kept), or undefined behaviour. *)
Inductive outcome (S A : Type) :=
| Ret (a : A) (s : S)
| Exn (e : exn) (s : S)
| Undef.
Arguments Ret {S A}. Arguments Exn {S A}. Arguments Undef {S A}.

Definition obind {S A B} (x : outcome S A) (f : A -> S -> outcome S B) : outcome S B :=
  match x with
  | Ret a s => f a s
  | Exn e s => Exn e s
  | Undef => Undef
  end.

(** List update. *)
Fixpoint upd {A} (i : nat) (x : A) (l : list A) : list A :=
  match l, i with
  | [], _ => []
  | _ :: l', O => x :: l'
  | y :: l', S i' => y :: upd i' x l'
  end.

Lemma upd_length {A} i (x : A) l : length (upd i x l) = length l.
Proof. revert i; induction l; intros [|i]; simpl; auto. Qed.

Lemma nth_upd_same {A} i (x d : A) l : (i < length l)%nat -> nth i (upd i x l) d = x.
Proof. revert i; induction l; intros [|i]; simpl; intros H; try lia; auto. apply IHl. lia. Qed.

Lemma nth_upd_other {A} i j (x d : A) l : i <> j -> nth j (upd i x l) d = nth j l d.
Proof.
  revert i j; induction l; intros [|i] [|j]; simpl; intros H; try reflexivity; try congruence.
  apply IHl. congruence.
Qed.

Lemma nth_error_upd_same {A} i (x : A) l :
  (i < length l)%nat -> nth_error (upd i x l) i = Some x.
Proof. revert i; induction l; intros [|i]; simpl; intros H; try lia; auto. apply IHl. lia. Qed.

Lemma nth_error_upd_other {A} i j (x : A) l :
  i <> j -> nth_error (upd i x l) j = nth_error l j.
Proof.
  revert i j; induction l; intros [|i] [|j]; simpl; intros H; try reflexivity; try congruence.
  apply IHl. congruence.
Qed.

(** C155: what the short form of an id tells. *)
From Coq Require Import Arith NArith List Bool Lia.
From Coq.Init Require Import Byte.
From Verif Require Import Base StreamModel StreamSpec StreamProofs StreamProps BlobModel BlobProofs BlobProps ShortModel.
Import ListNotations.
Local Open Scope N_scope.

(** The id made from a digest of 32 bytes. *)
Definition id_of (d : bytes) (b : blob) : Prop := length d = 32%nat /\ blob_of_bytes 8 4 d = Ret b tt.

Lemma hex_firstn : forall n d, firstn (2 * n) (flat_map hex_of_byte d) = flat_map hex_of_byte (firstn n d).
Proof.
  induction n as [|n IH]; intros d; [reflexivity|]. destruct d as [|c d]; [apply firstn_nil|]. replace (2 * S n)%nat with (S (S (2 * n))) by lia.
  cbn [flat_map hex_of_byte app firstn]. rewrite IH. reflexivity.
Qed.

Lemma hex10_eq h d b : id_of d b -> get_hex10 h b = Ret (flat_map hex_of_byte (firstn 5 d)) tt.
Proof.
  intros (L & E). destruct (C06_blob_from_bytes 8 4 d ltac:(lia) L) as (b' & E' & _ & K & T). rewrite E in E'. injection E' as <-.
  destruct (C06_blob_serialize_appends h 8 4 b (ds_new []) [] K) as (U & _); [apply unread_new; vm_compute; reflexivity|vm_compute; reflexivity|]. rewrite T in U. cbn [app] in U.
  unfold get_hex10, get_hex. apply unread_off in U. destruct U as (A & B & C & D). unfold ds_get_hex. destruct (N.leb_spec (ds_off (blob_serialize h 8 b (ds_new []))) (lenN (ds_buf (blob_serialize h 8 b (ds_new []))))); [|lia]. rewrite B.
  f_equal. unfold takeN. change (N.to_nat 10) with (2 * 5)%nat. apply hex_firstn.
Qed.

Lemma hex_inj a b : flat_map hex_of_byte a = flat_map hex_of_byte b -> a = b.
Proof.
  intros E. pose proof (load_hex_ok _ _ (ds_new []) (flat_hex_denotes a)) as A. pose proof (load_hex_ok _ _ (ds_new []) (flat_hex_denotes b)) as B. rewrite E in A. rewrite A in B. injection B as B. exact B.
Qed.

(** The short form is the first five bytes of the digest, in hexadecimal, ten
    small letters and digits, on every machine. *)
Theorem C155_short : forall h d b, id_of d b -> exists t, get_hex10 h b = Ret t tt /\ hex_denotes t (firstn 5 d) /\ Forall lower_case t /\ length t = 10%nat.
Proof.
  intros h d b I. exists (flat_map hex_of_byte (firstn 5 d)). split; [apply hex10_eq; exact I|]. split; [apply flat_hex_denotes|]. split; [apply flat_hex_lower|].
  pose proof (hex_denotes_len _ _ (flat_hex_denotes (firstn 5 d))) as L. unfold lenN in L. rewrite firstn_length in L. destruct I as (I & _). rewrite I in L. change (N.of_nat (Nat.min 5 32)) with 5 in L. lia.
Qed.

(** Two ids have the same short form exactly if their first five bytes agree. *)
Theorem C155_same_partial : forall h h' d d' b b', id_of d b -> id_of d' b' -> (get_hex10 h b = get_hex10 h' b' <-> firstn 5 d = firstn 5 d').
Proof.
  intros h h' d d' b b' I I'. rewrite (hex10_eq h d b I), (hex10_eq h' d' b' I'). split; [|intros ->; reflexivity]. intros E. injection E as E. apply hex_inj. exact E.
Qed.

(** The property as stated: different ids have different short forms. *)
Definition C155_full : Prop := forall h d d' b b', id_of d b -> id_of d' b' -> d <> d' -> get_hex10 h b <> get_hex10 h b'.

Theorem C155_distinct_refuted : forall h, exists d d' b b', id_of d b /\ id_of d' b' /\ blob_eqb b b' = false /\ get_hex10 h b = get_hex10 h b'.
Proof.
  intros h. exists (repeat x00 32), (repeat x00 31 ++ [x01]). eexists. eexists.
  assert (A : id_of (repeat x00 32) (mkBlob [0; 0; 0; 0] true)) by (split; vm_compute; reflexivity).
  assert (B : id_of (repeat x00 31 ++ [x01]) (mkBlob [0; 0; 0; 2 ^ 56] true)) by (split; vm_compute; reflexivity).
  split; [exact A|]. split; [exact B|]. split; [vm_compute; reflexivity|]. apply (C155_same_partial h h _ _ _ _ A B). reflexivity.
Qed.

Theorem C155_full_refuted : ~ C155_full.
Proof.
  intros F. destruct (C155_distinct_refuted LittleE) as (d & d' & b & b' & A & B & N & E). refine (F LittleE d d' b b' A B _ E). intros ->. destruct A as (_ & A). destruct B as (_ & B). rewrite A in B. injection B as <-.
  assert (R : forall l, words_eqb l l = true) by (induction l as [|x l IH]; [reflexivity|cbn [words_eqb]; rewrite N.eqb_refl; exact IH]). unfold blob_eqb in N. rewrite R in N. discriminate N.
Qed.
Print Assumptions C155_short.
Print Assumptions C155_same_partial.
Print Assumptions C155_distinct_refuted.
Print Assumptions C155_full_refuted.

Example C155_nonvacuous : exists b, id_of (x12 :: xab :: repeat x07 30) b.
Proof. eexists. split; vm_compute; reflexivity. Qed.

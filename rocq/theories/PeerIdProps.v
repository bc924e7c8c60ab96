(** C140: ids of peers. *)
From Coq Require Import Arith NArith List Bool Lia.
From Coq.Init Require Import Byte.
From Verif Require Import Base StreamModel StreamSpec StreamProofs BlobModel BlobProofs BlobProps NetAddrModel NetAddrProps PeerIdModel.
Import ListNotations.
Local Open Scope N_scope.

(** ** What is claimed *)

(** Digests have 32 bytes. *)
Definition digest32 (sha : bytes -> bytes) : Prop := forall x, length (sha x) = 32%nat.
(** Two different sequences of bytes with one digest. *)
Definition collision (sha : bytes -> bytes) (x y : bytes) : Prop := x <> y /\ sha x = sha y.
(** The address and port as they are written in a message. *)
Definition wire (ip4 : bytes) (port : N) : bytes := ip4 ++ [byte_of (port / 256); byte_of (port mod 256)].

(** ** Lemmas *)

Lemma get_hash_put sha h bs : digest32 sha ->
  exists b, get_hash sha (ds_put_data bs (ds_new [])) = Ret b tt /\ blob_ok 8 4 b /\ blob_to_bytes h 8 b = sha bs.
Proof.
  intros D. unfold get_hash, ds_get_hash, ds_put_data, ds_new. cbn [ds_buf ds_off app].
  replace (0 <=? lenN bs) with true by (symmetry; apply N.leb_le; lia).
  change (dropN 0 bs) with bs. unfold to_uint256.
  destruct (C06_blob_from_bytes 8 4 (sha bs)) as (b & E & _ & K & B); [lia | rewrite D; reflexivity|].
  exists b. split; [exact E|]. split; [exact K | apply B].
Qed.

Lemma wire_inj a p b q : length a = 4%nat -> length b = 4%nat -> p < 65536 -> q < 65536 -> wire a p = wire b q -> a = b /\ p = q.
Proof.
  intros La Lb P Q E. unfold wire in E.
  assert (X : a = b).
  { apply (f_equal (firstn 4)) in E. rewrite !firstn_app, La, Lb, !Nat.sub_diag, !firstn_O, !app_nil_r in E.
    rewrite <- La in E at 1. rewrite firstn_all in E. rewrite <- Lb in E. rewrite firstn_all in E. exact E. }
  subst b. split; [reflexivity|]. apply app_inv_head in E. apply be2_inj; assumption.
Qed.

(** ** C140 *)

(** The id made from an address is the digest of the four bytes and the port, high byte first: on all hosts the same. *)
Theorem C140_addr_id : forall h h' sha a ip4 port, digest32 sha -> denotes h a ip4 port ->
  exists b, id_of_addr h sha a = Ret b tt /\ blob_to_bytes h' 8 b = sha (wire ip4 port).
Proof.
  intros h h' sha a ip4 port D W. unfold id_of_addr. rewrite (C13_netaddr_wire h a ip4 port _ W).
  destruct (get_hash_put sha h' (wire ip4 port) D) as (b & E & _ & B). exists b. split; [exact E | exact B].
Qed.
Print Assumptions C140_addr_id.

(** Ids of two addresses, even if made on different hosts, are equal exactly if the addresses are the same,
    or their bytes have the same digest. *)
Theorem C140_addr_distinct : forall h1 h2 sha a1 ip1 p1 a2 ip2 p2 b1 b2, digest32 sha ->
  denotes h1 a1 ip1 p1 -> denotes h2 a2 ip2 p2 ->
  id_of_addr h1 sha a1 = Ret b1 tt -> id_of_addr h2 sha a2 = Ret b2 tt ->
  (blob_eqb b1 b2 = true <-> (ip1 = ip2 /\ p1 = p2) \/ collision sha (wire ip1 p1) (wire ip2 p2)).
Proof.
  intros h1 h2 sha a1 ip1 p1 a2 ip2 p2 b1 b2 D W1 W2 E1 E2. unfold id_of_addr in *.
  rewrite (C13_netaddr_wire _ _ _ _ _ W1) in E1. rewrite (C13_netaddr_wire _ _ _ _ _ W2) in E2.
  destruct (get_hash_put sha LittleE (wire ip1 p1) D) as (c1 & F1 & K1 & B1). unfold wire in F1 at 1. rewrite F1 in E1. injection E1 as <-.
  destruct (get_hash_put sha LittleE (wire ip2 p2) D) as (c2 & F2 & K2 & B2). unfold wire in F2 at 1. rewrite F2 in E2. injection E2 as <-.
  destruct (C07_blob_eq LittleE 8 4 c1 c2 K1 K2) as (X & _). rewrite X, B1, B2.
  destruct W1 as (L1 & P1 & _), W2 as (L2 & P2 & _). split.
  - intros E. destruct (list_eq_dec Byte.byte_eq_dec (wire ip1 p1) (wire ip2 p2)) as [S|S].
    + left. apply wire_inj; assumption.
    + right. split; assumption.
  - intros [[-> ->]|[_ E]]; [reflexivity | exact E].
Qed.
Print Assumptions C140_addr_distinct.

(** Ids of two certificates are equal exactly if the certificates are the same, byte for byte, or have the same digest. *)
Theorem C140_cert_distinct : forall sha d1 d2 b1 b2, digest32 sha ->
  id_of_cert sha d1 = Ret b1 tt -> id_of_cert sha d2 = Ret b2 tt ->
  (blob_eqb b1 b2 = true <-> d1 = d2 \/ collision sha d1 d2).
Proof.
  intros sha d1 d2 b1 b2 D E1 E2. unfold id_of_cert in *.
  destruct (get_hash_put sha LittleE d1 D) as (c1 & F1 & K1 & B1). rewrite F1 in E1. injection E1 as <-.
  destruct (get_hash_put sha LittleE d2 D) as (c2 & F2 & K2 & B2). rewrite F2 in E2. injection E2 as <-.
  destruct (C07_blob_eq LittleE 8 4 c1 c2 K1 K2) as (X & _). rewrite X, B1, B2. split.
  - intros E. destruct (list_eq_dec Byte.byte_eq_dec d1 d2) as [S|S]; [left; exact S | right; split; assumption].
  - intros [->|[_ E]]; [reflexivity | exact E].
Qed.
Print Assumptions C140_cert_distinct.

(** An id made from a certificate is not that of an address either (DER forms of certificates are longer than six bytes). *)
Theorem C140_addr_cert : forall h sha a ip4 port der b1 b2, digest32 sha -> denotes h a ip4 port -> length der <> 6%nat ->
  id_of_addr h sha a = Ret b1 tt -> id_of_cert sha der = Ret b2 tt ->
  blob_eqb b1 b2 = true -> collision sha (wire ip4 port) der.
Proof.
  intros h sha a ip4 port der b1 b2 D W L E1 E2 E. unfold id_of_addr, id_of_cert in *.
  rewrite (C13_netaddr_wire _ _ _ _ _ W) in E1.
  destruct (get_hash_put sha LittleE (wire ip4 port) D) as (c1 & F1 & K1 & B1). unfold wire in F1 at 1. rewrite F1 in E1. injection E1 as <-.
  destruct (get_hash_put sha LittleE der D) as (c2 & F2 & K2 & B2). rewrite F2 in E2. injection E2 as <-.
  destruct (C07_blob_eq LittleE 8 4 c1 c2 K1 K2) as (X & _). apply X in E. rewrite B1, B2 in E. split; [|exact E].
  intros S. apply L. rewrite <- S. destruct W as (LW & _). unfold wire. rewrite app_length, LW. reflexivity.
Qed.
Print Assumptions C140_addr_cert.

(** Which of the two is used: the certificate alone if TLS is on and ids are by certificate, the address alone otherwise. *)
Theorem C140_choice : forall h1 h2 sha tls m cert1 cert2 a1 ip1 p1 a2 ip2 p2 b1 b2, digest32 sha ->
  denotes h1 a1 ip1 p1 -> denotes h2 a2 ip2 p2 ->
  peer_id h1 sha tls m cert1 a1 = Ret b1 tt -> peer_id h2 sha tls m cert2 a2 = Ret b2 tt ->
  (blob_eqb b1 b2 = true <->
     if tls && match m with CERT_BASED => true | ADDR_BASED => false end
     then exists d1 d2, cert1 = Some d1 /\ cert2 = Some d2 /\ (d1 = d2 \/ collision sha d1 d2)
     else (ip1 = ip2 /\ p1 = p2) \/ collision sha (wire ip1 p1) (wire ip2 p2)).
Proof.
  intros h1 h2 sha tls m cert1 cert2 a1 ip1 p1 a2 ip2 p2 b1 b2 D W1 W2 E1 E2. unfold peer_id in *.
  destruct tls; [|exact (C140_addr_distinct _ _ _ _ _ _ _ _ _ _ _ D W1 W2 E1 E2)].
  destruct m; [exact (C140_addr_distinct _ _ _ _ _ _ _ _ _ _ _ D W1 W2 E1 E2)|]. cbn [andb].
  destruct cert1 as [d1|]; [|discriminate E1]. destruct cert2 as [d2|]; [|discriminate E2].
  rewrite (C140_cert_distinct _ _ _ _ _ D E1 E2). split.
  - intros X. exists d1, d2. auto.
  - intros (x & y & X & Y & Z). injection X as ->. injection Y as ->. exact Z.
Qed.
Print Assumptions C140_choice.

(** A digest of 32 bytes, two addresses with their ids on hosts of different byte order. *)
Definition pad32 (x : bytes) : bytes := firstn 32 (x ++ repeat x00 32).
Example C140_nonvacuous :
  digest32 pad32 /\ denotes LittleE (mkNA (native_word LittleE [x7f; x00; x00; x01]) (htons LittleE 80)) [x7f; x00; x00; x01] 80
  /\ denotes BigE (mkNA (native_word BigE [x7f; x00; x00; x01]) (htons BigE 81)) [x7f; x00; x00; x01] 81
  /\ exists b1 b2, id_of_addr LittleE pad32 (mkNA (native_word LittleE [x7f; x00; x00; x01]) (htons LittleE 80)) = Ret b1 tt
       /\ id_of_addr BigE pad32 (mkNA (native_word BigE [x7f; x00; x00; x01]) (htons BigE 81)) = Ret b2 tt
       /\ blob_eqb b1 b2 = false.
Proof.
  split; [|split; [|split]].
  - intros x. unfold pad32. rewrite firstn_length, app_length, repeat_length. lia.
  - apply htons_denotes; [reflexivity | lia].
  - apply htons_denotes; [reflexivity | lia].
  - eexists. eexists. split; [vm_compute; reflexivity|]. split; [vm_compute; reflexivity | vm_compute; reflexivity].
Qed.

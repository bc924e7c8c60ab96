(** C141: which certificates are accepted. *)
From Coq Require Import Arith List Bool Lia.
From Verif Require Import CertModel.
Import ListNotations.

(** ** What is claimed *)

(** A certificate is good for someone: an issuer they trust, and in time. *)
Definition good (trust : list nat) (now : nat) (c : cert) : Prop :=
  In (k_issuer c) trust /\ k_from c <= now < k_to c.

Lemma faults_good trust now c : faults trust now c = [] <-> good trust now c.
Proof.
  unfold faults, good. destruct (existsb (Nat.eqb (k_issuer c)) trust) eqn:E.
  - apply existsb_exists in E. destruct E as (x & H & X). apply Nat.eqb_eq in X. subst x.
    destruct (Nat.ltb_spec now (k_from c)); destruct (Nat.leb_spec (k_to c) now); cbn; split; try discriminate; try lia; intros _; repeat split; auto.
  - split; [discriminate|]. intros [H _]. exfalso. apply not_true_iff_false in E. apply E. apply existsb_exists. exists (k_issuer c).
    split; [exact H | apply Nat.eqb_refl].
Qed.

(** With the default configuration every end that owns the key of the certificate it shows is accepted, whoever issued
    the certificate and however old it is; and no end without one. *)
Theorem C141_default : forall now c owns, net_accepts default_conf now c owns = true <-> exists k, c = Some k /\ In (k_key k) owns.
Proof.
  intros now c owns. unfold net_accepts, accepts. destruct c as [c|].
  - assert (V : verifies default_conf store now c = true).
    { unfold verifies, default_conf, verify_cb. cbn [f_skip]. destruct (faults store now c) as [|x l]; [reflexivity|]. apply forallb_forall. reflexivity. }
    rewrite V. cbn [andb]. rewrite existsb_exists. split.
    + intros (x & H & X). apply Nat.eqb_eq in X. subst x. exists c. auto.
    + intros (k & E & H). injection E as ->. exists (k_key k). split; [exact H | apply Nat.eqb_refl].
  - split; [discriminate | intros (k & E & _); discriminate E].
Qed.
Print Assumptions C141_default.

(** With the check switched on and no callback, the TLS library accepts exactly ends with the key of a certificate that is
    good by the store of issuers it is given. *)
Theorem C141_checked_partial : forall trust now c owns, accepts (mkConf false None) trust now c owns = true <->
  exists k, c = Some k /\ good trust now k /\ In (k_key k) owns.
Proof.
  intros trust now c owns. unfold accepts. destruct c as [c|].
  - unfold verifies, verify_cb. cbn [f_skip f_cb]. rewrite andb_true_iff, existsb_exists. split.
    + intros (V & x & H & X). apply Nat.eqb_eq in X. subst x. exists c. split; [reflexivity|]. split; [|exact H]. apply faults_good.
      destruct (faults trust now c); [reflexivity | discriminate V].
    + intros (k & E & G & H). injection E as ->. apply faults_good in G. rewrite G. split; [reflexivity|]. exists (k_key k). split; [exact H | apply Nat.eqb_refl].
  - split; [discriminate | intros (k & E & _); discriminate E].
Qed.
Print Assumptions C141_checked_partial.

(** What is wanted of a network: for issuers that the user trusts. *)
Definition C141_checked_full : Prop :=
  forall trust now c owns, net_accepts (mkConf false None) now c owns = true <->
  exists k, c = Some k /\ good trust now k /\ In (k_key k) owns.

(** But the store stays empty: a network that checks certificates accepts nobody. *)
Theorem C141_checked_refuted : forall now c owns, net_accepts (mkConf false None) now c owns = false.
Proof.
  intros now c owns. apply not_true_is_false. intros A. apply C141_checked_partial in A. destruct A as (k & _ & [[] _] & _).
Qed.
Print Assumptions C141_checked_refuted.

Theorem C141_checked_full_refuted : ~ C141_checked_full.
Proof.
  intros F. assert (X : net_accepts (mkConf false None) 5 (Some (mkCert 3 1 9 7)) [3] = true).
  { apply (F [7]). exists (mkCert 3 1 9 7). split; [reflexivity|]. split; [split; [left; reflexivity | cbn; lia] | left; reflexivity]. }
  rewrite C141_checked_refuted in X. discriminate X.
Qed.
Print Assumptions C141_checked_full_refuted.

(** With a callback of the user: it decides about every fault, and about certificates without fault. *)
Theorem C141_callback : forall cb trust now c, verifies (mkConf false (Some cb)) trust now c = true <->
  (good trust now c /\ cb None = true) \/ (~ good trust now c /\ forall x, In x (faults trust now c) -> cb (Some x) = true).
Proof.
  intros cb trust now c. unfold verifies, verify_cb. cbn [f_skip f_cb]. pose proof (faults_good trust now c) as G.
  destruct (faults trust now c) as [|x l].
  - split; [left; split; [apply G; reflexivity | assumption]|]. intros [[_ H]|[H _]]; [exact H|]. elim H. apply G. reflexivity.
  - rewrite forallb_forall. split.
    + right. split; [intros X; apply G in X; discriminate X | assumption].
    + intros [[X _]|[_ H]]; [apply G in X; discriminate X | exact H].
Qed.
Print Assumptions C141_callback.

(** What is wanted: someone who trusts the key accepts a certificate made for it, some time after it was made. *)
Definition C141_self_signed_full : Prop :=
  forall key t1 t2 trust, t1 <= t2 -> In key trust ->
  exists now, t2 <= now /\ accepts (mkConf false None) trust now (Some (self_signed key t1 t2)) [key] = true.

(** A self-signed certificate made by the library is out of date when it is made: whoever checks certificates never accepts
    it, although they trust it. *)
Theorem C141_self_signed_refuted : forall key t1 t2 trust now, t1 <= t2 -> t2 <= now ->
  accepts (mkConf false None) trust now (Some (self_signed key t1 t2)) [key] = false.
Proof.
  intros key t1 t2 trust now L N. apply not_true_is_false. intros A. apply C141_checked_partial in A.
  destruct A as (k & E & G & _). injection E as <-. destruct G as [_ [_ G]]. cbn in G. lia.
Qed.
Print Assumptions C141_self_signed_refuted.

Theorem C141_self_signed_full_refuted : ~ C141_self_signed_full.
Proof.
  intros F. destruct (F 1 5 5 [1] (le_n 5) (or_introl eq_refl)) as (now & L & A).
  rewrite (C141_self_signed_refuted 1 5 5 [1] now (le_n 5) L) in A. discriminate A.
Qed.
Print Assumptions C141_self_signed_full_refuted.

(** That is its only fault: with a callback that excuses expiry and nothing else it is accepted by exactly those who trust
    its own key. *)
Theorem C141_self_signed_excused : forall key t1 t2 trust now, t1 <= t2 -> t2 <= now ->
  verifies (mkConf false (Some (fun x => match x with None | Some Expired => true | _ => false end))) trust now (self_signed key t1 t2) = true <-> In key trust.
Proof.
  intros key t1 t2 trust now L N. rewrite C141_callback. split.
  - intros [(G & _)|(_ & H)]; [exact (proj1 G)|]. unfold faults in H. destruct (existsb (Nat.eqb (k_issuer (self_signed key t1 t2))) trust) eqn:E.
    + apply existsb_exists in E. destruct E as (x & I & X). apply Nat.eqb_eq in X. cbn in X. subst x. exact I.
    + specialize (H Untrusted (or_introl eq_refl)). discriminate H.
  - intros I. right. split; [intros (_ & G); cbn in G; lia|]. intros x X. unfold faults in X.
    replace (existsb (Nat.eqb (k_issuer (self_signed key t1 t2))) trust) with true in X by (symmetry; apply existsb_exists; exists key; split; [exact I | apply Nat.eqb_refl]).
    cbn [app] in X. apply in_app_or in X. destruct X as [X|X].
    + destruct (Nat.ltb_spec now (k_from (self_signed key t1 t2))) as [C|C]; [cbn in C; lia | destruct X].
    + destruct (k_to (self_signed key t1 t2) <=? now); [destruct X as [<-|[]]; reflexivity | destruct X].
Qed.
Print Assumptions C141_self_signed_excused.

(** Accepted and refused certificates, trusted and not, in time and not. *)
Example C141_nonvacuous :
  accepts (mkConf false None) [7] 5 (Some (mkCert 3 1 9 7)) [3] = true /\
  accepts (mkConf false None) [7] 9 (Some (mkCert 3 1 9 7)) [3] = false /\
  accepts (mkConf false None) [7] 5 (Some (mkCert 3 1 9 8)) [3] = false /\
  accepts (mkConf false None) [7] 5 (Some (mkCert 3 1 9 7)) [4] = false /\
  net_accepts default_conf 9 (Some (self_signed 3 5 5)) [3] = true /\
  net_accepts default_conf 9 (Some (self_signed 3 5 5)) [4] = false /\
  verifies (mkConf false (Some (fun x => match x with Some Untrusted => false | _ => true end))) [7] 9 (mkCert 3 1 9 7) = true.
Proof. vm_compute. repeat split. Qed.

(** C13, C20, C71 and the NetAddr / MsgPing part of C03. *)
From Coq Require Import Arith NArith ZArith List Bool Lia ZifyBool ZifyN.
From Coq.Init Require Import Byte.
From Verif Require Import Base StreamModel StreamSpec StreamProofs NetAddrModel.
Import ListNotations.
Local Open Scope N_scope.

(** ** Specification *)

(** The object [a] on a host of byte order [h] stands for the IPv4 address
    with bytes [ip4] (as written a.b.c.d) and the port number [port]. *)
Definition denotes (h : endian) (a : netaddr) (ip4 : bytes) (port : N) : Prop :=
  length ip4 = 4%nat /\ port < 65536
  /\ a = mkNA (native_word h ip4) (native_word h [byte_of (port / 256); byte_of (port mod 256)]).

(** A decimal numeral and its value. *)
Definition is_digit (c : byte) : Prop := 48 <= byte_val c <= 57.
Definition dec_value (t : bytes) : N := fold_left (fun a c => 10 * a + (byte_val c - 48)) t 0.
Definition numeral (t : bytes) (v : N) : Prop := t <> [] /\ Forall is_digit t /\ dec_value t = v.

Definition no_byte (n : N) (t : bytes) : Prop := Forall (fun c => byte_val c <> n) t.

(** Members of C++ type uint32_t and uint16_t. *)
Definition na_wf (a : netaddr) : Prop := na_ip a < 2 ^ 32 /\ na_port a < 2 ^ 16.

(** ** Lemmas *)

Lemma rev_le2 p : rev (le_bytes 2 p) = [byte_of (p / 256); byte_of (p mod 256)].
Proof.
  simpl. f_equal. f_equal. apply byte_val_inj. rewrite !byte_val_of. rewrite N.mod_mod; lia.
Qed.

Lemma htons_denotes h ip4 p : length ip4 = 4%nat -> p < 65536 ->
  denotes h (mkNA (native_word h ip4) (htons h p)) ip4 p.
Proof. intros L P. split; [exact L|]. split; [exact P|]. unfold htons. rewrite rev_le2. reflexivity. Qed.

Lemma be2_inj p q : p < 65536 -> q < 65536 ->
  [byte_of (p / 256); byte_of (p mod 256)] = [byte_of (q / 256); byte_of (q mod 256)] -> p = q.
Proof.
  intros P Q E. inversion E as [[E1 E2]].
  apply byte_of_inj_mod in E1, E2. rewrite !N.mod_mod in E2 by lia.
  rewrite !N.mod_small in E1 by (apply N.div_lt_upper_bound; lia).
  rewrite (N.div_mod p 256), (N.div_mod q 256) by lia. congruence.
Qed.

Lemma native_word_inj h a b : length a = length b -> native_word h a = native_word h b -> a = b.
Proof.
  intros L E. rewrite <- (native_bytes_word h a), <- (native_bytes_word h b), L, E. reflexivity.
Qed.

Lemma na_eqb_eq a b : na_eqb a b = true <-> a = b.
Proof.
  unfold na_eqb. destruct a, b; simpl. rewrite andb_true_iff, !N.eqb_eq.
  split; [intros []; congruence|intros E; inversion E; auto].
Qed.

Lemma denotes_wf h a ip4 p : denotes h a ip4 p -> na_wf a.
Proof.
  intros (L & P & ->). split; simpl.
  - pose proof (native_word_lt h ip4) as H. rewrite L in H. exact H.
  - apply (native_word_lt h [byte_of (p / 256); byte_of (p mod 256)]).
Qed.

Lemma denotes_exists h a : na_wf a -> exists ip4 p, denotes h a ip4 p.
Proof.
  intros (I & P). exists (native_bytes h 4 (na_ip a)), (ntohs h (na_port a)).
  unfold denotes, ntohs. split; [apply native_bytes_length|].
  assert (L : length (native_bytes h 2 (na_port a)) = 2%nat) by apply native_bytes_length.
  destruct (native_bytes h 2 (na_port a)) as [|b0 [|b1 [|]]] eqn:Eb; try discriminate. cbn [rev app].
  pose proof (le_word_lt [b1; b0]) as B. change (word_mod (length [b1; b0])) with 65536 in B.
  split; [exact B|].
  assert (E0 : [byte_of (le_word [b1; b0] / 256); byte_of (le_word [b1; b0] mod 256)] = [b0; b1]).
  { cbn [le_word]. pose proof (byte_val_lt b0). pose proof (byte_val_lt b1).
    f_equal; [|f_equal]; apply byte_val_inj; rewrite byte_val_of.
    - replace (byte_val b1 + 256 * (byte_val b0 + 256 * 0)) with (byte_val b1 + byte_val b0 * 256) by lia.
      rewrite N.div_add by lia. rewrite (N.div_small (byte_val b1)) by lia. apply N.mod_small. lia.
    - rewrite N.mod_mod by lia.
      replace (byte_val b1 + 256 * (byte_val b0 + 256 * 0)) with (byte_val b1 + byte_val b0 * 256) by lia.
      rewrite N.mod_add by lia. apply N.mod_small. lia. }
  rewrite E0. destruct a as [ip port]. simpl in *. f_equal.
  - rewrite native_word_bytes. symmetry. apply N.mod_small. exact I.
  - rewrite <- Eb. rewrite native_word_bytes.
    symmetry. apply N.mod_small. exact P.
Qed.

(** ** C13, codec *)

(** The wire form of an address is its four bytes then the port, high byte
    first, whatever the host. *)
Theorem C13_netaddr_wire : forall h a ip4 port s,
  denotes h a ip4 port ->
  na_serialize h a s = ds_put_data (ip4 ++ [byte_of (port / 256); byte_of (port mod 256)]) s.
Proof.
  intros h a ip4 port s (L & P & ->). unfold na_serialize, ds_put_int, ds_put_data.
  cbn [na_ip na_port ds_buf ds_off]. rewrite <- app_assoc. do 2 f_equal.
  rewrite <- L, native_bytes_word. f_equal.
  apply (native_bytes_word h [byte_of (port / 256); byte_of (port mod 256)]).
Qed.
Print Assumptions C13_netaddr_wire.

Lemma na_unser_ok h ip4 p2 s rest : length ip4 = 4%nat -> length p2 = 2%nat ->
  unread s (ip4 ++ p2 ++ rest) ->
  exists s', na_unserialize h s = Ret (mkNA (native_word h ip4) (native_word h p2)) s' /\ unread s' rest.
Proof.
  intros L4 L2 U. unfold na_unserialize.
  destruct (get_int_ok h 4 s ip4 (p2 ++ rest) U L4) as (s1 & E1 & U1 & _). rewrite E1. cbn [obind].
  destruct (get_int_ok h 2 s1 p2 rest U1 L2) as (s2 & E2 & U2 & _). rewrite E2. cbn [obind]. eauto.
Qed.

Theorem C13_netaddr_roundtrip : forall h a s rest,
  na_wf a -> unread s [] -> lenN (ds_buf s) + 6 + lenN rest < 2 ^ 62 ->
  exists b s', na_unserialize h (ds_put_data rest (na_serialize h a s)) = Ret b s'
    /\ na_eqb b a = true /\ na_neqb b a = false /\ unread s' rest
    /\ lenN (ds_buf (na_serialize h a s)) = lenN (ds_buf s) + 6.
Proof.
  intros h a s rest W U L. destruct (denotes_exists h a W) as (ip4 & p & D).
  rewrite (C13_netaddr_wire h a ip4 p s D). destruct D as (L4 & P & Ea).
  set (p2 := [byte_of (p / 256); byte_of (p mod 256)]) in *.
  destruct (na_unser_ok h ip4 p2 (ds_put_data rest (ds_put_data (ip4 ++ p2) s)) rest L4 eq_refl)
    as (s' & E & U').
  { destruct U as (c & Hb & Ho & Hl). exists c. unfold ds_put_data. cbn [ds_buf ds_off].
    rewrite app_nil_r in Hb. rewrite Hb in *. split; [rewrite <- !app_assoc; reflexivity|].
    split; [exact Ho|]. rewrite !lenN_app. unfold lenN in *. rewrite L4. simpl length. lia. }
  exists (mkNA (native_word h ip4) (native_word h p2)), s'. split; [exact E|].
  rewrite <- Ea. split; [apply na_eqb_eq; reflexivity|]. split.
  - unfold na_neqb. rewrite !N.eqb_refl. reflexivity.
  - split; [exact U'|]. unfold ds_put_data. cbn [ds_buf]. rewrite !lenN_app. unfold lenN. rewrite L4. reflexivity.
Qed.
Print Assumptions C13_netaddr_roundtrip.

Theorem C13_netaddr_truncated : forall h s u,
  unread s u -> lenN u < 6 -> exists s', na_unserialize h s = Exn ExnFailure s'.
Proof.
  intros h s u U L. unfold na_unserialize.
  destruct (get_int_keeps_unread h 4 s u U) as [A B]; [reflexivity|].
  destruct (N.leb_spec 4 (lenN u)) as [C|C].
  - destruct (A C) as (s1 & E1 & U1). rewrite E1. cbn [obind].
    rewrite (get_int_short h 2 s1 _ U1); [simpl; eauto| |reflexivity].
    rewrite lenN_dropN. lia.
  - rewrite (B C). simpl. eauto.
Qed.
Print Assumptions C13_netaddr_truncated.

(** == holds exactly between objects standing for the same address and port. *)
Theorem C13_netaddr_equality : forall h a b ip4 p ip4' p',
  denotes h a ip4 p -> denotes h b ip4' p' ->
  (na_eqb a b = true <-> ip4 = ip4' /\ p = p') /\ na_neqb a b = negb (na_eqb a b)
  /\ (na_eqb a b = true -> na_hash a = na_hash b)
  /\ (na_is_null a = true <-> ip4 = [x00; x00; x00; x00] /\ p = 0).
Proof.
  intros h a b ip4 p ip4' p' Da Db.
  assert (X : forall a b ip4 p ip4' p', denotes h a ip4 p -> denotes h b ip4' p' ->
             (na_eqb a b = true <-> ip4 = ip4' /\ p = p')).
  { clear. intros a b ip4 p ip4' p' (L & P & Ea) (L' & P' & Eb). rewrite na_eqb_eq. split.
    - intros ->. rewrite Ea in Eb. inversion Eb as [[E1 E2]].
      apply native_word_inj in E1; [|congruence]. apply native_word_inj in E2; [|reflexivity].
      apply be2_inj in E2; auto.
    - intros (-> & ->). congruence. }
  split; [eapply X; eauto|]. split.
  { unfold na_neqb, na_eqb. rewrite negb_andb. reflexivity. }
  split; [rewrite na_eqb_eq; congruence|].
  assert (D0 : denotes h na_null [x00; x00; x00; x00] 0) by (destruct h; repeat split; reflexivity).
  rewrite <- (X a na_null ip4 p [x00; x00; x00; x00] 0 Da D0).
  unfold na_is_null, na_eqb. simpl. reflexivity.
Qed.
Print Assumptions C13_netaddr_equality.

Example C13_nonvacuous :
  let a := mkNA (native_word LittleE [x7f; x00; x00; x01]) (htons LittleE 8080) in
  denotes LittleE a [x7f; x00; x00; x01] 8080
  /\ ds_buf (na_serialize LittleE a (ds_new [])) = [x7f; x00; x00; x01; x1f; x90].
Proof. split; [|reflexivity]. apply htons_denotes; reflexivity. Qed.

(** ** C13, parser *)

Lemma split_colon_ok host rest : no_byte 58 host -> split_colon (host ++ x3a :: rest) = Some (host, rest).
Proof.
  induction host as [|c host IH]; intros F; [reflexivity|].
  inversion F; subst. simpl. apply N.eqb_neq in H1. rewrite H1, IH; auto.
Qed.

Lemma split_colon_inv s a b : split_colon s = Some (a, b) -> s = a ++ x3a :: b /\ no_byte 58 a.
Proof.
  revert a. induction s as [|c s IH]; intros a; simpl; [discriminate|].
  destruct (N.eqb_spec (byte_val c) 58) as [E|E].
  - intros H. inversion H; subst. split; [|constructor]. simpl. f_equal.
    apply byte_val_inj. rewrite E. reflexivity.
  - destruct (split_colon s) as [[a' b']|]; [|discriminate]. intros H. inversion H; subst.
    destruct (IH a' eq_refl) as (-> & F). split; [reflexivity|constructor; auto].
Qed.

Lemma split_colon_none s : split_colon s = None <-> no_byte 58 s.
Proof.
  split.
  - induction s as [|c s IH]; simpl; [intros _; constructor|].
    destruct (N.eqb_spec (byte_val c) 58) as [E|E]; [discriminate|].
    destruct (split_colon s) as [[a' b']|]; [discriminate|].
    intros _. constructor; [exact E|apply IH; reflexivity].
  - intros F. destruct (split_colon s) as [[a b]|] eqn:E; [|reflexivity]. exfalso.
    apply split_colon_inv in E. destruct E as (-> & _). unfold no_byte in F.
    rewrite Forall_app in F. destruct F as (_ & F). inversion F; subst. apply H1. reflexivity.
Qed.

Lemma cstr_clean s : no_byte 0 s -> cstr s = s.
Proof.
  induction 1 as [|c s H _ IH]; [reflexivity|]. simpl. apply N.eqb_neq in H. rewrite H, IH. reflexivity.
Qed.

Lemma dec_val_digit c : is_digit c -> dec_val c = Some (byte_val c - 48).
Proof.
  unfold is_digit, dec_val. intros H.
  replace ((48 <=? byte_val c) && (byte_val c <=? 57)) with true; [reflexivity|].
  symmetry. apply andb_true_iff. rewrite !N.leb_le. exact H.
Qed.

Lemma dec_val_inv c d : dec_val c = Some d -> is_digit c /\ d = byte_val c - 48.
Proof.
  unfold dec_val, is_digit. destruct ((48 <=? byte_val c) && (byte_val c <=? 57)) eqn:E; [|discriminate].
  apply andb_true_iff in E. rewrite !N.leb_le in E. intros H. inversion H. auto.
Qed.

Lemma scan_dec_app t r : Forall is_digit t ->
  (match r with [] => True | c :: _ => dec_val c = None end) ->
  forall acc cnt, scan_dec (t ++ r) acc cnt
    = (fold_left (fun a c => 10 * a + (byte_val c - 48)) t acc, (cnt + length t)%nat).
Proof.
  intros F R. induction F as [|c t H F IH]; intros acc cnt.
  - simpl. rewrite Nat.add_0_r. destruct r as [|c r]; [reflexivity|]. simpl. rewrite R. reflexivity.
  - simpl. rewrite (dec_val_digit c H), IH. f_equal; [f_equal; lia|lia].
Qed.

Lemma scan_dec_split s : exists t r, s = t ++ r /\ Forall is_digit t
  /\ (match r with [] => True | c :: _ => dec_val c = None end).
Proof.
  induction s as [|c s (t & r & -> & F & R)].
  - exists [], []. repeat split. constructor.
  - destruct (dec_val c) as [d|] eqn:E.
    + exists (c :: t), r. apply dec_val_inv in E. repeat split; auto. constructor; tauto.
    + exists [], (c :: t ++ r). repeat split; auto.
Qed.

Lemma digit_plain c : is_digit c -> is_space c = false /\ byte_val c <> 45 /\ byte_val c <> 43 /\ byte_val c <> 0.
Proof. unfold is_digit, is_space. intros H. split; [|lia]. lia. Qed.

Lemma stol_numeral t v : numeral t v -> v < 2 ^ 63 -> stol t = Some (Z.of_N v).
Proof.
  intros (N0 & F & V) B. unfold stol.
  assert (C : cstr t = t).
  { apply cstr_clean. eapply Forall_impl; [|exact F]. intros c H. apply (digit_plain c H). }
  rewrite C. destruct t as [|c t]; [congruence|]. inversion F; subst.
  destruct (digit_plain c H1) as (S1 & S2 & S3 & S4).
  cbn [skip_space]. rewrite S1. apply N.eqb_neq in S2, S3. rewrite S2, S3.
  rewrite <- (app_nil_r (c :: t)) at 1.
  rewrite scan_dec_app by auto. cbn [length plus Nat.add].
  fold (dec_value (c :: t)).
  replace ((- 2 ^ 63 <=? Z.of_N (dec_value (c :: t))) && (Z.of_N (dec_value (c :: t)) <? 2 ^ 63))%Z with true; [reflexivity|].
  symmetry. apply andb_true_iff. split; [apply Z.leb_le; lia|apply Z.ltb_lt; lia].
Qed.

(** Every text host:port with a resolvable host and a decimal port up to 65535
    is accepted, with that host's address and that port. *)
Theorem C13_parse_accepts : forall h resolve host num port ip4,
  no_byte 58 host -> no_byte 0 host -> resolve host = Some ip4 -> length ip4 = 4%nat ->
  numeral num port -> port <= 65535 ->
  exists a, na_parse h resolve (host ++ [x3a] ++ num) = Ret a tt /\ denotes h a ip4 port.
Proof.
  intros h resolve host num port ip4 C0 Z0 R L Nm P. unfold na_parse.
  cbn [app]. rewrite split_colon_ok by exact C0.
  rewrite (stol_numeral num port Nm) by lia.
  replace (Z.of_N port <? 0)%Z with false by lia.
  replace (65535 <? Z.of_N port)%Z with false by lia.
  unfold na_set_by_ip_port. rewrite cstr_clean, R, N2Z.id by exact Z0.
  eexists. split; [reflexivity|]. apply htons_denotes; [exact L|lia].
Qed.
Print Assumptions C13_parse_accepts.

(** What the constructor accepts besides: blanks and a sign before the number,
    anything after it, and anything after a NUL.  Everything accepted has this
    shape, in particular a colon, a resolvable host and a port in range; all
    other texts are rejected. *)
Theorem C13_parse_rejects_partial : forall h resolve s,
  (forall x y, resolve x = Some y -> length y = 4%nat) ->
  match na_parse h resolve s with
  | Ret a _ => exists host rest ip4 sp sign num tail port,
      s = host ++ [x3a] ++ rest /\ no_byte 58 host /\ resolve (cstr host) = Some ip4
      /\ cstr rest = sp ++ sign ++ num ++ tail
      /\ Forall (fun c => is_space c = true) sp /\ (sign = [] \/ sign = [x2b] \/ (sign = [x2d] /\ port = 0))
      /\ numeral num port /\ port <= 65535 /\ denotes h a ip4 port
  | Exn e _ => e = netaddr_invalid
  | Undef => False
  end.
Proof.
  intros h resolve s RL. unfold na_parse.
  destruct (split_colon s) as [[host rest]|] eqn:E1; [|reflexivity].
  apply split_colon_inv in E1. destruct E1 as (-> & C0).
  destruct (stol rest) as [z|] eqn:E2; [|reflexivity].
  destruct (Z.ltb_spec z 0) as [|Z1]; [reflexivity|].
  destruct (Z.ltb_spec 65535 z) as [|Z2]; [reflexivity|].
  unfold na_set_by_ip_port. destruct (resolve (cstr host)) as [ip4|] eqn:R; [|reflexivity].
  unfold stol in E2.
  assert (Sp : forall t, exists sp, t = sp ++ skip_space t /\ Forall (fun c => is_space c = true) sp).
  { induction t as [|c t (sp & Et & F)]; [exists []; repeat constructor|].
    simpl. destruct (is_space c) eqn:Ec; [|exists []; repeat constructor].
    exists (c :: sp). split; [simpl; congruence|constructor; auto]. }
  destruct (Sp (cstr rest)) as (sp & Es & Fs).
  remember (skip_space (cstr rest)) as t eqn:Htt. clear Htt.
  assert (Sg : exists neg sign s1,
     match t with
     | c :: r => if byte_val c =? 45 then (true, r)
                 else if byte_val c =? 43 then (false, r) else (false, t)
     | [] => (false, t) end = (neg, s1)
     /\ t = sign ++ s1 /\ ((neg = false /\ (sign = [] \/ sign = [x2b])) \/ (neg = true /\ sign = [x2d]))).
  { destruct t as [|c r]; [exists false, [], []; split; [reflexivity|split; [reflexivity|auto]]|].
    destruct (N.eqb_spec (byte_val c) 45) as [E|E].
    - exists true, [x2d], r. replace c with x2d by (apply byte_val_inj; rewrite E; reflexivity).
      split; [reflexivity|split; [reflexivity|auto]].
    - destruct (N.eqb_spec (byte_val c) 43) as [E'|E'].
      + exists false, [x2b], r. replace c with x2b by (apply byte_val_inj; rewrite E'; reflexivity).
        split; [reflexivity|split; [reflexivity|auto]].
      + exists false, [], (c :: r). split; [reflexivity|split; [reflexivity|auto]]. }
  destruct Sg as (neg & sign & s1 & Em & Et & Hs). rewrite Em in E2.
  destruct (scan_dec_split s1) as (num & tail & E3 & Fd & Tl).
  rewrite E3, (scan_dec_app num tail Fd Tl) in E2. cbn [Nat.add] in E2.
  fold (dec_value num) in E2.
  destruct num as [|d num]; [discriminate|]. cbn [length] in E2.
  exists host, rest, ip4, sp, sign, (d :: num), tail, (Z.to_N z).
  destruct (_ && _)%bool in E2; [|discriminate]. inversion E2 as [Ez].
  split; [reflexivity|]. split; [exact C0|]. split; [exact R|].
  split; [rewrite Es, Et, E3; reflexivity|]. split; [exact Fs|].
  destruct Hs as [(-> & Hs) | (-> & ->)].
  - rewrite N2Z.id. split; [tauto|]. split; [repeat split; auto; discriminate|].
    split; [lia|]. apply htons_denotes; [eauto|lia].
  - assert (dec_value (d :: num) = 0) by lia.
    split; [right; right; split; [reflexivity|lia]|]. split; [repeat split; auto; try discriminate; lia|].
    split; [lia|]. apply htons_denotes; [eauto|lia].
Qed.
Print Assumptions C13_parse_rejects_partial.

(** "h: +80x" is accepted although it is not host:port. *)
Theorem C13_parse_rejects_refuted : exists resolve s a,
  na_parse LittleE resolve s = Ret a tt
  /\ ~ exists host num port, s = host ++ [x3a] ++ num /\ numeral num port.
Proof.
  exists (fun _ => Some [x7f; x00; x00; x01]), [x68; x3a; x20; x2b; x38; x30; x78],
    (mkNA 16777343 20480).
  split; [vm_compute; reflexivity|].
  intros (host & num & port & E & (N0 & F & _)).
  destruct host as [|c0 [|c1 [|c2 [|c3 [|c4 [|c5 [|c6 host]]]]]]]; simpl in E; inversion E; subst.
  - repeat (match goal with H : Forall _ (_ :: _) |- _ => inversion H; clear H; subst end).
    match goal with H : is_digit x20 |- _ => unfold is_digit in H; simpl in H; lia end.
  - destruct host; discriminate.
Qed.
Print Assumptions C13_parse_rejects_refuted.

Example C13_parse_nonvacuous :
  na_parse LittleE (fun _ => Some [x7f; x00; x00; x01]) [x68; x3a; x38; x30]
  = Ret (mkNA 16777343 20480) tt
  /\ na_parse LittleE (fun _ => Some [x7f; x00; x00; x01]) [x68; x3a; x36; x35; x35; x33; x36]
     = Exn netaddr_invalid tt.
Proof. split; vm_compute; reflexivity. Qed.

(** ** C03 for NetAddr and MsgPing *)

Theorem C03_netaddr_cross_host : forall h1 h2 a ip4 port s rest,
  denotes h1 a ip4 port -> unread s [] -> lenN (ds_buf s) + 6 + lenN rest < 2 ^ 62 ->
  exists b s', na_unserialize h2 (ds_put_data rest (na_serialize h1 a s)) = Ret b s'
    /\ denotes h2 b ip4 port /\ unread s' rest.
Proof.
  intros h1 h2 a ip4 port s rest D U L. rewrite (C13_netaddr_wire h1 a ip4 port s D).
  destruct D as (L4 & P & Ea).
  set (p2 := [byte_of (port / 256); byte_of (port mod 256)]) in *.
  destruct (na_unser_ok h2 ip4 p2 (ds_put_data rest (ds_put_data (ip4 ++ p2) s)) rest L4 eq_refl)
    as (s' & E & U').
  { destruct U as (c & Hb & Ho & Hl). exists c. unfold ds_put_data. cbn [ds_buf ds_off].
    rewrite app_nil_r in Hb. rewrite Hb in *. split; [rewrite <- !app_assoc; reflexivity|].
    split; [exact Ho|]. rewrite !lenN_app. unfold lenN in *. rewrite L4. simpl length. lia. }
  eexists. exists s'. split; [exact E|]. split; [|exact U']. repeat split; auto.
Qed.
Print Assumptions C03_netaddr_cross_host.

(** The payload of a handshake: one flag byte, the address, the nonce in
    little-endian order, on every host. *)
Theorem C03_ping_wire : forall h a ip4 port nonce,
  denotes h a ip4 port ->
  ds_buf (ping_make h a nonce)
  = [x01] ++ ip4 ++ [byte_of (port / 256); byte_of (port mod 256)] ++ le_bytes 4 nonce.
Proof.
  intros h a ip4 port nonce D. unfold ping_make.
  rewrite (C13_netaddr_wire h a ip4 port _ D). unfold ds_put_int, ds_put_data.
  cbn [ds_buf ds_off ds_new]. rewrite htole_bytes, <- !app_assoc. destruct h; reflexivity.
Qed.
Print Assumptions C03_ping_wire.

(** ** C20 *)

(** A handshake made on one host and received on any other is decoded to the
    same address, port and nonce, with no byte left over. *)
Theorem C20_ping_roundtrip : forall h1 h2 junk a ip4 port nonce,
  denotes h1 a ip4 port -> nonce < 2 ^ 32 ->
  exists b s', ping_parse h2 junk (ds_new (ds_buf (ping_make h1 a nonce))) = Ret (mkPing b nonce) s'
    /\ denotes h2 b ip4 port /\ ds_size s' = 0.
Proof.
  intros h1 h2 junk a ip4 port nonce D NB. rewrite (C03_ping_wire h1 a ip4 port nonce D).
  destruct D as (L4 & P & Ea).
  set (p2 := [byte_of (port / 256); byte_of (port mod 256)]) in *.
  unfold ping_parse.
  assert (U : unread (ds_new ([x01] ++ ip4 ++ p2 ++ le_bytes 4 nonce)) ([x01] ++ ip4 ++ p2 ++ le_bytes 4 nonce)).
  { apply unread_new. rewrite !lenN_app. unfold lenN. rewrite L4, le_bytes_length. reflexivity. }
  destruct (get_int_ok h2 1 _ [x01] _ U eq_refl) as (s1 & E1 & U1 & _). rewrite E1. cbn [obind].
  replace (native_word h2 [x01] =? 0) with false by (destruct h2; reflexivity).
  destruct (na_unser_ok h2 ip4 p2 s1 (le_bytes 4 nonce) L4 eq_refl U1) as (s2 & E2 & U2).
  rewrite E2. cbn [obind].
  destruct (get_int_ok h2 4 s2 (le_bytes 4 nonce) []) as (s3 & E3 & U3 & _).
  { rewrite app_nil_r. exact U2. } { apply le_bytes_length. }
  rewrite E3. cbn [obind].
  assert (V : letoh h2 4 (native_word h2 (le_bytes 4 nonce)) = nonce).
  { rewrite <- (le_bytes_length 4 nonce) at 1. rewrite letoh_native, le_word_small; auto. }
  rewrite V.
  eexists. exists s3. split; [reflexivity|]. split; [repeat split; auto|apply (unread_size _ _ U3)].
Qed.
Print Assumptions C20_ping_roundtrip.

(** A heartbeat is decoded as a heartbeat, and a handshake is taken for one
    exactly when its address is the null address. *)
Theorem C20_heartbeat : forall h1 h2 junk a ip4 port nonce,
  (exists b s', ping_parse h2 junk (ds_new (ds_buf ping_heartbeat)) = Ret b s'
     /\ ping_is_heartbeat b = true /\ ds_size s' = 0)
  /\ (denotes h1 a ip4 port -> nonce < 2 ^ 32 ->
      exists b s', ping_parse h2 junk (ds_new (ds_buf (ping_make h1 a nonce))) = Ret b s'
        /\ (ping_is_heartbeat b = true <-> ip4 = [x00; x00; x00; x00] /\ port = 0)).
Proof.
  intros. split.
  - destruct h2; eexists; eexists; (split; [reflexivity|split; reflexivity]).
  - intros D NB. destruct (C20_ping_roundtrip h1 h2 junk a ip4 port nonce D NB) as (b & s' & E & D' & _).
    exists (mkPing b nonce), s'. split; [exact E|].
    apply (C13_netaddr_equality h2 b b ip4 port ip4 port D' D').
Qed.
Print Assumptions C20_heartbeat.

Theorem C20_ping_truncated : forall h junk s u,
  unread s u -> (u = [] \/ (exists f r, u = f :: r /\ f <> x00 /\ lenN r < 10)) ->
  exists s', ping_parse h junk s = Exn ExnFailure s'.
Proof.
  intros h junk s u U [-> | (f & r & -> & Nf & L)]; unfold ping_parse.
  - rewrite (get_int_short h 1 s [] U); [simpl; eauto|reflexivity|reflexivity].
  - destruct (get_int_ok h 1 s [f] r U eq_refl) as (s1 & E1 & U1 & _). rewrite E1. cbn [obind].
    replace (native_word h [f] =? 0) with false.
    2:{ symmetry. apply N.eqb_neq. intros E. apply Nf. apply byte_val_inj.
        destruct h; unfold native_word in E; cbn [rev app le_word] in E; change (byte_val x00) with 0; lia. }
    destruct (N.ltb_spec (lenN r) 6) as [C|C].
    + destruct (C13_netaddr_truncated h s1 r U1 C) as (s' & E). rewrite E. simpl. eauto.
    + assert (Er : r = takeN 4 r ++ takeN 2 (dropN 4 r) ++ dropN 6 r).
      { replace (dropN 6 r) with (dropN 2 (dropN 4 r)) by (rewrite dropN_dropN; reflexivity).
        rewrite takeN_dropN, takeN_dropN. reflexivity. }
      rewrite Er in U1.
      destruct (na_unser_ok h (takeN 4 r) (takeN 2 (dropN 4 r)) s1 (dropN 6 r)) as (s2 & E2 & U2); auto.
      { pose proof (lenN_takeN 4 r). unfold lenN in *. lia. }
      { pose proof (lenN_takeN 2 (dropN 4 r)). rewrite lenN_dropN in H. unfold lenN in *. lia. }
      rewrite E2. cbn [obind]. rewrite (get_int_short h 4 s2 _ U2); [simpl; eauto| |reflexivity].
      rewrite lenN_dropN. lia.
Qed.
Print Assumptions C20_ping_truncated.

Example C20_nonvacuous :
  let a := mkNA (native_word LittleE [x0a; x00; x00; x02]) (htons LittleE 443) in
  exists s', ping_parse BigE 7 (ds_new (ds_buf (ping_make LittleE a 4660)))
  = Ret (mkPing (mkNA (native_word BigE [x0a; x00; x00; x02]) 443) 4660) s'.
Proof. eexists. vm_compute. reflexivity. Qed.

(** ** C71: text form *)

Lemma dec_value_snoc t c : dec_value (t ++ [c]) = 10 * dec_value t + (byte_val c - 48).
Proof. unfold dec_value. rewrite fold_left_app. reflexivity. Qed.

Lemma dec_digits_ok fuel : forall x acc, (0 < fuel)%nat -> x < 10 ^ N.of_nat fuel ->
  exists t, dec_digits fuel x acc = t ++ acc /\ numeral t x.
Proof.
  induction fuel as [|f IH]; intros x acc F B; [lia|]. cbn [dec_digits].
  assert (V : byte_val (byte_of (48 + x mod 10)) = 48 + x mod 10).
  { rewrite byte_val_of. apply N.mod_small. pose proof (N.mod_lt x 10). lia. }
  assert (Dg : is_digit (byte_of (48 + x mod 10))).
  { unfold is_digit. rewrite V. pose proof (N.mod_lt x 10). lia. }
  pose proof (N.div_mod x 10) as DM.
  destruct (N.eqb_spec (x / 10) 0) as [E|E].
  - exists [byte_of (48 + x mod 10)]. split; [reflexivity|]. split; [discriminate|].
    split; [auto|]. unfold dec_value. cbn [fold_left]. rewrite V. lia.
  - destruct (IH (x / 10) (byte_of (48 + x mod 10) :: acc)) as (t & Et & N0 & Ft & Vt).
    { destruct f; [|lia]. exfalso. apply E. apply N.div_small. exact B. }
    { apply N.div_lt_upper_bound; [lia|]. rewrite Nat2N.inj_succ, N.pow_succ_r' in B. exact B. }
    exists (t ++ [byte_of (48 + x mod 10)]). split; [rewrite Et, <- app_assoc; reflexivity|].
    split; [destruct t; discriminate|]. split; [apply Forall_app; auto|].
    rewrite dec_value_snoc, Vt, V. lia.
Qed.

Lemma to_string_ok x : numeral (to_string x) x.
Proof.
  unfold to_string. destruct (dec_digits_ok (S (N.to_nat (N.log2 x))) x []) as (t & E & Nm).
  - lia.
  - rewrite Nat2N.inj_succ, N2Nat.id. destruct (N.eq_dec x 0) as [-> | Z]; [reflexivity|].
    apply N.lt_le_trans with (2 ^ N.succ (N.log2 x)); [apply N.log2_spec; lia|].
    apply N.pow_le_mono_l. lia.
  - rewrite E, app_nil_r. exact Nm.
Qed.

Lemma numeral_sep t t' x x' c r r' : numeral t x -> numeral t' x' -> ~ is_digit c ->
  t ++ c :: r = t' ++ c :: r' -> t = t' /\ x = x' /\ r = r'.
Proof.
  intros (_ & F & V) (_ & F' & V') Nc E.
  assert (t = t' /\ r = r').
  { clear V V'. revert t' F' E. induction t as [|a t IH]; intros [|b t'] F' E; simpl in E.
    - inversion E. auto.
    - inversion E; subst. inversion F'; subst. contradiction.
    - inversion E; subst. inversion F; subst. contradiction.
    - injection E as -> E. inversion F as [|? ? _ F1]; inversion F' as [|? ? _ F2]; subst.
      destruct (IH F1 t' F2 E) as (-> & ->). auto. }
  destruct H as (-> & ->). split; [reflexivity|]. split; [congruence|reflexivity].
Qed.

Lemma not_digit c : (byte_val c < 48 \/ 57 < byte_val c) -> ~ is_digit c.
Proof. unfold is_digit. lia. Qed.

Lemma ntohs_be2 h p : p < 65536 ->
  ntohs h (native_word h [byte_of (p / 256); byte_of (p mod 256)]) = p.
Proof.
  intros P. unfold ntohs.
  change 2%nat with (length [byte_of (p / 256); byte_of (p mod 256)]).
  rewrite native_bytes_word, <- rev_le2, rev_involutive. apply le_word_small. exact P.
Qed.

(** The text of the address a.b.c.d with port p is "<NetAddr a.b.c.d:p>", all five numbers in
    decimal. *)
Theorem C71_text : forall h x a b c d p, denotes h x [a; b; c; d] p ->
  exists ta tb tc td tp,
    numeral ta (byte_val a) /\ numeral tb (byte_val b) /\ numeral tc (byte_val c) /\ numeral td (byte_val d) /\ numeral tp p
    /\ na_string h x = [x3c; x4e; x65; x74; x41; x64; x64; x72; x20]
         ++ ta ++ [x2e] ++ tb ++ [x2e] ++ tc ++ [x2e] ++ td ++ [x3a] ++ tp ++ [x3e].
Proof.
  intros h x a b c d p (L & P & E).
  exists (to_string (byte_val a)), (to_string (byte_val b)), (to_string (byte_val c)), (to_string (byte_val d)), (to_string p).
  do 5 (split; [apply to_string_ok|]).
  unfold na_string, inet_ntoa. rewrite E. cbn [na_ip na_port]. rewrite ntohs_be2 by exact P.
  pose proof (native_bytes_word h [a; b; c; d]) as W. cbn [length] in W. rewrite W.
  repeat (rewrite <- app_assoc; cbn [app]). reflexivity.
Qed.
Print Assumptions C71_text.

(** Distinct addresses have distinct texts. *)
Theorem C71_string_injective : forall h a b,
  na_wf a -> na_wf b -> na_string h a = na_string h b -> a = b.
Proof.
  intros h a b Wa Wb E.
  destruct (denotes_exists h a Wa) as (ip & p & La & Pa & Ea).
  destruct (denotes_exists h b Wb) as (ip' & p' & Lb & Pb & Eb).
  unfold na_string, inet_ntoa in E. rewrite Ea, Eb in E. cbn [na_ip na_port] in E.
  rewrite !ntohs_be2 in E by assumption.
  rewrite <- La in E at 1. rewrite <- Lb in E at 1. rewrite !native_bytes_word in E.
  destruct ip as [|a0 [|a1 [|a2 [|a3 [|]]]]]; try discriminate.
  destruct ip' as [|b0 [|b1 [|b2 [|b3 [|]]]]]; try discriminate.
  repeat rewrite <- app_assoc in E. cbn [app] in E. inversion E as [E1]; clear E.
  repeat rewrite <- app_assoc in E1. cbn [app] in E1.
  repeat (match type of E1 with ?l = ?r => 
     apply (numeral_sep _ _ _ _ _ _ _ (to_string_ok _) (to_string_ok _)) in E1;
       [|apply not_digit; vm_compute; auto; fail];
     let X := fresh "X" in destruct E1 as (_ & X & E1); repeat rewrite <- app_assoc in E1; cbn [app] in E1 end).
  apply byte_val_inj in X, X0, X1, X2. subst. congruence.
Qed.
Print Assumptions C71_string_injective.

(** a.b.c.d:port, as printed between "<NetAddr " and ">", is parsed back to an
    equal address by a resolver that understands a.b.c.d. *)
Theorem C71_string_parses_back : forall h resolve a,
  na_wf a ->
  (resolve (inet_ntoa h (na_ip a)) = Some (native_bytes h 4 (na_ip a))) ->
  exists text b, na_string h a = [x3c; x4e; x65; x74; x41; x64; x64; x72; x20] ++ text ++ [x3e]
    /\ na_parse h resolve text = Ret b tt /\ na_eqb b a = true.
Proof.
  intros h resolve a W R. destruct (denotes_exists h a W) as (ip & p & D).
  assert (Dg : forall t x n, numeral t x -> (n < 48 \/ 57 < n) -> no_byte n t).
  { intros t x n (_ & F & _) H. eapply Forall_impl; [|exact F]. unfold is_digit. intros c Hc. lia. }
  assert (FF : forall n, (n < 48 \/ 57 < n) -> n <> 46 -> no_byte n (inet_ntoa h (na_ip a))).
  { intros n Hn Nd. unfold inet_ntoa.
    pose proof (native_bytes_length h 4 (na_ip a)) as L4.
    destruct (native_bytes h 4 (na_ip a)) as [|a0 [|a1 [|a2 [|a3 [|]]]]]; try discriminate.
    unfold no_byte. repeat (apply Forall_app; split; [apply (Dg _ _ n (to_string_ok _) Hn)|constructor; [change (byte_val x2e) with 46; lia|]]).
    apply (Dg _ _ n (to_string_ok _) Hn). }
  destruct (C13_parse_accepts h resolve (inet_ntoa h (na_ip a)) (to_string (ntohs h (na_port a)))
              (ntohs h (na_port a)) (native_bytes h 4 (na_ip a))) as (b & Eb & Db).
  - apply FF; lia.
  - apply FF; lia.
  - exact R.
  - apply native_bytes_length.
  - apply to_string_ok.
  - unfold ntohs. pose proof (le_word_lt (rev (native_bytes h 2 (na_port a)))) as B.
    rewrite rev_length, native_bytes_length in B. change (word_mod 2) with 65536 in B. lia.
  - exists (inet_ntoa h (na_ip a) ++ [x3a] ++ to_string (ntohs h (na_port a))), b.
    split; [unfold na_string; repeat rewrite <- app_assoc; reflexivity|]. split; [exact Eb|].
    destruct D as (L4 & P & Ea).
    apply (proj1 (C13_netaddr_equality h b a _ _ ip p Db (conj L4 (conj P Ea)))).
    rewrite Ea. cbn [na_ip na_port]. split.
    + rewrite <- L4 at 1. apply native_bytes_word.
    + apply ntohs_be2. exact P.
Qed.
Print Assumptions C71_string_parses_back.

Example C71_nonvacuous :
  let a := mkNA (native_word LittleE [x0a; x00; x00; xff]) (htons LittleE 8080) in
  na_string LittleE a = [x3c; x4e; x65; x74; x41; x64; x64; x72; x20; x31; x30; x2e; x30; x2e; x30;
    x2e; x32; x35; x35; x3a; x38; x30; x38; x30; x3e].
Proof. vm_compute. reflexivity. Qed.

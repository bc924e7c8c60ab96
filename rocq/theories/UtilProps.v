(** C14, C67, C68, C70. *)
From Coq Require Import Arith NArith ZArith String List Bool Lia ZifyBool ZifyN ZifyNat.
From Coq.Init Require Import Byte.
From Verif Require Import Base UtilModel.
Import ListNotations.
Local Open Scope N_scope.

(** ** C14 *)

(** Which message a user expects for each named error. *)
Definition message_of (e : errcode) : string :=
  match e with
  | SALTI_NORMAL => ""
  | SALTI_ERROR_GENERIC => "generic"
  | SALTI_ERROR_ACCEPT => "unable to accept"
  | SALTI_ERROR_LISTEN => "unable to listen"
  | SALTI_ERROR_CONNECT => "unable to connect"
  | SALTI_ERROR_PEER_ALREADY_EXISTS => "peer already exists"
  | SALTI_ERROR_PEER_NOT_EXIST => "peer does not exist"
  | SALTI_ERROR_PEER_NOT_READY => "peer is not ready"
  | SALTI_ERROR_PEER_NOT_MATCH => "peer id does not match the record"
  | SALTI_ERROR_CLIENT_NOT_EXIST => "client does not exist"
  | SALTI_ERROR_NETADDR_INVALID => "invalid NetAddr format"
  | SALTI_ERROR_OPTVAL_INVALID => "invalid OptVal format"
  | SALTI_ERROR_OPTNAME_ALREADY_EXISTS => "option name already exists"
  | SALTI_ERROR_OPT_UNKNOWN_ACTION => "unknown action"
  | SALTI_ERROR_CONFIG_LINE_TOO_LONG => "configuration file line too long"
  | SALTI_ERROR_OPT_INVALID => "invalid option format"
  | SALTI_ERROR_TLS_LOAD_CERT => "unable to load cert"
  | SALTI_ERROR_TLS_LOAD_KEY => "unable to load key"
  | SALTI_ERROR_TLS_GENERIC => "tls generic error"
  | SALTI_ERROR_TLS_X509 => "x509 cert error"
  | SALTI_ERROR_TLS_KEY => "EVP_PKEY error"
  | SALTI_ERROR_TLS_KEY_NOT_MATCH => "tls key does not match the cert"
  | SALTI_ERROR_TLS_NO_PEER_CERT => "tls fail to get peer cert"
  | SALTI_ERROR_FD => "fd error"
  | SALTI_ERROR_LIBUV_INIT => "libuv init failed"
  | SALTI_ERROR_LIBUV_START => "libuv start failed"
  | SALTI_ERROR_RAND_SOURCE => "rand source is not available, try again"
  | SALTI_ERROR_CONN_NOT_READY => "connection is not ready"
  | SALTI_ERROR_NOT_AVAIL => "operation not available"
  | SALTI_ERROR_UNKNOWN => "unknown error"
  | SALTI_ERROR_CONN_OVERSIZED_MSG => "oversized message"
  end.

(** The integer value of an enumerator: its position. *)
Definition enum_value (e : errcode) (code : Z) : Prop :=
  (0 <= code)%Z /\ nth_error enum_order (Z.to_nat code) = Some e.

Theorem C14_strerror : forall code : Z,
  (forall e, enum_value e code -> strerror code = Some (txt (message_of e)))
  /\ ((~ exists e, enum_value e code) -> strerror code = Some (txt "invalid")).
Proof.
  intros code. unfold strerror.
  change (Z.of_nat (Datatypes.length error_strings)) with 31%Z.
  destruct (Z.ltb_spec code 0) as [L|L]; cbn [orb].
  - split; [intros e (H & _); lia|reflexivity].
  - destruct (Z.leb_spec 31 code) as [G|G].
    + split; [|reflexivity]. intros e (_ & H). exfalso.
      assert (X : nth_error enum_order (Z.to_nat code) <> None) by congruence.
      apply nth_error_Some in X. change (Datatypes.length enum_order) with 31%nat in X. lia.
    + assert (B : (Z.to_nat code < 31)%nat) by lia.
      assert (T : nth_error error_strings (Z.to_nat code)
                  = option_map (fun e => txt (message_of e)) (nth_error enum_order (Z.to_nat code))).
      { revert B. generalize (Z.to_nat code) as n. intros n B.
        do 31 (destruct n as [|n]; [reflexivity|]). lia. }
      split.
      * intros e (_ & H). rewrite T, H. reflexivity.
      * intros H. exfalso. apply H.
        destruct (nth_error enum_order (Z.to_nat code)) as [e|] eqn:E.
        -- exists e. split; [lia|exact E].
        -- apply nth_error_None in E. change (Datatypes.length enum_order) with 31%nat in E. lia.
Qed.
Print Assumptions C14_strerror.

(** Every enumerator has exactly one value, so the theorem covers all of them. *)
Theorem C14_enum_total : forall e, exists! code, enum_value e code.
Proof.
  intros e.
  assert (ND : NoDup enum_order).
  { unfold enum_order. repeat (constructor; [simpl; intuition discriminate|]). constructor. }
  assert (I : In e enum_order) by (destruct e; unfold enum_order; repeat (first [left; reflexivity|right])).
  apply In_nth_error in I. destruct I as (n & Hn).
  exists (Z.of_nat n). split.
  - split; [lia|]. rewrite Nat2Z.id. exact Hn.
  - intros z (Hz & Ez). rewrite NoDup_nth_error in ND.
    assert (n = Z.to_nat z); [|lia]. apply ND; [apply nth_error_Some; congruence|congruence].
Qed.
Print Assumptions C14_enum_total.

Example C14_nonvacuous :
  enum_value SALTI_ERROR_CONN_OVERSIZED_MSG 30 /\ strerror 30 = Some (txt "oversized message")
  /\ strerror 31 = Some (txt "invalid") /\ strerror (-1) = Some (txt "invalid").
Proof. repeat split; try reflexivity. vm_compute. discriminate. Qed.

(** ** C67 *)

Lemma vstringprintf_small t : lenN t <= 1023 -> vstringprintf t = Ret t tt.
Proof.
  intros L. unfold vstringprintf. cbv zeta. unfold vsnprintf. change (1024 =? 0) with false. cbv iota zeta.
  assert (T : takeN (1024 - 1) t = t) by (unfold takeN; apply firstn_all2; unfold lenN in L; lia).
  rewrite T.
  assert (LB : lenN (str_resize 1024 []) = 1024) by reflexivity.
  rewrite LB. replace (lenN (t ++ [x00]) <=? 1024) with true.
  2:{ symmetry. apply N.leb_le. rewrite lenN_app. change (lenN [x00]) with 1. lia. }
  replace (1024 <? lenN t) with false by lia.
  unfold str_resize at 1. rewrite <- app_assoc, takeN_app_lenN.
  rewrite !lenN_app. replace (lenN t - (lenN t + _)) with 0 by lia. simpl repeat. rewrite app_nil_r. reflexivity.
Qed.

Lemma vstringprintf_large t : 1024 <= lenN t -> vstringprintf t = Ret (takeN (lenN t - 1) t ++ [x00]) tt.
Proof.
  intros L. unfold vstringprintf. cbv zeta. unfold vsnprintf at 1. change (1024 =? 0) with false. cbv iota zeta.
  assert (LW : lenN (takeN (1024 - 1) t ++ [x00]) = 1024).
  { rewrite lenN_app, lenN_takeN. change (lenN [x00]) with 1. lia. }
  rewrite LW. change (lenN (str_resize 1024 [])) with 1024. change (1024 <=? 1024) with true. cbv iota.
  change (dropN 1024 (str_resize 1024 [])) with (@nil byte). rewrite app_nil_r.
  destruct (N.ltb_spec 1024 (lenN t)) as [G|G].
  - unfold vsnprintf. replace (lenN t =? 0) with false by lia.
    assert (LR : lenN (str_resize (lenN t) (takeN (1024 - 1) t ++ [x00])) = lenN t).
    { unfold str_resize. rewrite lenN_app, lenN_takeN, LW. unfold lenN at 2. rewrite repeat_length. lia. }
    rewrite LR. rewrite lenN_app, lenN_takeN. change (lenN [x00]) with 1.
    replace (N.min (lenN t - 1) (lenN t) + 1) with (lenN t) by lia.
    rewrite N.leb_refl. rewrite dropN_all by (rewrite LR; lia). rewrite app_nil_r. reflexivity.
  - assert (E : lenN t = 1024) by lia. unfold str_resize. rewrite LW, E.
    change (1024 - 1024) with 0. simpl repeat. rewrite app_nil_r.
    assert (X : takeN 1024 (takeN (1024 - 1) t ++ [x00]) = takeN (1024 - 1) t ++ [x00]).
    { unfold takeN at 1. apply firstn_all2. unfold lenN in LW. lia. }
    rewrite X. reflexivity.
Qed.

(** The whole text is returned exactly when it is shorter than 1024 characters
    (or ends with the NUL that replaces its last character). *)
Theorem C67_stringprintf_partial : forall t, lenN t < 1024 -> vstringprintf t = Ret t tt.
Proof. intros t L. apply vstringprintf_small. lia. Qed.
Print Assumptions C67_stringprintf_partial.

(** Longer texts come back with their last character replaced by NUL. *)
Theorem C67_stringprintf_long_truncated : forall t c,
  1023 <= lenN t -> vstringprintf (t ++ [c]) = Ret (t ++ [x00]) tt.
Proof.
  intros t c L. rewrite vstringprintf_large by (rewrite lenN_app; change (lenN [c]) with 1; lia).
  rewrite lenN_app. change (lenN [c]) with 1. replace (lenN t + 1 - 1) with (lenN t) by lia.
  rewrite takeN_app_lenN. reflexivity.
Qed.
Print Assumptions C67_stringprintf_long_truncated.

Theorem C67_stringprintf_refuted : exists t, vstringprintf t <> Ret t tt.
Proof.
  exists (repeat x61 1023 ++ [x61]). rewrite C67_stringprintf_long_truncated.
  - intros H. discriminate H.
  - unfold lenN. rewrite repeat_length. vm_compute. discriminate.
Qed.
Print Assumptions C67_stringprintf_refuted.

Example C67_nonvacuous : vstringprintf (txt "peer 7 connected") = Ret (txt "peer 7 connected") tt.
Proof. apply C67_stringprintf_partial. vm_compute. reflexivity. Qed.

(** ** C68, split *)

Definition occurs_at (d s : bytes) (i : nat) : Prop := exists r, skipn i s = d ++ r.
Definition contains (d s : bytes) : Prop := exists a b, s = a ++ d ++ b.
Fixpoint join (d : bytes) (ps : list bytes) : bytes :=
  match ps with
  | [] => []
  | [p] => p
  | p :: ps' => p ++ d ++ join d ps'
  end.

(** [pieces] is the result of cutting [s] at the leftmost, non-overlapping
    occurrences of [d], left to right. *)
Inductive splits (d : bytes) : bytes -> list bytes -> Prop :=
| Sp_last s : ~ contains d s -> splits d s [s]
| Sp_cut p r ps : (forall i, (i < length p)%nat -> ~ occurs_at d (p ++ d ++ r) i) ->
    splits d r ps -> splits d (p ++ d ++ r) (p :: ps).

Lemma prefixb_iff d : forall s, prefixb d s = true <-> exists r, s = d ++ r.
Proof.
  induction d as [|x d IH]; intros s; simpl.
  - split; eauto.
  - destruct s as [|y s].
    + split; [discriminate|intros (r & H); discriminate].
    + rewrite andb_true_iff, byte_eqb_eq, IH. split.
      * intros (-> & r & ->). eauto.
      * intros (r & H). inversion H; subst. eauto.
Qed.

Lemma find_sub_some d s : forall n, find_sub d s = Some n ->
  (n <= length s)%nat /\ (exists r, skipn n s = d ++ r) /\ forall i, (i < n)%nat -> ~ occurs_at d s i.
Proof.
  induction s as [|c s IH]; intros n; cbn [find_sub].
  - destruct (prefixb d []) eqn:P; [|discriminate]. intros H. inversion H; subst.
    apply prefixb_iff in P. split; [simpl; lia|]. split; [exact P|lia].
  - destruct (prefixb d (c :: s)) eqn:P.
    + intros H. inversion H; subst. apply prefixb_iff in P. split; [simpl; lia|]. split; [exact P|lia].
    + destruct (find_sub d s) as [m|] eqn:F; [|discriminate]. intros H. inversion H; subst.
      destruct (IH m eq_refl) as (A & B & C). split; [simpl; lia|]. split; [exact B|].
      intros i Hi. destruct i as [|i].
      * intros (r & E). simpl in E. assert (prefixb d (c :: s) = true) by (apply prefixb_iff; eauto). congruence.
      * apply C. lia.
Qed.

Lemma find_sub_none d s : find_sub d s = None -> ~ contains d s.
Proof.
  induction s as [|c s IH]; cbn [find_sub].
  - destruct (prefixb d []) eqn:P; [discriminate|]. intros _ (a & b & E).
    destruct a; [|discriminate]. simpl in E.
    assert (prefixb d [] = true) by (apply prefixb_iff; eauto). congruence.
  - destruct (prefixb d (c :: s)) eqn:P; [discriminate|].
    destruct (find_sub d s) as [m|]; [discriminate|]. intros _ (a & b & E).
    destruct a as [|x a]; simpl in E.
    + assert (prefixb d (c :: s) = true) by (apply prefixb_iff; eauto). congruence.
    + inversion E; subst. apply IH; [reflexivity|]. exists a, b. reflexivity.
Qed.

Lemma split_loop_ok d : d <> [] -> forall fuel s res, (length s <= fuel)%nat ->
  exists ps, split_loop fuel s d res = Some (res ++ ps) /\ splits d s ps.
Proof.
  intros D. assert (LD : (0 < length d)%nat) by (destruct d; [congruence|simpl; lia]).
  induction fuel as [|f IH]; intros s res L; cbn [split_loop].
  - destruct s; [|simpl in L; lia]. destruct (find_sub d []) eqn:F.
    + apply find_sub_some in F. destruct F as (_ & (r & E) & _). rewrite skipn_nil in E.
      destruct d; [congruence|discriminate].
    + exists [[]]. split; [reflexivity|]. constructor. apply find_sub_none. exact F.
  - destruct (find_sub d s) as [n|] eqn:F.
    + apply find_sub_some in F. destruct F as (A & (r & E) & C).
      assert (Es : s = firstn n s ++ d ++ r) by (rewrite <- E, firstn_skipn; reflexivity).
      assert (Ln : length (firstn n s) = n) by (rewrite firstn_length; lia).
      assert (Er : skipn (n + length d) s = r).
      { rewrite Es, app_assoc. replace (n + length d)%nat with (length (firstn n s ++ d)) by (rewrite app_length; lia).
        rewrite skipn_app, skipn_all, Nat.sub_diag. reflexivity. }
      destruct (IH r (res ++ [firstn n s])) as (ps & E1 & S1).
      { apply (f_equal (@Datatypes.length byte)) in Es. rewrite !app_length in Es. lia. }
      exists (firstn n s :: ps). rewrite Er, E1, <- app_assoc. split; [reflexivity|].
      rewrite Es at 1. constructor; [|exact S1]. rewrite Ln, <- Es. exact C.
    + exists [s]. split; [reflexivity|]. constructor. apply find_sub_none. exact F.
Qed.

Lemma splits_join d s ps : splits d s ps -> join d ps = s.
Proof.
  induction 1 as [s H|p r ps H S IH]; [reflexivity|]. cbn [join].
  destruct S; [|]; rewrite IH; reflexivity.
Qed.

Lemma splits_clean d s ps : d <> [] -> splits d s ps -> Forall (fun p => ~ contains d p) ps.
Proof.
  intros D. induction 1 as [s H|p r ps H S IH]; constructor; auto.
  intros (a & b & E). apply (H (length a)).
  - rewrite E, !app_length. destruct d; [congruence|simpl; lia].
  - exists (b ++ d ++ r). rewrite E, <- !app_assoc. rewrite skipn_app, skipn_all, Nat.sub_diag. reflexivity.
Qed.

(** split terminates for every string and non-empty delimiter, and cuts at the
    leftmost non-overlapping occurrences. *)
Theorem C68_split : forall s d, d <> [] ->
  exists ps, split_loop (length s) s d [] = Some ps
    /\ splits d s ps /\ join d ps = s /\ Forall (fun p => ~ contains d p) ps.
Proof.
  intros s d D. destruct (split_loop_ok d D (length s) s [] (le_n _)) as (ps & E & S).
  exists ps. split; [exact E|]. split; [exact S|]. split; [apply splits_join; exact S|].
  apply (splits_clean d s ps D S).
Qed.
Print Assumptions C68_split.

(** The specification determines the pieces. *)
Theorem C68_split_unique : forall d s ps ps', d <> [] -> splits d s ps -> splits d s ps' -> ps = ps'.
Proof.
  intros d s ps ps' D S. revert ps'. induction S as [s H|p r ps H S IH]; intros ps' S'.
  - inversion S' as [|p' r' q H' S'']; subst; [reflexivity|]. exfalso. apply H.
    exists p', r'. reflexivity.
  - inversion S' as [t H' Et|p' r' q H' S'' E]; subst.
    + exfalso. apply H'. exists p, r. reflexivity.
    + assert (X : forall a b x y, (length a < length b)%nat -> a ++ d ++ x = b ++ d ++ y ->
                  occurs_at d (b ++ d ++ y) (length a)).
      { intros a b x y _ Q. exists x. rewrite <- Q. rewrite skipn_app, skipn_all, Nat.sub_diag. reflexivity. }
      assert (L : length p = length p').
      { destruct (Nat.lt_trichotomy (length p) (length p')) as [T|[T|T]]; auto; exfalso.
        - apply (H' _ T). apply (X p p' r r'); auto.
        - apply (H _ T). apply (X p' p r' r); auto. }
      assert (p' = p /\ d ++ r' = d ++ r) as (-> & Q).
      { clear -E L. revert p' E L. induction p as [|c p IHp]; intros [|c' p'] E L; try discriminate; auto.
        inversion E; subst. inversion L. destruct (IHp p') as (-> & Q); auto. }
      apply app_inv_head in Q. subst. f_equal. apply IH. exact S''.
Qed.
Print Assumptions C68_split_unique.

(** With an empty delimiter the loop never ends. *)
Theorem C68_split_empty_delim : forall fuel s res, split_loop fuel s [] res = None.
Proof.
  induction fuel as [|f IH]; intros s res; destruct s; cbn [split_loop find_sub prefixb]; auto.
Qed.
Print Assumptions C68_split_empty_delim.

(** ** C68, trim *)

Lemma mem_In c l : mem c l = true <-> In c l.
Proof.
  unfold mem. rewrite existsb_exists. split.
  - intros (x & H & E). apply byte_eqb_eq in E. subst. exact H.
  - intros H. exists c. split; [exact H|]. apply byte_eqb_eq. reflexivity.
Qed.

Lemma first_not_spec sp s :
  match find_first_not_of sp s with
  | None => Forall (fun c => In c sp) s
  | Some b => exists a c r, s = a ++ c :: r /\ length a = b /\ Forall (fun c => In c sp) a /\ ~ In c sp
  end.
Proof.
  induction s as [|c s IH]; cbn [find_first_not_of]; [constructor|].
  destruct (mem c sp) eqn:M.
  - apply mem_In in M. destruct (find_first_not_of sp s) as [b|]; cbn [option_map].
    + destruct IH as (a & c' & r & -> & L & F & NI). exists (c :: a), c', r.
      split; [reflexivity|]. split; [simpl; congruence|]. split; [constructor; auto|exact NI].
    + constructor; auto.
  - exists [], c, s. repeat split; auto. intros H. apply mem_In in H. congruence.
Qed.

Lemma last_not_spec sp s :
  match find_last_not_of sp s with
  | None => Forall (fun c => In c sp) s
  | Some e => exists a c r, s = a ++ c :: r /\ length a = e /\ Forall (fun c => In c sp) r /\ ~ In c sp
  end.
Proof.
  induction s as [|c s IH]; cbn [find_last_not_of]; [constructor|].
  destruct (find_last_not_of sp s) as [e|].
  - destruct IH as (a & c' & r & -> & L & F & NI). exists (c :: a), c', r.
    split; [reflexivity|]. split; [simpl; congruence|]. auto.
  - destruct (mem c sp) eqn:M.
    + constructor; [apply mem_In; exact M|exact IH].
    + exists [], c, s. repeat split; auto. intros H. apply mem_In in H. congruence.
Qed.

(** [t] is [s] without its leading and trailing blanks. *)
Definition trimmed (sp s t : bytes) : Prop :=
  exists a b, s = a ++ t ++ b /\ Forall (fun c => In c sp) a /\ Forall (fun c => In c sp) b
    /\ (forall c r, t = c :: r -> ~ In c sp) /\ (forall c r, t = r ++ [c] -> ~ In c sp).

Theorem C68_trim : forall s sp, trimmed sp s (trim s sp).
Proof.
  intros s sp. unfold trim.
  pose proof (first_not_spec sp s) as F. pose proof (last_not_spec sp s) as G.
  destruct (find_first_not_of sp s) as [b|].
  - destruct F as (a & c & r & -> & La & Fa & Nc).
    destruct (find_last_not_of sp (a ++ c :: r)) as [e|].
    + destruct G as (a' & c' & r' & E & Le & Fr & Nc').
      assert (B : (b <= e)%nat).
      { destruct (le_lt_dec b e) as [|Lt]; auto. exfalso. apply Nc'.
        rewrite Forall_forall in Fa. apply Fa.
        assert (X : nth_error (a ++ c :: r) e = Some c').
        { rewrite E. rewrite nth_error_app2 by lia. rewrite <- Le, Nat.sub_diag. reflexivity. }
        rewrite nth_error_app1 in X by lia. apply nth_error_In in X. exact X. }
      assert (Q : skipn b (a ++ c :: r) = c :: r)
        by (rewrite skipn_app, <- La, skipn_all, Nat.sub_diag; reflexivity).
      rewrite Q.
      assert (P : exists m, c :: r = m ++ c' :: r' /\ length m = (e - b)%nat).
      { exists (skipn b a'). split; [|rewrite skipn_length; lia].
        rewrite <- Q, E. rewrite skipn_app. replace (b - length a')%nat with 0%nat by lia. reflexivity. }
      destruct P as (m & Em & Lm). rewrite Em.
      replace (firstn (e - b + 1) (m ++ c' :: r')) with (m ++ [c']).
      2:{ rewrite firstn_app. rewrite firstn_all2 by lia.
          replace (e - b + 1 - length m)%nat with 1%nat by lia. reflexivity. }
      exists a, r'. split; [rewrite <- app_assoc; reflexivity|].
      split; [exact Fa|]. split; [exact Fr|]. split.
      * intros x y H. destruct m as [|m0 m]; simpl in *; inversion H; inversion Em; subst; auto.
      * intros x y H. apply app_inj_tail in H. destruct H as (_ & <-). exact Nc'.
    + exfalso. rewrite Forall_app in G. destruct G as (_ & G). inversion G; subst. contradiction.
  - exists s, []. split; [cbn [app]; rewrite app_nil_r; reflexivity|]. split; [exact F|]. split; [constructor|].
    split; intros c r H; [discriminate|destruct r; discriminate].
Qed.
Print Assumptions C68_trim.

Theorem C68_trim_unique : forall sp s t t', trimmed sp s t -> trimmed sp s t' -> t = t'.
Proof.
  intros sp s t t' (a & b & E & Fa & Fb & H1 & H2) (a' & b' & E' & Fa' & Fb' & H1' & H2').
  destruct t as [|c t0]; destruct t' as [|c' t0'].
  - reflexivity.
  - exfalso. apply (H1' c' t0' eq_refl).
    assert (FF : Forall (fun c => In c sp) s) by (rewrite E; simpl; apply Forall_app; auto).
    rewrite E' in FF. rewrite Forall_app in FF. destruct FF as (_ & FF). inversion FF; subst. assumption.
  - exfalso. apply (H1 c t0 eq_refl).
    assert (FF : Forall (fun c => In c sp) s) by (rewrite E'; simpl; apply Forall_app; auto).
    rewrite E in FF. rewrite Forall_app in FF. destruct FF as (_ & FF). inversion FF; subst. assumption.
  - assert (LA : forall a a' c c' x y, Forall (fun c => In c sp) a -> Forall (fun c => In c sp) a' ->
               ~ In c sp -> ~ In c' sp -> a ++ c :: x = a' ++ c' :: y -> a = a' /\ c :: x = c' :: y).
    { clear. induction a as [|z a IH]; intros [|z' a'] c c' x y F F' N N' Q; simpl in Q.
      - auto.
      - inversion Q; subst. inversion F'; subst. contradiction.
      - inversion Q; subst. inversion F; subst. contradiction.
      - injection Q as -> Q. inversion F; inversion F'; subst.
        destruct (IH a' c c' x y) as (-> & ->); auto. }
    assert (Q : a ++ c :: (t0 ++ b) = a' ++ c' :: (t0' ++ b')) by (cbn [app] in E, E'; congruence).
    destruct (LA a a' c c' (t0 ++ b) (t0' ++ b') Fa Fa' (H1 c t0 eq_refl) (H1' c' t0' eq_refl) Q) as (-> & Q2).
    (* the same argument on the reversed strings *)
    change (c :: t0 ++ b) with ((c :: t0) ++ b) in Q2. change (c' :: t0' ++ b') with ((c' :: t0') ++ b') in Q2.
    assert (forall u u', u <> [] -> u' <> [] -> (forall (c : byte) r, u = r ++ [c] -> ~ In c sp) ->
       (forall (c : byte) r, u' = r ++ [c] -> ~ In c sp) -> u ++ b = u' ++ b' -> u = u').
    { clear -LA Fb Fb'. intros u u' Nu Nu' H H' Q.
      destruct (exists_last Nu) as (v & z & ->). destruct (exists_last Nu') as (v' & z' & ->).
      apply (f_equal (@rev byte)) in Q. rewrite !rev_app_distr in Q. cbn [rev app] in Q.
      destruct (LA (rev b) (rev b') z z' (rev v) (rev v')) as (_ & R); auto.
      - apply Forall_rev. exact Fb.
      - apply Forall_rev. exact Fb'.
      - apply (H z v eq_refl).
      - apply (H' z' v' eq_refl).
      - injection R as -> R. apply (f_equal (@rev byte)) in R. rewrite !rev_involutive in R. congruence. }
    apply H; auto; discriminate.
Qed.
Print Assumptions C68_trim_unique.

Theorem C68_trim_all : forall ss, Forall2 (trimmed default_space) ss (trim_all ss).
Proof. induction ss as [|s ss IH]; constructor; [apply C68_trim|exact IH]. Qed.
Print Assumptions C68_trim_all.

Example C68_nonvacuous :
  split_loop 6 (txt "a,b,,c") (txt ",") [] = Some [txt "a"; txt "b"; txt ""; txt "c"]
  /\ split_loop 4 (txt "baaa") (txt "aa") [] = Some [txt "b"; txt "a"]
  /\ trim (txt "  x y ") default_space = txt "x y" /\ trim (txt "   ") default_space = [].
Proof. repeat split; vm_compute; reflexivity. Qed.

(** ** C70 *)

(** Passing a pointer to a flag enables skipping whatever the flag says; only
    nullptr disables it. *)
Theorem C70_tls_skip_ca_check_refuted : exists b, tls_skip_ca_check (Some b) <> b.
Proof. exists false. discriminate. Qed.
Print Assumptions C70_tls_skip_ca_check_refuted.

Theorem C70_tls_skip_ca_check_partial : forall x,
  tls_skip_ca_check x = true <-> x <> None.
Proof. intros [b|]; simpl; split; intros; congruence. Qed.
Print Assumptions C70_tls_skip_ca_check_partial.

Example C70_nonvacuous : tls_skip_ca_check (Some true) = true /\ tls_skip_ca_check (Some false) = true.
Proof. split; reflexivity. Qed.

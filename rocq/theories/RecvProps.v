(** C23 - C31: the receive side. *)
From Coq Require Import Arith NArith ZArith List Bool Lia ZifyBool ZifyN ZifyNat.
From Coq.Init Require Import Byte.
From Verif Require Import Base StreamModel MsgModel MsgProps SegModel SegProps RecvModel RecvSpec RecvProofs.
Import ListNotations.
Local Open Scope N_scope.

(** ** Reading a state *)

(** Alive, nothing pending with the incoming queue, and the last receive loop
    was not stopped by a full buffer. *)
Definition at_rest (s : rconn) : Prop :=
  r_term s = false /\ r_sleep s = false /\ r_ready_recv s = false.

(** A list of frames all of which fit the configuration. *)
Definition fits (c : rcfg) (ms : list frame) : Prop :=
  Forall (frame_ok (rx_msg c)) ms /\ Forall (fun f => lenN (f_payload f) <= rx_maxmsg c) ms.

(** Of the frames [ms] whose wire bytes make up the stream, exactly the first
    [k] are contained in [got]. *)
Definition complete_in (c : rcfg) (ms : list frame) (got : bytes) (k : nat) : Prop :=
  (k <= length ms)%nat
  /\ exists t, got = wires (rx_msg c) (firstn k ms) ++ t
       /\ (forall f, nth_error ms k = Some f -> lenN t < lenN (wire (rx_msg c) f)).

Lemma fits_no_oversize c ms stream more : fits c ms -> stream ++ more = wires (rx_msg c) ms ->
  ~ found_oversized c stream.
Proof.
  intros (FO & FM) E (fs & m & rest & Es & Ff & HO & Big). subst stream.
  rewrite <- !app_assoc in E.
  destruct (wires_prefix (rx_msg c) fs ms (header_bytes (rx_msg c) m ++ rest) more) as (tl & -> & E2); [apply frame_fit_ok; exact Ff|exact FO| |].
  { rewrite <- E, <- !app_assoc. reflexivity. }
  rewrite <- app_assoc in E2. apply Forall_app in FO. apply Forall_app in FM. destruct FO as (_ & FO). destruct FM as (_ & FM).
  destruct tl as [|f tl].
  - apply (f_equal lenN) in E2. rewrite lenN_app, header_bytes_len in E2. change (lenN (wires (rx_msg c) [])) with 0 in E2.
    pose proof (header_size_pos (rx_msg c)). lia.
  - cbn [wires flat_map] in E2. rewrite wire_split, <- app_assoc in E2. inversion FO; subst. inversion FM; subst.
    apply header_inj in E2; [|exact HO|].
    + destruct E2 as (_ & _ & E2 & _). cbn in E2. lia.
    + match goal with H : frame_ok _ f |- _ => destruct H as (A1 & A2 & A3 & A4 & A5) end. repeat split; assumption.
Qed.

Lemma fits_fit c fs : Forall (frame_fit c) fs -> fits c fs.
Proof. intros F. split; induction F as [|f l (A & B)]; constructor; auto. Qed.

Lemma frame_header c f : frame_ok c f ->
  header_ok c (mkMsg (f_magic f) (f_opcode f) (lenN (f_payload f)) (f_check f) [] true).
Proof. intros (A1 & A2 & A3 & A4 & A5). repeat split; assumption. Qed.

(** What a run leaves behind, for a stream of fitting frames. *)
Lemma run_frames c ms stream more evs s : cfg_ok c -> fits c ms -> stream ++ more = wires (rx_msg c) ms ->
  rrun c evs (rinit stream) = SOk s ->
  Inv c stream s /\ r_errs s = [] /\ r_crash s = false
  /\ exists fs tl, ms = fs ++ tl /\ Frm c stream fs s /\ sound c fs s.
Proof.
  intros C F E R. pose proof (rrun_inv c stream evs C (rinit stream) (inv_init c stream)) as I. rewrite R in I.
  pose proof (fits_no_oversize c ms stream more F E) as NO.
  assert (ER : r_errs s = []).
  { destruct (r_errs s) eqn:Q; [reflexivity|]. exfalso. apply NO. apply (i_over _ _ _ I). left. rewrite Q. discriminate. }
  assert (CR : r_crash s = false).
  { destruct (r_crash s) eqn:Q; [|reflexivity]. exfalso. apply NO. apply (i_over _ _ _ I). right. exact Q. }
  split; [exact I|]. split; [exact ER|]. split; [exact CR|].
  destruct (i_frm _ _ _ I ER CR) as (fs & F0 & SO). pose proof F0 as [S1 S2 S3].
  destruct (wires_prefix (rx_msg c) fs ms ((if r_payload s then header_bytes (rx_msg c) (r_msg s) else []) ++ seg_bytes (r_buf s) ++ r_net s) more) as (tl & Em & _).
  - apply frame_fit_ok; exact S2.
  - apply F.
  - rewrite <- E. rewrite S1 at 1. rewrite <- !app_assoc. reflexivity.
  - exists fs, tl. auto.
Qed.

Lemma filter_all {A} (p : A -> bool) l : Forall (fun x => p x = true) l -> filter p l = l.
Proof. induction 1 as [|x l H F IH]; cbn; [reflexivity|]. rewrite H, IH. reflexivity. Qed.

Lemma Forall2_len {A B} (R : A -> B -> Prop) l l' : Forall2 R l l' -> length l = length l'.
Proof. induction 1; cbn; congruence. Qed.
Lemma Forall2_weaken {A B} (R Q : A -> B -> Prop) l l' : (forall a b, R a b -> Q a b) -> Forall2 R l l' -> Forall2 Q l l'.
Proof. induction 2; constructor; auto. Qed.

Lemma firstn_pre {A} (a b : list A) : firstn (length a) (a ++ b) = a.
Proof. rewrite firstn_app, Nat.sub_diag, firstn_O, app_nil_r, firstn_all. reflexivity. Qed.

Lemma drained_incomplete c stream more fs tl s f : cfg_ok c -> Inv c stream s ->
  fits c (fs ++ tl) -> stream ++ more = wires (rx_msg c) (fs ++ tl) -> Frm c stream fs s -> drained c s -> nth_error tl 0 = Some f ->
  lenN ((if r_payload s then header_bytes (rx_msg c) (r_msg s) else []) ++ seg_bytes (r_buf s)) < lenN (wire (rx_msg c) f).
Proof.
  intros C I (FO & FM) E [S1 S2 S3] D Nf. destruct tl as [|f' tl]; [discriminate|]. injection Nf as ->.
  unfold drained in D. destruct (g_buf _ _ (i_g _ _ _ I)) as ((_ & Z & _) & _). unfold seg_size in D. rewrite Z in D.
  rewrite wire_len, lenN_app. destruct (r_payload s) eqn:P.
  - destruct (g_head _ _ (i_g _ _ _ I) P) as (_ & HO & _). rewrite header_bytes_len.
    assert (m_length (r_msg s) = lenN (f_payload f)); [|lia].
    rewrite S1, wires_app, <- !app_assoc in E. apply app_inv_head in E.
    cbn [wires flat_map] in E. rewrite wire_split, <- app_assoc in E. apply header_inj in E; [|exact HO|].
    + destruct E as (_ & _ & E & _). exact E.
    + apply Forall_app in FO. destruct FO as (_ & FO). inversion FO; subst.
      match goal with H : frame_ok _ f |- _ => destruct H as (A1 & A2 & A3 & A4 & A5) end. repeat split; assumption.
  - change (lenN (@nil byte)) with 0. lia.
Qed.

(** ** C23 *)

(** For a stream of well-formed messages cut anywhere, every run (any
    chunking, any refusals, any event order) has handed over a prefix of the
    messages, in order, each once, all of them completely received; at rest it
    has handed over every completely received message. *)
Theorem C23_framing_partial : forall c ms stream more evs s,
  cfg_ok c -> fits c ms -> Forall (fun f => intact (rx_msg c) f = true) ms ->
  stream ++ more = wires (rx_msg c) ms ->
  rrun c evs (rinit stream) = SOk s ->
  r_errs s = [] /\ r_crash s = false
  /\ exists got, stream = got ++ r_net s
     /\ exists k, carry_all (r_in s) (firstn k ms)
          /\ (exists t, got = wires (rx_msg c) (firstn k ms) ++ t)
          /\ (at_rest s -> complete_in c ms got k).
Proof.
  intros c ms stream more evs s C F INT E R.
  destruct (run_frames c ms stream more evs s C F E R) as (I & ER & CR & fs & tl & Em & F0 & SO).
  split; [exact ER|]. split; [exact CR|]. pose proof F0 as [S1 S2 S3].
  set (hd := if r_payload s then header_bytes (rx_msg c) (r_msg s) else []) in *.
  exists (wires (rx_msg c) fs ++ hd ++ seg_bytes (r_buf s)). split; [rewrite <- !app_assoc; exact S1|].
  assert (INTfs : filter (intact (rx_msg c)) fs = fs).
  { apply filter_all. subst ms. apply Forall_app in INT. tauto. }
  rewrite INTfs in S3. unfold pending in S3. destruct (r_sleep s) eqn:SL.
  - (* a refused message is pending *)
    apply Forall2_app_inv_l in S3. destruct S3 as (fs1 & fs2 & A1 & A2 & Efs).
    inversion A2 as [|x f y l B1 B2]; subst. inversion B2; subst.
    exists (length fs1). rewrite <- (app_assoc fs1), firstn_pre. split; [exact A1|]. split.
    + eexists. rewrite wires_app, <- !app_assoc. reflexivity.
    + intros (_ & X & _). congruence.
  - rewrite app_nil_r in S3. exists (length fs). subst ms. rewrite firstn_pre.
    split; [exact S3|]. split; [eexists; reflexivity|].
    intros (T & _ & RR). split; [rewrite app_length; lia|].
    exists (hd ++ seg_bytes (r_buf s)). rewrite firstn_pre. split; [reflexivity|].
    intros f Nf. rewrite nth_error_app2 in Nf by lia. rewrite Nat.sub_diag in Nf.
    destruct (SO T SL RR) as [D|(g & Ig & Dg)].
    + apply (drained_incomplete c stream more fs tl s f C I F E F0 D Nf).
    + exfalso. apply Forall_app in INT. destruct INT as (INT & _). rewrite Forall_forall in INT. specialize (INT g Ig). cbn in INT. congruence.
Qed.
Print Assumptions C23_framing_partial.

(** A configuration of the examples: one-byte opcodes, no checksum field,
    segments of 9 bytes (one empty message), at most [mb] segments. *)
Definition ex_msg := mkMsgCfg LittleE 1 false (fun _ => []).
Definition ex_cfg (chunk mb mx : N) := mkRcfg ex_msg chunk mb mx.
Definition empty_frame (op : N) := mkFrame 0 op 0 [].

Lemma ex_cfg_ok chunk mb mx : 0 < chunk -> mb * chunk < 2 ^ 64 -> cfg_ok (ex_cfg chunk mb mx).
Proof. intros A B. repeat split; cbn; auto; lia. Qed.
Lemma empty_fits chunk mb mx l : Forall (fun op => op < 256) l -> fits (ex_cfg chunk mb mx) (map empty_frame l).
Proof.
  intros F. split; induction F; cbn; constructor; auto.
  - repeat split; cbn; auto; lia.
  - apply N.le_0_l.
Qed.
Lemma empty_intact l : Forall (fun f => intact ex_msg f = true) (map empty_frame l).
Proof. induction l; constructor; auto. Qed.

Example C23_nonvacuous :
  let c := ex_cfg 8 4 16 in
  let ms := [mkFrame 7 1 0 [x61; x62]; mkFrame 7 2 0 []] in
  let stream := wires (rx_msg c) ms in
  cfg_ok c /\ fits c ms /\ Forall (fun f => intact (rx_msg c) f = true) ms
  /\ exists s, rrun c [EvEstablish; EvRead [KData 3] []; EvRead [KData 8; KData 2] [false]; EvRead [KData 50] []; EvTimer [] [false]; EvTimer [] []]
               (rinit stream) = SOk s
       /\ at_rest s /\ carry_all (r_in s) ms.
Proof.
  cbv zeta. split; [apply ex_cfg_ok; reflexivity|]. split.
  - split; repeat constructor; cbn; try reflexivity; discriminate.
  - split; [repeat constructor|]. eexists. split; [vm_compute; reflexivity|]. split; [repeat split|repeat constructor].
Qed.

(** The full claim fails: a receive loop that fills the buffer returns without
    parsing, so completely received messages stay in the buffer although the
    queue accepts everything. *)
Theorem C23_framing_refuted : exists c ms evs s,
  cfg_ok c /\ fits c ms /\ Forall (fun f => intact (rx_msg c) f = true) ms
  /\ Forall (fun ev => match ev with EvRead _ qs | EvTimer _ qs => qs = [] | EvEstablish => True | _ => False end) evs
  /\ rrun c evs (rinit (wires (rx_msg c) ms)) = SOk s
  /\ r_net s = [] /\ r_term s = false /\ r_in s = [] /\ ms <> [].
Proof.
  exists (ex_cfg 9 1 16), (map empty_frame [5]), [EvEstablish; EvRead [KData 9] []]. eexists.
  split; [apply ex_cfg_ok; reflexivity|]. split; [apply empty_fits; repeat constructor|].
  split; [apply empty_intact|]. split; [repeat constructor|].
  split; [vm_compute; reflexivity|]. split; [reflexivity|]. split; [reflexivity|]. split; [reflexivity|discriminate].
Qed.
Print Assumptions C23_framing_refuted.

(** ** C24 *)

(** With damaged frames in the stream: what was handed over (together with a
    refused message waiting for the timer) is exactly the intact ones among
    the frames consumed, in order; nothing is lost or delivered although
    damaged. *)
Theorem C24_damaged_skipped_partial : forall c ms stream more evs s,
  cfg_ok c -> fits c ms -> stream ++ more = wires (rx_msg c) ms ->
  rrun c evs (rinit stream) = SOk s ->
  exists fs tl t, ms = fs ++ tl /\ stream = wires (rx_msg c) fs ++ t ++ r_net s
    /\ exists waiting, (length waiting <= 1)%nat /\ (r_sleep s = false -> waiting = [])
       /\ carry_all (r_in s ++ waiting) (filter (intact (rx_msg c)) fs)
    /\ (at_rest s -> (forall f, nth_error tl 0 = Some f -> lenN t < lenN (wire (rx_msg c) f))
                     \/ exists f, In f fs /\ intact (rx_msg c) f = false).
Proof.
  intros c ms stream more evs s C F E R.
  destruct (run_frames c ms stream more evs s C F E R) as (I & ER & CR & fs & tl & Em & F0 & SO).
  pose proof F0 as [S1 S2 S3].
  exists fs, tl, ((if r_payload s then header_bytes (rx_msg c) (r_msg s) else []) ++ seg_bytes (r_buf s)).
  split; [exact Em|]. split; [rewrite <- app_assoc; exact S1|].
  exists (pending s). unfold pending in *. split; [destruct (r_sleep s); cbn; lia|].
  split; [intros ->; reflexivity|]. split; [exact S3|].
  intros (T & SL & RR). destruct (SO T SL RR) as [D|X]; [left|right; exact X].
  intros f Nf. subst ms. apply (drained_incomplete c stream more fs tl s f C I F E F0 D Nf).
Qed.
Print Assumptions C24_damaged_skipped_partial.

(** Every later read callback gets past at least one more damaged frame, or
    hands over everything completely received. *)
Theorem C24_next_read : forall c ms stream more evs s ks qs s',
  cfg_ok c -> fits c ms -> stream ++ more = wires (rx_msg c) ms ->
  rrun c evs (rinit stream) = SOk s -> rstep c (EvRead ks qs) s = SOk s' -> at_rest s' -> r_sleep s = false ->
  exists fs new tl t, ms = fs ++ new ++ tl /\ carry_all (r_in s) (filter (intact (rx_msg c)) fs)
    /\ stream = wires (rx_msg c) (fs ++ new) ++ t ++ r_net s'
    /\ carry_all (r_in s') (filter (intact (rx_msg c)) (fs ++ new))
    /\ ((forall f, nth_error tl 0 = Some f -> lenN t < lenN (wire (rx_msg c) f))
        \/ exists f, In f new /\ intact (rx_msg c) f = false).
Proof.
  intros c ms stream more evs s ks qs s' C F E R ST (T' & SL' & RR') SL.
  destruct (run_frames c ms stream more evs s C F E R) as (I & ER & CR & fs & tl0 & Em0 & F0 & _).
  assert (R' : rrun c (evs ++ [EvRead ks qs]) (rinit stream) = SOk s').
  { revert R ST. clear. revert s'. generalize (rinit stream). induction evs as [|ev evs IH]; intros r s' R ST; cbn [rrun app] in *.
    - inversion R; subst. rewrite ST. reflexivity.
    - destruct (rstep c ev r); try discriminate. apply IH; assumption. }
  destruct (run_frames c ms stream more _ s' C F E R') as (I' & ER' & CR' & _).
  unfold rstep in ST. rewrite CR in ST. destruct (r_up s) eqn:U; [|discriminate]. cbn [negb] in ST. unfold when in ST.
  destruct (r_rd s) eqn:RD; [|discriminate].
  pose proof (recv_data_ok c 1 ks qs s C (i_g _ _ _ I) (i_timer _ _ _ I U) RD (i_sp _ _ _ I)) as P.
  destruct (recv_data c (on_read c 1) ks qs s) as [s2|e s2|]; cbn [guarded ores_post] in *; try discriminate.
  - injection ST as <-. destruct P as (_ & _ & _ & _ & _ & _ & _ & F1). destruct (F1 _ _ F0) as (new & F2 & SO).
    pose proof F2 as [S1 S2 S3]. pose proof F0 as [Q1 Q2 Q3].
    unfold pending in *. rewrite SL, app_nil_r in Q3. rewrite SL', app_nil_r in S3.
    destruct (wires_prefix (rx_msg c) (fs ++ new) ms ((if r_payload s2 then header_bytes (rx_msg c) (r_msg s2) else []) ++ seg_bytes (r_buf s2) ++ r_net s2) more) as (tl & Em & _).
    + apply frame_fit_ok; exact S2.
    + apply F.
    + rewrite <- E. rewrite S1 at 1. rewrite <- !app_assoc. reflexivity.
    + exists fs, new, tl, ((if r_payload s2 then header_bytes (rx_msg c) (r_msg s2) else []) ++ seg_bytes (r_buf s2)).
      split; [rewrite app_assoc; exact Em|]. split; [exact Q3|]. split; [rewrite <- app_assoc; exact S1|]. split; [exact S3|].
      destruct (SO T' SL' RR') as [D|X]; [left|right; exact X].
      intros f Nf. rewrite Em in F, E. apply (drained_incomplete c stream more (fs ++ new) tl s2 f C I' F E F2 D Nf).
  - injection ST as <-. cbn in ER'. destruct (r_errs s2); discriminate.
Qed.
Print Assumptions C24_next_read.

(** Checksummed configuration of the example: the digest is constant 0, so a
    frame with check 1 is damaged. *)
Definition ck_msg := mkMsgCfg LittleE 1 true (fun _ => [x00; x00; x00; x00]).
Definition ck_cfg := mkRcfg ck_msg 64 4 16.

(** The full claim fails: a complete intact message behind a damaged one stays
    in the buffer of an idle connection. *)
Theorem C24_damaged_skipped_refuted : exists c bad good evs s,
  cfg_ok c /\ fits c [bad; good] /\ intact (rx_msg c) bad = false /\ intact (rx_msg c) good = true
  /\ rrun c evs (rinit (wires (rx_msg c) [bad; good])) = SOk s
  /\ at_rest s /\ r_net s = [] /\ r_in s = [].
Proof.
  exists ck_cfg, (mkFrame 0 1 1 []), (mkFrame 0 2 0 []), [EvEstablish; EvRead [KData 64] []]. eexists.
  split; [repeat split; cbn; lia|]. split; [split; repeat constructor; cbn; try reflexivity; discriminate|].
  split; [reflexivity|]. split; [reflexivity|]. split; [vm_compute; reflexivity|]. split; [repeat split|]. split; reflexivity.
Qed.
Print Assumptions C24_damaged_skipped_refuted.

Example C24_nonvacuous :
  exists s, rrun ck_cfg [EvEstablish; EvRead [KData 20] []; EvRead [KData 64] []]
      (rinit (wires ck_msg [mkFrame 0 1 1 []; mkFrame 0 2 0 [x61]; mkFrame 0 3 0 []])) = SOk s
    /\ at_rest s /\ carry_all (r_in s) [mkFrame 0 2 0 [x61]; mkFrame 0 3 0 []].
Proof. eexists. split; [vm_compute; reflexivity|]. split; [repeat split|repeat constructor]. Qed.

(** ** C25 *)

(** Whatever the stream, no message above the limit is ever handed over, and
    an exception is always the oversize error, raised for a header above the
    limit and followed by termination of the connection. *)
Theorem C25_oversized_partial : forall c stream evs s,
  cfg_ok c -> rrun c evs (rinit stream) = SOk s ->
  Forall (fun m => lenN (m_payload m) <= rx_maxmsg c) (r_in s)
  /\ Forall (eq (ExnSalti 30)) (r_errs s)
  /\ (r_errs s <> [] -> r_term s = true)
  /\ (r_errs s <> [] \/ r_crash s = true ->
       exists fs m rest, stream = wires (rx_msg c) fs ++ header_bytes (rx_msg c) m ++ rest /\ rx_maxmsg c < m_length m).
Proof.
  intros c stream evs s C R.
  pose proof (rrun_inv c stream evs C (rinit stream) (inv_init c stream)) as I. rewrite R in I.
  split; [|split; [exact (i_exn _ _ _ I)|split; [exact (i_errs _ _ _ I)|]]].
  - pose proof (g_small _ _ (i_g _ _ _ I)) as X. apply Forall_app in X. apply X.
  - intros X. destruct (i_over _ _ _ I X) as (fs & m & rest & A & _ & _ & B). exists fs, m, rest. auto.
Qed.
Print Assumptions C25_oversized_partial.

(** The oversize header itself: whenever a read callback reaches it, the error
    is reported and termination requested. *)
Theorem C25_reported : forall c stream evs s ks qs s',
  cfg_ok c -> rrun c evs (rinit stream) = SOk s -> rstep c (EvRead ks qs) s = SOk s' ->
  r_errs s = [] -> r_errs s' = [] -> r_crash s = false ->
  exists fs t, stream = wires (rx_msg c) fs ++ t
    /\ fits c fs
    /\ t = (if r_payload s' then header_bytes (rx_msg c) (r_msg s') else []) ++ seg_bytes (r_buf s') ++ r_net s'
    /\ (r_payload s' = true -> m_length (r_msg s') <= rx_maxmsg c).
Proof.
  intros c stream evs s ks qs s' C R ST E1 E2 CR.
  pose proof (rrun_inv c stream evs C (rinit stream) (inv_init c stream)) as I. rewrite R in I.
  pose proof (rstep_inv c stream (EvRead ks qs) s C I) as I'. rewrite ST in I'.
  assert (CR' : r_crash s' = false).
  { unfold rstep in ST. rewrite CR in ST. destruct (r_up s) eqn:U; [|discriminate]. cbn [negb] in ST. unfold when in ST.
    destruct (r_rd s) eqn:RD; [|discriminate].
    pose proof (recv_data_ok c 1 ks qs s C (i_g _ _ _ I) (i_timer _ _ _ I U) RD (i_sp _ _ _ I)) as P.
    destruct (recv_data c (on_read c 1) ks qs s) as [s2|e s2|]; cbn [guarded ores_post] in *; try discriminate; injection ST as <-.
    - destruct P as (_ & _ & (_ & _ & _ & X & _) & _). congruence.
    - destruct P as (_ & _ & _ & _ & (_ & _ & _ & X & _) & _). cbn. congruence. }
  destruct (i_frm _ _ _ I' E2 CR') as (fs & [S1 S2 S3] & _). exists fs. eexists. split; [exact S1|]. split; [apply fits_fit; exact S2|].
  split; [reflexivity|]. intros P. destruct (g_head _ _ (i_g _ _ _ I') P) as (_ & _ & X). exact X.
Qed.
Print Assumptions C25_reported.

Lemma wires_before_big c m rest : header_ok (rx_msg c) m -> rx_maxmsg c < m_length m ->
  forall fs ms X, Forall (frame_fit c) fs -> Forall (frame_ok (rx_msg c)) ms ->
  wires (rx_msg c) fs ++ X = wires (rx_msg c) ms ++ header_bytes (rx_msg c) m ++ rest ->
  exists tl, ms = fs ++ tl /\ X = wires (rx_msg c) tl ++ header_bytes (rx_msg c) m ++ rest.
Proof.
  intros HO Big. induction fs as [|f fs IH]; intros ms X F M E.
  - exists ms. auto.
  - inversion F as [|? ? (FO & FM) F']; subst. destruct ms as [|g ms].
    + exfalso. cbn [wires flat_map app] in E. rewrite wire_split, <- !app_assoc in E.
      apply header_inj in E; [|apply frame_header; exact FO|exact HO]. destruct E as (_ & _ & E & _). cbn in E. lia.
    + inversion M; subst. cbn [wires flat_map] in E. rewrite <- !app_assoc in E.
      apply frame_inj in E; auto. destruct E as (-> & E). destruct (IH ms X F') as (tl & -> & E2); auto.
      exists tl. auto.
Qed.

(** An oversize header behind well-formed messages: once it has been received
    the connection is not at rest any more: it has been terminated, or it is
    still held up by a refused message or the full buffer (or the exception
    left the retry timer, see C30). *)
Theorem C25_oversized_terminates : forall c ms m rest evs s,
  cfg_ok c -> fits c ms -> Forall (fun f => intact (rx_msg c) f = true) ms ->
  header_ok (rx_msg c) m -> rx_maxmsg c < m_length m ->
  rrun c evs (rinit (wires (rx_msg c) ms ++ header_bytes (rx_msg c) m ++ rest)) = SOk s ->
  lenN (r_net s) <= lenN rest -> r_crash s = false -> ~ at_rest s.
Proof.
  intros c ms m rest evs s C (FO & FM) INT HO Big R Ln CR (T & SL & RR).
  remember (wires (rx_msg c) ms ++ header_bytes (rx_msg c) m ++ rest) as stream eqn:Es.
  pose proof (rrun_inv c stream evs C (rinit stream) (inv_init c stream)) as I. rewrite R in I.
  assert (ER : r_errs s = []).
  { destruct (r_errs s) eqn:Q; [reflexivity|]. rewrite (i_errs _ _ _ I) in T; [discriminate|]. rewrite Q. discriminate. }
  destruct (i_frm _ _ _ I ER CR) as (fs & [S1 S2 S3] & SO).
  rewrite Es in S1. symmetry in S1. apply wires_before_big in S1; auto. destruct S1 as (tl & -> & X).
  destruct (SO T SL RR) as [D|(g & Ig & Dg)].
  2: { apply Forall_app in INT. destruct INT as (INT & _). rewrite Forall_forall in INT. specialize (INT g Ig). cbn in INT. congruence. }
  unfold drained in D. destruct (g_buf _ _ (i_g _ _ _ I)) as ((_ & Z & _) & _). unfold seg_size in D. rewrite Z in D.
  pose proof (f_equal lenN X) as L. rewrite !lenN_app, header_bytes_len in L.
  destruct (r_payload s) eqn:P.
  - destruct (g_head _ _ (i_g _ _ _ I) P) as (_ & HR & Fit). rewrite header_bytes_len in L. destruct tl as [|f tl].
    + cbn [wires flat_map app] in X. apply header_inj in X; auto. destruct X as (_ & _ & X & _). lia.
    + cbn [wires flat_map] in X, L. rewrite wire_split, <- !app_assoc in X. rewrite lenN_app, wire_len in L.
      apply Forall_app in FO. destruct FO as (_ & FO). inversion FO; subst.
      apply header_inj in X; [|exact HR|apply frame_header; assumption]. destruct X as (_ & _ & X & _). cbn in X. lia.
  - change (lenN (@nil byte)) with 0 in L. lia.
Qed.
Print Assumptions C25_oversized_terminates.

Example C25_terminates_nonvacuous :
  let c := ex_cfg 64 4 4 in
  exists s m, header_ok ex_msg m /\ rx_maxmsg c < m_length m
  /\ rrun c [EvEstablish; EvRead [KData 12] []; EvRead [KData 7] []] (rinit (wires ex_msg [empty_frame 1] ++ header_bytes ex_msg m ++ [x61])) = SOk s
  /\ r_net s = [] /\ r_crash s = false /\ r_term s = true /\ r_errs s = [ExnSalti 30] /\ length (r_in s) = 1%nat.
Proof.
  cbv zeta. eexists. exists (mkMsg 0 1 5 0 [] true). split; [repeat split; cbn; lia|]. split; [reflexivity|].
  split; [vm_compute; reflexivity|]. repeat split; reflexivity.
Qed.

(** The full claim fails: before the termination task runs, the next read event parses what
    follows the oversize header as messages and delivers them. *)
Theorem C25_oversized_refuted : exists c big rest evs s,
  cfg_ok c /\ rx_maxmsg c < lenN (f_payload big)
  /\ rrun c evs (rinit (wire (rx_msg c) big ++ rest)) = SOk s
  /\ r_errs s = [ExnSalti 30] /\ r_up s = true /\ r_in s <> [].
Proof.
  exists (ex_cfg 64 4 4), (mkFrame 0 1 0 [x00; x00; x00; x00; x09; x00; x00; x00; x00]), [],
    [EvEstablish; EvRead [KData 9] []; EvRead [KData 9] []]. eexists.
  split; [apply ex_cfg_ok; reflexivity|]. split; [reflexivity|]. split; [vm_compute; reflexivity|].
  split; [reflexivity|]. split; [reflexivity|discriminate].
Qed.
Print Assumptions C25_oversized_refuted.

(** ** C26 *)

Lemma on_read_keeps_in c ks qs s o : cfg_ok c -> G c s -> r_sleep s = false -> r_timer s = false ->
  (r_term s = false -> r_rd s = negb (r_ready_recv s)) -> on_read c 1 ks qs s = o ->
  forall s', (o = ORet s' \/ exists e, o = OThrow e s') -> exists l, r_in s' = r_in s ++ l.
Proof.
  intros C g SL TM RD <- s' H. pose proof (on_read_ok c ks qs s C g SL TM RD) as P.
  destruct (on_read c 1 ks qs s) as [s2|e s2|]; cbn [ores_post] in P; [| |contradiction].
  - destruct H as [H|(e & H)]; inversion H; subst. apply P.
  - destruct H as [H|(e' & H)]; inversion H; subst. apply P.
Qed.

(** Any pattern of refusals: delivery is a prefix in order without duplicates;
    while a refused message waits the retry timer is armed, and the first
    timer event whose retry is accepted hands over exactly that message next. *)
Theorem C26_backpressure_partial : forall c ms stream more evs s,
  cfg_ok c -> fits c ms -> Forall (fun f => intact (rx_msg c) f = true) ms ->
  stream ++ more = wires (rx_msg c) ms ->
  rrun c evs (rinit stream) = SOk s ->
  exists k, carry_all (r_in s) (firstn k ms)
    /\ (r_sleep s = true -> r_up s = true ->
         r_timer s = true
         /\ exists f m, nth_error ms k = Some f /\ carries m f
            /\ forall ks qs, exists s', rstep c (EvTimer ks (true :: qs)) s = SOk s'
                  /\ exists l, r_in s' = r_in s ++ [m] ++ l).
Proof.
  intros c ms stream more evs s C F INT E R.
  destruct (run_frames c ms stream more evs s C F E R) as (I & ER & CR & fs & tl & Em & F0 & SO).
  pose proof F0 as [S1 S2 S3].
  assert (INTfs : filter (intact (rx_msg c)) fs = fs).
  { apply filter_all. subst ms. apply Forall_app in INT. tauto. }
  rewrite INTfs in S3. unfold pending in S3. destruct (r_sleep s) eqn:SL.
  - apply Forall2_app_inv_l in S3. destruct S3 as (fs1 & fs2 & A1 & A2 & Efs).
    inversion A2 as [|x f y l B1 B2]; subst. inversion B2; subst.
    exists (length fs1). rewrite <- (app_assoc fs1), firstn_pre. split; [exact A1|]. intros _ U.
    assert (TM : r_timer s = true) by (rewrite <- (i_timer _ _ _ I U); exact SL).
    split; [exact TM|]. exists f, (r_msg s). split.
    { rewrite nth_error_app2 by lia. rewrite Nat.sub_diag. reflexivity. }
    split; [exact B1|]. intros ks qs.
    assert (ES : r_est s = true).
    { destruct (r_est s) eqn:ES; [reflexivity|]. destruct (i_est _ _ _ I ES) as (_ & _ & _ & X). congruence. }
    pose proof (rstep_inv c _ (EvTimer ks (true :: qs)) s C I) as RI.
    unfold rstep in *. rewrite CR, U, TM in *. cbn [negb] in *. unfold when in *.
    set (s0 := set_sleep false false (add_in (r_msg s) s)) in *.
    assert (g0 : G c s0).
    { destruct (i_g _ _ _ I) as [gb gh gs]. unfold s0. constructor; rcbn; auto.
      - intros P. destruct (gh P). congruence.
      - unfold pending in *. rcbn. rewrite app_nil_r. rewrite SL in gs. exact gs. }
    pose proof (on_read_keeps_in c ks qs s0 (on_read c 1 ks qs s0) C g0 eq_refl eq_refl) as K.
    specialize (K ltac:(unfold s0; rcbn; intros T; apply (i_rd _ _ _ I); auto) eq_refl).
    destruct (on_read c 1 ks qs s0) as [s2|e s2|]; cbn [unguarded] in *; [| |contradiction].
    + exists s2. split; [reflexivity|]. destruct (K s2 (or_introl eq_refl)) as (l & X). exists l. rewrite X. unfold s0. rcbn.
      rewrite <- app_assoc. reflexivity.
    + eexists. split; [reflexivity|]. destruct (K s2 (or_intror (ex_intro _ e eq_refl))) as (l & X). exists l. rcbn. rewrite X. unfold s0. rcbn.
      rewrite <- app_assoc. reflexivity.
  - rewrite app_nil_r in S3. exists (length fs). subst ms. rewrite firstn_pre.
    split; [exact S3|]. discriminate.
Qed.
Print Assumptions C26_backpressure_partial.

(** The full claim fails: after one refusal the queue accepts everything, all
    bytes have been received, and yet two messages stay undelivered with the
    timer off and read events masked. *)
Theorem C26_backpressure_refuted : exists c ms evs s,
  cfg_ok c /\ fits c ms /\ Forall (fun f => intact (rx_msg c) f = true) ms
  /\ rrun c evs (rinit (wires (rx_msg c) ms)) = SOk s
  /\ r_net s = [] /\ r_term s = false /\ r_sleep s = false /\ r_timer s = false /\ r_rd s = false
  /\ length (r_in s) = 3%nat /\ length ms = 5%nat.
Proof.
  exists (ex_cfg 9 2 16), (map empty_frame [1; 2; 3; 4; 5]),
    [EvEstablish; EvRead [KData 9; KAgain] [false]; EvRead [KData 9; KData 9] []; EvTimer [KData 9; KData 9] []]. eexists.
  split; [apply ex_cfg_ok; reflexivity|]. split; [apply empty_fits; repeat constructor|].
  split; [apply empty_intact|]. split; [vm_compute; reflexivity|]. repeat split; reflexivity.
Qed.
Print Assumptions C26_backpressure_refuted.

Example C26_nonvacuous :
  let c := ex_cfg 64 4 16 in let ms := map empty_frame [1; 2; 3] in
  fits c ms /\ exists s, rrun c [EvEstablish; EvRead [KData 30] [true; false]; EvTimer [] [false]] (rinit (wires ex_msg ms)) = SOk s
    /\ r_sleep s = true /\ r_up s = true /\ length (r_in s) = 1%nat
    /\ exists s', rstep c (EvTimer [] [true]) s = SOk s' /\ length (r_in s') = 3%nat.
Proof.
  cbv zeta. split; [apply empty_fits; repeat constructor|]. eexists. split; [vm_compute; reflexivity|].
  split; [reflexivity|]. split; [reflexivity|]. split; [reflexivity|]. eexists. split; [vm_compute; reflexivity|reflexivity].
Qed.

(** ** C27 *)

Theorem C27_recv_buffer_bounded : forall c stream evs s,
  cfg_ok c -> rrun c evs (rinit stream) = SOk s ->
  seg_len (r_buf s) <= rx_maxbuf c
  /\ seg_size (r_buf s) <= rx_maxbuf c * rx_chunk c
  /\ seg_size (r_buf s) = lenN (fst (seg_pop (seg_size (r_buf s)) (r_buf s))).
Proof.
  intros c stream evs s C R.
  pose proof (rrun_inv c stream evs C (rinit stream) (inv_init c stream)) as I. rewrite R in I.
  pose proof (g_buf _ _ (i_g _ _ _ I)) as B. pose proof B as ((F & Z & Bd) & D & L).
  split; [exact L|]. split.
  - unfold seg_size. rewrite Z. pose proof (entries_bytes _ _ D) as Q. fold (seg_bytes (r_buf s)) in Q. fold (seg_len (r_buf s)) in Q.
    assert (seg_len (r_buf s) * rx_chunk c <= rx_maxbuf c * rx_chunk c) by (apply N.mul_le_mono_r; exact L). lia.
  - destruct (seg_pop_ok c (seg_size (r_buf s)) (r_buf s) B (N.le_refl _)) as (b' & -> & _). cbn [fst].
    rewrite lenN_takeN. unfold seg_size. rewrite Z. lia.
Qed.
Print Assumptions C27_recv_buffer_bounded.

Example C27_nonvacuous : exists s,
  rrun (ex_cfg 4 3 16) [EvEstablish; EvRead [KData 4; KData 4; KData 4; KData 4] []] (rinit (repeat x01 40)) = SOk s
  /\ seg_len (r_buf s) = 3 /\ seg_size (r_buf s) = 12.
Proof. eexists. split; [vm_compute; reflexivity|]. split; reflexivity. Qed.

(** ** C28 *)

(** An idle established connection that stopped reading has a full buffer. *)
Theorem C28_no_stall_partial : forall c stream evs s,
  cfg_ok c -> rrun c evs (rinit stream) = SOk s ->
  r_est s = true -> r_up s = true -> r_crash s = false -> r_term s = false ->
  r_timer s = true \/ r_rd s = true \/ rx_maxbuf c <= seg_len (r_buf s).
Proof.
  intros c stream evs s C R ES U CR T.
  pose proof (rrun_inv c stream evs C (rinit stream) (inv_init c stream)) as I. rewrite R in I.
  destruct (r_sleep s) eqn:SL; [left; rewrite <- (i_timer _ _ _ I U); exact SL|].
  destruct (r_ready_recv s) eqn:RR; [right; right; apply (i_full _ _ _ I); auto|].
  right; left. rewrite (i_rd _ _ _ I ES U CR T), RR. reflexivity.
Qed.
Print Assumptions C28_no_stall_partial.

(** The full claim fails: a complete message waits in the buffer, no timer is
    armed, read events are masked, and no event but a termination or the send
    side can happen any more; the message is never delivered. *)
Definition stalled (s : rconn) : Prop :=
  r_est s = true /\ r_up s = true /\ r_crash s = false /\ r_sleep s = false /\ r_timer s = false /\ r_rd s = false /\ r_ready_recv s = true.

Lemma stalled_forever c evs : forall s s', stalled s -> rrun c evs s = SOk s' ->
  r_in s' = r_in s /\ r_buf s' = r_buf s.
Proof.
  induction evs as [|ev evs IH]; intros s s' ST R; cbn [rrun] in R.
  - inversion R; subst. auto.
  - destruct (rstep c ev s) as [s1| |] eqn:E; try discriminate.
    destruct ST as (A1 & A2 & A3 & A4 & A5 & A6 & A7).
    unfold rstep in E. rewrite A3, A2 in E. cbn [negb] in E.
    assert (X : (stalled s1 \/ r_up s1 = false) /\ r_in s1 = r_in s /\ r_buf s1 = r_buf s).
    { destruct ev; unfold when in E; rewrite ?A1, ?A5, ?A6 in E; cbn [negb orb] in E; try discriminate.
      - destruct (r_wr s); [|discriminate]. injection E as <-. split; [left; repeat split; assumption|split; reflexivity].
      - injection E as <-. split; [left; repeat split; rcbn; auto; rewrite A7; reflexivity|split; reflexivity].
      - injection E as <-. split; [left; repeat split; assumption|split; reflexivity].
      - injection E as <-. split; [left; repeat split; rcbn; auto; rewrite A7; reflexivity|split; reflexivity].
      - injection E as <-. split; [left; repeat split; assumption|split; reflexivity].
      - destruct (r_term s); [|discriminate]. injection E as <-. split; [right; reflexivity|split; reflexivity]. }
    destruct X as ([X|X] & Y1 & Y2).
    + destruct (IH _ _ X R). split; congruence.
    + destruct evs as [|ev' evs]; cbn [rrun] in R.
      * inversion R; subst. auto.
      * unfold rstep in R. destruct (r_crash s1); [discriminate|]. rewrite X in R. discriminate.
Qed.

Theorem C28_no_stall_refuted : exists c ms evs s,
  cfg_ok c /\ fits c ms /\ rrun c evs (rinit (wires (rx_msg c) ms)) = SOk s
  /\ r_est s = true /\ r_up s = true /\ r_term s = false /\ r_timer s = false /\ r_rd s = false
  /\ fst (seg_pop (seg_size (r_buf s)) (r_buf s)) = wires (rx_msg c) ms /\ length ms = 1%nat
  /\ forall evs' s', rrun c evs' s = SOk s' -> r_in s' = [].
Proof.
  exists (ex_cfg 9 1 16), (map empty_frame [5]), [EvEstablish; EvRead [KData 9] []]. eexists.
  split; [apply ex_cfg_ok; reflexivity|]. split; [apply empty_fits; repeat constructor|].
  split; [vm_compute; reflexivity|]. do 5 (split; [reflexivity|]). split; [vm_compute; reflexivity|]. split; [reflexivity|].
  intros evs' s' R. apply stalled_forever in R; [|repeat split]. destruct R as (R & _). rewrite R. reflexivity.
Qed.
Print Assumptions C28_no_stall_refuted.

Example C28_nonvacuous : exists s,
  rrun (ex_cfg 4 3 16) [EvEstablish; EvRead [KData 4; KData 2] []; EvSendIdle] (rinit (repeat x01 40)) = SOk s
  /\ r_est s = true /\ r_up s = true /\ r_crash s = false /\ r_term s = false /\ r_rd s = true.
Proof. eexists. split; [vm_compute; reflexivity|]. repeat split; reflexivity. Qed.

(** ** C29 *)

(** If the close is seen by a read callback that receives nothing before it,
    on a connection at rest, then every completely received message has been
    handed over. *)
Theorem C29_close_partial : forall c ms stream more evs s k ks qs s',
  cfg_ok c -> fits c ms -> Forall (fun f => intact (rx_msg c) f = true) ms ->
  stream ++ more = wires (rx_msg c) ms ->
  rrun c evs (rinit stream) = SOk s -> at_rest s -> (k = KEof \/ k = KErr) ->
  rstep c (EvRead (k :: ks) qs) s = SOk s' -> seg_len (r_buf s) < rx_maxbuf c ->
  r_term s' = true /\ exists got n, stream = got ++ r_net s' /\ complete_in c ms got n /\ carry_all (r_in s') (firstn n ms).
Proof.
  intros c ms stream more evs s k ks qs s' C F INT E R AR K ST SP.
  destruct (C23_framing_partial c ms stream more evs s C F INT E R) as (_ & CR & got & Eg & n & Ca & _ & Co).
  unfold rstep in ST. rewrite CR in ST. destruct (r_up s); [|discriminate]. cbn [negb] in ST. unfold when in ST.
  destruct (r_rd s); [|discriminate]. unfold recv_data in ST. cbn [recv_loop] in ST.
  replace (rx_maxbuf c <=? seg_len (r_buf s)) with false in ST by lia.
  assert (X : s' = set_term s) by (destruct K as [-> | ->]; cbn [guarded] in ST; congruence).
  subst s'. split; [reflexivity|]. exists got, n. split; [exact Eg|]. split; [apply Co; exact AR|exact Ca].
Qed.
Print Assumptions C29_close_partial.

(** The full claim fails: bytes read by the same callback that then sees the
    close are never parsed. *)
Theorem C29_close_refuted : exists c ms evs s,
  cfg_ok c /\ fits c ms /\ Forall (fun f => intact (rx_msg c) f = true) ms
  /\ rrun c evs (rinit (wires (rx_msg c) ms)) = SOk s
  /\ r_up s = false /\ r_net s = [] /\ r_in s = [] /\ length ms = 2%nat
  /\ seg_len (r_buf s) < rx_maxbuf c.
Proof.
  exists (ex_cfg 9 64 16), (map empty_frame [5; 6]), [EvEstablish; EvRead [KData 9; KData 9; KEof] []; EvTermTask]. eexists.
  split; [apply ex_cfg_ok; reflexivity|]. split; [apply empty_fits; repeat constructor|].
  split; [apply empty_intact|]. split; [vm_compute; reflexivity|]. do 4 (split; [reflexivity|]). vm_compute. reflexivity.
Qed.
Print Assumptions C29_close_refuted.

Example C29_nonvacuous :
  let c := ex_cfg 9 64 16 in let ms := map empty_frame [5; 6] in
  exists s s', rrun c [EvEstablish; EvRead [KData 9; KData 5] []] (rinit (wires ex_msg ms)) = SOk s
  /\ at_rest s /\ rstep c (EvRead [KEof] []) s = SOk s' /\ seg_len (r_buf s) < rx_maxbuf c /\ length (r_in s') = 1%nat.
Proof.
  cbv zeta. eexists. eexists. split; [vm_compute; reflexivity|]. split; [repeat split|]. split; [vm_compute; reflexivity|].
  split; [vm_compute; reflexivity|reflexivity].
Qed.

(** ** C30 *)

(** No input, chunking, refusal pattern or event order leads to undefined
    behaviour, and an exception can only be the oversize error. *)
Theorem C30_malformed_input_partial : forall c stream evs,
  cfg_ok c -> rrun c evs (rinit stream) <> SUndef
  /\ forall s, rrun c evs (rinit stream) = SOk s -> r_crash s = true -> found_oversized c stream.
Proof.
  intros c stream evs C.
  pose proof (rrun_inv c stream evs C (rinit stream) (inv_init c stream)) as I.
  split; [intros E; rewrite E in I; exact I|]. intros s R CR. rewrite R in I. apply (i_over _ _ _ I). right. exact CR.
Qed.
Print Assumptions C30_malformed_input_partial.

Lemma parse_loop_accepts c fuel : forall qs s, Forall (eq true) qs ->
  match parse_loop c fuel qs s with
  | PSleep _ _ => False
  | PBreak qs' s' => Forall (eq true) qs' /\ r_sleep s' = r_sleep s /\ r_timer s' = r_timer s /\ r_crash s' = r_crash s
  | PThrow _ s' => r_sleep s' = r_sleep s /\ r_timer s' = r_timer s /\ r_crash s' = r_crash s
  | PUndef => True
  end.
Proof.
  induction fuel as [|f IH]; intros qs s Q; cbn [parse_loop]; [exact Logic.I|].
  assert (PS : forall s, match payload_step c (parse_loop c f) qs s with
  | PSleep _ _ => False
  | PBreak qs' s' => Forall (eq true) qs' /\ r_sleep s' = r_sleep s /\ r_timer s' = r_timer s /\ r_crash s' = r_crash s
  | PThrow _ s' => r_sleep s' = r_sleep s /\ r_timer s' = r_timer s /\ r_crash s' = r_crash s
  | PUndef => True
  end).
  { clear s. intros s. unfold payload_step. cbv zeta. destruct (_ <? _); [auto|].
    destruct (seg_pop _ _) as [p b]. destruct (if mc_ck _ then _ else _) as [v m|e m|]; [destruct v|rcbn; auto|exact Logic.I].
    - destruct qs as [|q qs].
      + specialize (IH [] (add_in (r_msg (set_msg (msg_set_payload p (r_msg s)) false (set_buf b s))) (set_msg (msg_set_payload p (r_msg s)) false (set_buf b s))) Q).
        destruct (parse_loop c f _ _); auto.
      + inversion Q; subst.
        match goal with |- match parse_loop c f qs ?x with _ => _ end => specialize (IH qs x); destruct (parse_loop c f qs x); auto end.
    - rcbn. auto. }
  destruct (r_payload s); [apply PS|]. destruct (_ <? _); [auto|]. destruct (seg_pop _ _) as [hb b].
  destruct (msg_parse_header _ _ _) as [m d|e d|]; [|rcbn; auto|exact Logic.I]. cbv zeta.
  destruct (_ <? _); [rcbn; auto|].
  specialize (PS (set_msg m true (set_msg m false (set_buf b s)))). destruct (payload_step _ _ _ _); auto.
Qed.

(** If the incoming queue never refuses a message, no exception ever leaves a
    callback. *)
Theorem C30_no_crash_without_refusal : forall c stream evs s,
  Forall (fun ev => match ev with EvRead _ qs | EvTimer _ qs => Forall (eq true) qs | _ => True end) evs ->
  rrun c evs (rinit stream) = SOk s -> r_crash s = false.
Proof.
  intros c stream evs s F R.
  assert (RL : forall ks s, r_sleep (lstate (recv_loop c ks s)) = r_sleep s /\ r_timer (lstate (recv_loop c ks s)) = r_timer s
             /\ r_crash (lstate (recv_loop c ks s)) = r_crash s).
  { clear. induction ks as [|k ks IH]; intros s; cbn [recv_loop]; destruct (_ <=? _); auto.
    destruct k as [n| | |]; auto. cbv zeta. destruct (_ =? 0); auto. destruct (_ =? rx_chunk c); auto.
    match goal with |- context [recv_loop c ks ?x] => destruct (IH x) as (A & B & D) end. rewrite A, B, D. auto. }
  assert (OR : forall d ks qs s, Forall (eq true) qs -> r_timer s = false -> r_sleep s = false -> r_crash s = false ->
     match on_read c d ks qs s with ORet s' | OThrow _ s' => r_timer s' = false /\ r_sleep s' = false /\ r_crash s' = false | OUndef => True end).
  { clear -RL. induction d as [|d IH]; intros ks qs s Q T SL CR; rewrite on_read_unfold, SL;
      pose proof (parse_loop_accepts c (N.to_nat (seg_size (r_buf s)) + 2) qs s Q) as P;
      destruct (parse_loop c _ qs s) as [qs' s'|qs' s'|e s'|]; try contradiction; try exact Logic.I.
    - destruct P as (A & B & D & E). destruct (_ && _); [exact Logic.I|]. repeat split; congruence.
    - destruct P as (B & D & E). repeat split; congruence.
    - destruct P as (A & B & D & E). destruct (_ && _); [|repeat split; congruence].
      unfold recv_data. specialize (RL ks (set_mask true (negb (r_ready_send s')) s')).
      destruct (recv_loop c ks _) as [k2 s2|k2 s2|k2 s2]; cbn [lstate] in RL; cbn [r_sleep r_timer r_crash set_mask] in RL; destruct RL as (X1 & X2 & X3); rcbn.
      + repeat split; congruence.
      + apply IH; rcbn; auto; congruence.
      + repeat split; congruence.
    - destruct P as (B & D & E). repeat split; congruence. }
  assert (H : forall evs s0, Forall (fun ev => match ev with EvRead _ qs | EvTimer _ qs => Forall (eq true) qs | _ => True end) evs ->
     r_timer s0 = false -> r_sleep s0 = false -> r_crash s0 = false -> forall s, rrun c evs s0 = SOk s -> r_crash s = false).
  { clear -RL OR. induction evs as [|ev evs IH]; intros s0 F T SL CR s R; cbn [rrun] in R.
    - congruence.
    - inversion F; subst. destruct (rstep c ev s0) as [s1| |] eqn:E; try discriminate.
      assert (X : r_timer s1 = false /\ r_sleep s1 = false /\ r_crash s1 = false).
      { unfold rstep in E. rewrite CR in E. destruct (r_up s0); [|discriminate]. cbn [negb] in E. destruct ev; unfold when in E.
        - destruct (negb _); [|discriminate]. injection E as <-. auto.
        - destruct (r_rd s0); [|discriminate]. unfold recv_data in E. specialize (RL ks s0).
          destruct (recv_loop c ks s0) as [k2 s2|k2 s2|k2 s2]; cbn [lstate] in RL; destruct RL as (X1 & X2 & X3).
          + cbn [guarded] in E. injection E as <-. rcbn. repeat split; congruence.
          + pose proof (OR 1%nat k2 qs (set_ready_recv false s2)) as P. specialize (P ltac:(assumption) ltac:(rcbn; congruence) ltac:(rcbn; congruence) ltac:(rcbn; congruence)).
            destruct (on_read c 1 k2 qs (set_ready_recv false s2)) as [s3|e s3|]; cbn [guarded] in E; try discriminate; injection E as <-; rcbn; exact P.
          + cbn [guarded] in E. injection E as <-. rcbn. repeat split; congruence.
        - destruct (_ || _); [|discriminate]. injection E as <-. auto.
        - rewrite T in E. discriminate.
        - destruct (r_est s0); [|discriminate]. injection E as <-. auto.
        - destruct (r_est s0); [|discriminate]. injection E as <-. auto.
        - destruct (r_est s0); [|discriminate]. injection E as <-. auto.
        - injection E as <-. auto.
        - destruct (r_term s0); [|discriminate]. injection E as <-. auto. }
      destruct X as (X1 & X2 & X3). eapply IH; eauto. }
  apply (H evs (rinit stream)); auto.
Qed.
Print Assumptions C30_no_crash_without_refusal.

(** The full claim fails: when the message before an oversize header was
    refused by the queue, the oversize exception is thrown inside the retry
    timer's callback, where nothing catches it. *)
Theorem C30_malformed_input_refuted : exists c stream evs s,
  cfg_ok c /\ rrun c evs (rinit stream) = SOk s /\ r_crash s = true.
Proof.
  exists (ex_cfg 64 4 4), (wires ex_msg [empty_frame 1; mkFrame 0 1 0 [x00; x00; x00; x00; x09]]),
    [EvEstablish; EvRead [KData 30] [false]; EvTimer [] [true]]. eexists.
  split; [apply ex_cfg_ok; reflexivity|]. split; [vm_compute; reflexivity|reflexivity].
Qed.
Print Assumptions C30_malformed_input_refuted.

(** ** C31 *)

(** A delivered message carries the magic found on the wire, so a handler can
    tell; the network itself does not look at it. *)
Theorem C31_magic_partial : forall c ms stream more evs s,
  cfg_ok c -> fits c ms -> Forall (fun f => intact (rx_msg c) f = true) ms ->
  stream ++ more = wires (rx_msg c) ms -> rrun c evs (rinit stream) = SOk s ->
  Forall2 (fun m f => m_magic m = f_magic f) (r_in s) (firstn (length (r_in s)) ms).
Proof.
  intros c ms stream more evs s C F INT E R.
  destruct (C23_framing_partial c ms stream more evs s C F INT E R) as (_ & _ & got & _ & k & Ca & _).
  assert (L : length (r_in s) = length (firstn k ms)) by (apply (Forall2_len carries); exact Ca).
  assert (X : firstn (length (r_in s)) ms = firstn k ms).
  { rewrite L, firstn_length. destruct (Nat.le_gt_cases k (length ms)) as [Q|Q].
    - rewrite Nat.min_l by lia. reflexivity.
    - rewrite Nat.min_r by lia. rewrite firstn_all, firstn_all2 by lia. reflexivity. }
  rewrite X. apply (Forall2_weaken carries); [|exact Ca]. intros m f (H & _). exact H.
Qed.
Print Assumptions C31_magic_partial.

(** The full claim fails: messages of two different magics are both delivered,
    whatever the network's own magic is. *)
Theorem C31_magic_refuted : exists c evs s f g,
  cfg_ok c /\ f_magic f <> f_magic g /\ rrun c evs (rinit (wires (rx_msg c) [f; g])) = SOk s
  /\ carry_all (r_in s) [f; g].
Proof.
  exists (ex_cfg 64 4 16), [EvEstablish; EvRead [KData 64] []]. eexists. exists (mkFrame 1 5 0 [x61]), (mkFrame 2 5 0 []).
  split; [apply ex_cfg_ok; reflexivity|]. split; [discriminate|]. split; [vm_compute; reflexivity|repeat constructor].
Qed.
Print Assumptions C31_magic_refuted.

(** Lemmas about the receive side. *)
From Coq Require Import Arith NArith ZArith List Bool Lia ZifyBool ZifyN ZifyNat.
From Coq.Init Require Import Byte.
From Verif Require Import Base StreamModel StreamSpec StreamProofs MsgModel MsgProps SegModel SegProps RecvModel RecvSpec.
Import ListNotations.
Local Open Scope N_scope.

(** ** Frames *)

Definition header_bytes (c : msg_cfg) (m : msg) : bytes :=
  le_bytes 4 (m_magic m) ++ native_bytes (mc_host c) (mc_ow c) (m_opcode m)
  ++ le_bytes 4 (m_length m) ++ (if mc_ck c then le_bytes 4 (m_checksum m) else []).
Definition header_ok (c : msg_cfg) (m : msg) : Prop :=
  m_magic m < 2 ^ 32 /\ m_opcode m < word_mod (mc_ow c) /\ m_length m < 2 ^ 32
  /\ m_checksum m < 2 ^ 32 /\ (mc_ck c = false -> m_checksum m = 0).

Lemma header_bytes_len c m : lenN (header_bytes c m) = header_size c.
Proof.
  unfold header_bytes, header_size, lenN. rewrite !app_length, !le_bytes_length, native_bytes_length.
  destruct (mc_ck c); rewrite ?le_bytes_length; simpl length; lia.
Qed.
Lemma header_size_pos c : 8 <= header_size c.
Proof. unfold header_size. lia. Qed.

Lemma wire_split c f : wire c f = header_bytes c (mkMsg (f_magic f) (f_opcode f) (lenN (f_payload f)) (f_check f) [] true) ++ f_payload f.
Proof. unfold wire, header_bytes. cbn [m_magic m_opcode m_length m_checksum]. rewrite <- !app_assoc. reflexivity. Qed.
Lemma wire_len c f : lenN (wire c f) = header_size c + lenN (f_payload f).
Proof. rewrite wire_split, lenN_app, header_bytes_len. reflexivity. Qed.

Lemma app_len_inj {A} (a b x y : list A) : length a = length b -> a ++ x = b ++ y -> a = b /\ x = y.
Proof.
  revert b. induction a as [|p a IH]; intros [|q b] L E; try discriminate; auto.
  inversion E; subst. inversion L. destruct (IH b) as (-> & ->); auto.
Qed.

Lemma header_inj c m m' x y : header_ok c m -> header_ok c m' ->
  header_bytes c m ++ x = header_bytes c m' ++ y ->
  m_magic m = m_magic m' /\ m_opcode m = m_opcode m' /\ m_length m = m_length m' /\ m_checksum m = m_checksum m' /\ x = y.
Proof.
  intros (A1 & A2 & A3 & A4 & A5) (B1 & B2 & B3 & B4 & B5) E. unfold header_bytes in E. rewrite <- !app_assoc in E.
  apply app_len_inj in E; [|rewrite !le_bytes_length; reflexivity]. destruct E as (E1 & E).
  apply app_len_inj in E; [|rewrite !native_bytes_length; reflexivity]. destruct E as (E2 & E).
  apply app_len_inj in E; [|rewrite !le_bytes_length; reflexivity]. destruct E as (E3 & E).
  apply app_len_inj in E; [|destruct (mc_ck c); [rewrite !le_bytes_length|]; reflexivity]. destruct E as (E4 & E).
  assert (I : forall w a b, a < word_mod w -> b < word_mod w -> le_bytes w a = le_bytes w b -> a = b).
  { intros w a b Ha Hb Q. apply (f_equal le_word) in Q. rewrite !le_word_small in Q; auto. }
  assert (I2 : m_opcode m = m_opcode m').
  { apply (f_equal (native_word (mc_host c))) in E2. rewrite !native_word_bytes in E2.
    rewrite !N.mod_small in E2; auto. }
  split; [apply (I 4%nat); auto|]. split; [exact I2|]. split; [apply (I 4%nat); auto|]. split; [|exact E].
  destruct (mc_ck c); [apply (I 4%nat); auto|]. rewrite A5, B5; auto.
Qed.

Lemma frame_inj c f f' x y : frame_ok c f -> frame_ok c f' -> wire c f ++ x = wire c f' ++ y -> f = f' /\ x = y.
Proof.
  intros (A1 & A2 & A3 & A4 & A5) (B1 & B2 & B3 & B4 & B5) E. rewrite !wire_split, <- !app_assoc in E.
  apply header_inj in E; [|repeat split; assumption|repeat split; assumption].
  cbn [m_magic m_opcode m_length m_checksum] in E. destruct E as (E1 & E2 & E3 & E4 & E5).
  apply app_len_inj in E5; [|unfold lenN in E3; lia]. destruct E5 as (E5 & E6).
  split; [|exact E6]. destruct f, f'; cbn in *. congruence.
Qed.

Lemma wires_app c a b : wires c (a ++ b) = wires c a ++ wires c b.
Proof. apply flat_map_app. Qed.

Lemma wire_nonempty c f x : wire c f ++ x <> [].
Proof.
  intros E. apply (f_equal lenN) in E. rewrite lenN_app, wire_len in E. change (lenN []) with 0 in E.
  pose proof (header_size_pos c). lia.
Qed.

Lemma wires_prefix c fs : forall ms rest more, Forall (frame_ok c) fs -> Forall (frame_ok c) ms ->
  wires c fs ++ rest ++ more = wires c ms ->
  exists tl, ms = fs ++ tl /\ rest ++ more = wires c tl.
Proof.
  induction fs as [|f fs IH]; intros ms rest more F M E.
  - exists ms. split; [reflexivity|exact E].
  - inversion F; subst. destruct ms as [|g ms].
    + exfalso. cbn [wires flat_map] in E. rewrite <- app_assoc in E. apply wire_nonempty in E. exact E.
    + inversion M; subst. cbn [wires flat_map] in E. rewrite <- app_assoc in E.
      apply frame_inj in E; auto. destruct E as (-> & E).
      destruct (IH ms rest more) as (tl & -> & E'); auto. exists tl. split; [reflexivity|exact E'].
Qed.

(** ** Header parsing is total on header_size bytes *)

Definition msg_ok (c : rcfg) := N.of_nat (mc_ow (rx_msg c)) < 2 ^ 32.

Lemma parse_header_total c hb : N.of_nat (mc_ow c) < 2 ^ 32 -> lenN hb = header_size c ->
  exists m s', msg_parse_header c 0 (ds_new hb) = Ret m s' /\ hb = header_bytes c m /\ header_ok c m
    /\ m_payload m = [] /\ m_no_payload m = true.
Proof.
  intros W L. unfold header_size in L.
  assert (exists fm fo fl fk, hb = fm ++ fo ++ fl ++ fk /\ length fm = 4%nat /\ length fo = mc_ow c
    /\ length fl = 4%nat /\ length fk = (if mc_ck c then 4 else 0)%nat) as (fm & fo & fl & fk & -> & Lm & Lo & Ll & Lk).
  { exists (firstn 4 hb), (firstn (mc_ow c) (skipn 4 hb)), (firstn 4 (skipn (mc_ow c) (skipn 4 hb))),
      (skipn 4 (skipn (mc_ow c) (skipn 4 hb))).
    rewrite !firstn_skipn. split; [reflexivity|]. rewrite !firstn_length, !skipn_length. unfold lenN in L.
    destruct (mc_ck c); lia. }
  destruct (parse_header_ok c 0 fm fo fl fk (ds_new (fm ++ fo ++ fl ++ fk)) []) as (s' & E & U); auto.
  { rewrite app_nil_r. apply unread_new. rewrite L. destruct (mc_ck c); lia. }
  eexists. exists s'. split; [exact E|]. unfold header_bytes, header_ok. cbn [m_magic m_opcode m_length m_checksum m_payload m_no_payload].
  assert (B4 : forall b : bytes, length b = 4%nat -> le_word b < 2 ^ 32).
  { intros b Hb. pose proof (le_word_lt b) as Q. rewrite Hb in Q. exact Q. }
  assert (R4 : forall b : bytes, length b = 4%nat -> le_bytes 4 (le_word b) = b).
  { intros b Hb. rewrite <- Hb. apply le_bytes_le_word. }
  split.
  - rewrite (R4 fm Lm), (R4 fl Ll). rewrite <- Lo at 1. rewrite native_bytes_word.
    destruct (mc_ck c); [rewrite (R4 fk Lk); reflexivity|]. destruct fk; [reflexivity|discriminate].
  - split; [|auto]. split; [auto|]. split; [rewrite <- Lo; apply native_word_lt|]. split; [auto|].
    destruct (mc_ck c); split; auto; try discriminate. lia.
Qed.

(** ** The receive buffer *)

Definition buf_ok (c : rcfg) (b : seg) : Prop :=
  seg_ok b /\ Forall (fun e => lenN (e_data e) <= rx_chunk c) (sg_list b) /\ seg_len b <= rx_maxbuf c.
Definition cfg_ok (c : rcfg) : Prop :=
  N.of_nat (mc_ow (rx_msg c)) < 2 ^ 32 /\ 0 < rx_chunk c /\ rx_maxbuf c * rx_chunk c < 2 ^ 64.

Lemma pop_loop_keeps (P : bytes -> Prop) es : forall len bs es',
  Forall (fun e => P (e_data e)) es -> pop_loop len es = (bs, es') ->
  Forall (fun e => P (e_data e)) es' /\ (length es' <= length es)%nat.
Proof.
  induction es as [|e r IH]; intros len bs es' F E; cbn [pop_loop] in E.
  - inversion E; subst. auto.
  - inversion F; subst. destruct (len =? 0); [inversion E; subst; auto|]. cbv zeta in E.
    destruct (_ =? _) in E.
    + destruct (pop_loop _ r) as [b1 e1] eqn:Q in E. inversion E; subst. destruct (IH _ _ _ H2 Q). split; auto. simpl; lia.
    + inversion E; subst. split; [constructor; auto|simpl; lia].
Qed.

Lemma seg_pop_ok c n b : buf_ok c b -> n <= seg_size b ->
  exists b', seg_pop n b = (takeN n (seg_bytes b), b') /\ buf_ok c b' /\ seg_bytes b' = dropN n (seg_bytes b)
    /\ seg_size b' = seg_size b - n.
Proof.
  intros ((F & Z & B) & D & L) Hn. unfold seg_pop, seg_size in *.
  destruct (pop_loop n (sg_list b)) as [bs es] eqn:P.
  destruct (pop_loop_ok _ _ _ _ F P) as (-> & Er & F').
  destruct (pop_loop_keeps (fun d => lenN d <= rx_chunk c) _ _ _ _ D P) as (D' & L').
  fold (seg_bytes b). eexists. split; [reflexivity|].
  assert (LT : lenN (takeN n (seg_bytes b)) = n) by (rewrite lenN_takeN; lia).
  assert (SB : seg_bytes (mkSeg es (szsub (sg_size b) (lenN (takeN n (seg_bytes b))))) = dropN n (seg_bytes b)).
  { unfold seg_bytes. cbn [sg_list]. rewrite Er. reflexivity. }
  split.
  - split; [|split; [exact D'|]].
    + split; [exact F'|]. rewrite SB. cbn [sg_size]. rewrite LT, lenN_dropN. rewrite szsub_small; [|lia|unfold size_max1 in *; lia].
      split; lia.
    + unfold seg_len, lenN in *. cbn [sg_list]. lia.
  - split; [exact SB|]. cbn [sg_size]. rewrite LT. rewrite szsub_small; [reflexivity|lia|lia].
Qed.

Lemma entries_bytes k es : Forall (fun e => lenN (e_data e) <= k) es ->
  lenN (flat_map entry_rest es) <= lenN es * k.
Proof.
  induction 1 as [|e es H F IH]; [apply N.le_0_l|]. cbn [flat_map].
  rewrite lenN_app.
  assert (lenN (entry_rest e) <= k) by (unfold entry_rest; rewrite lenN_dropN; lia).
  replace (lenN (e :: es)) with (1 + lenN es) by (unfold lenN; simpl length; lia).
  rewrite N.mul_add_distr_r. lia.
Qed.

Lemma seg_push_ok c d b : cfg_ok c -> buf_ok c b -> seg_len b < rx_maxbuf c -> lenN d <= rx_chunk c ->
  buf_ok c (seg_push d b) /\ seg_bytes (seg_push d b) = seg_bytes b ++ d.
Proof.
  intros (_ & _ & C) ((F & Z & B) & D & L) Lt Ld.
  assert (SB : seg_bytes (seg_push d b) = seg_bytes b ++ d).
  { unfold seg_bytes, seg_push. cbn [sg_list]. rewrite flat_map_app. cbn [flat_map]. rewrite app_nil_r. reflexivity. }
  assert (F2 : Forall (fun e => lenN (e_data e) <= rx_chunk c) (sg_list (seg_push d b))).
  { unfold seg_push. cbn [sg_list]. apply Forall_app. split; auto. }
  assert (LL : seg_len (seg_push d b) = seg_len b + 1).
  { unfold seg_len, seg_push. cbn [sg_list]. rewrite lenN_app. reflexivity. }
  assert (BB : lenN (seg_bytes b ++ d) < size_max1).
  { rewrite <- SB. pose proof (entries_bytes _ _ F2) as Q. fold (seg_bytes (seg_push d b)) in Q.
    fold (seg_len (seg_push d b)) in Q. rewrite LL in Q.
    assert ((seg_len b + 1) * rx_chunk c <= rx_maxbuf c * rx_chunk c) by (apply N.mul_le_mono_r; lia).
    unfold size_max1. lia. }
  split; [|exact SB]. split; [|split; [exact F2|lia]].
  split; [|split].
  - unfold seg_push. cbn [sg_list]. apply Forall_app. split; auto. constructor; auto. apply N.le_0_l.
  - rewrite SB. unfold seg_push. cbn [sg_size]. rewrite lenN_app in *. rewrite szadd_small; lia.
  - rewrite SB. exact BB.
Qed.

(** ** Invariants of the parser *)

Definition pending (s : rconn) : list msg := if r_sleep s then [r_msg s] else [].
Definition msg_small (c : rcfg) (m : msg) : Prop := lenN (m_payload m) <= rx_maxmsg c.

Record G (c : rcfg) (s : rconn) : Prop := mkG {
  g_buf : buf_ok c (r_buf s);
  g_head : r_payload s = true -> r_sleep s = false /\ header_ok (rx_msg c) (r_msg s) /\ m_length (r_msg s) <= rx_maxmsg c;
  g_small : Forall (msg_small c) (r_in s ++ pending s) }.

(** A frame the configuration can represent and does not reject for its size. *)
Definition frame_fit (c : rcfg) (f : frame) : Prop :=
  frame_ok (rx_msg c) f /\ lenN (f_payload f) <= rx_maxmsg c.

Lemma frame_fit_ok c fs : Forall (frame_fit c) fs -> Forall (frame_ok (rx_msg c)) fs.
Proof. induction 1 as [|f l (H & _)]; constructor; auto. Qed.

(** [fs]: the frames consumed so far. *)
Record Frm (c : rcfg) (stream : bytes) (fs : list frame) (s : rconn) : Prop := mkFrm {
  fr_stream : stream = wires (rx_msg c) fs
     ++ (if r_payload s then header_bytes (rx_msg c) (r_msg s) else []) ++ seg_bytes (r_buf s) ++ r_net s;
  fr_ok : Forall (frame_fit c) fs;
  fr_in : carry_all (r_in s ++ pending s) (filter (intact (rx_msg c)) fs) }.

(** No complete frame is left in the buffer. *)
Definition drained (c : rcfg) (s : rconn) : Prop :=
  seg_size (r_buf s) < (if r_payload s then m_length (r_msg s) else header_size (rx_msg c)).

Definition same_ctl (s s' : rconn) : Prop :=
  r_ready_recv s' = r_ready_recv s /\ r_ready_send s' = r_ready_send s /\ r_rd s' = r_rd s /\ r_wr s' = r_wr s
  /\ r_est s' = r_est s /\ r_up s' = r_up s /\ r_term s' = r_term s /\ r_errs s' = r_errs s
  /\ r_crash s' = r_crash s /\ r_net s' = r_net s.

Lemma same_ctl_refl s : same_ctl s s.
Proof. repeat split. Qed.
Lemma same_ctl_trans a b d : same_ctl a b -> same_ctl b d -> same_ctl a d.
Proof.
  intros (A1&A2&A3&A4&A5&A6&A7&A8&A9&A10) (B1&B2&B3&B4&B5&B6&B7&B8&B9&B10).
  repeat split; congruence.
Qed.

(** Outcome of the parsing loop from a state [s] whose consumed frames are
    [fs]. *)
Definition parse_post (c : rcfg) (s : rconn) (r : pres) : Prop :=
  match r with
  | PUndef => False
  | PBreak _ s' => G c s' /\ same_ctl s s' /\ r_sleep s' = false /\ r_timer s' = r_timer s
      /\ (exists l, r_in s' = r_in s ++ l)
      /\ forall stream fs, Frm c stream fs s -> exists fs', Frm c stream (fs ++ fs') s'
           /\ (drained c s' \/ exists f, In f fs' /\ intact (rx_msg c) f = false)
  | PSleep _ s' => G c s' /\ same_ctl s s' /\ r_sleep s' = true /\ r_timer s' = true /\ r_payload s' = false
      /\ (exists l, r_in s' = r_in s ++ l)
      /\ forall stream fs, Frm c stream fs s -> exists fs', Frm c stream (fs ++ fs') s'
  | PThrow e s' => e = oversized /\ G c s' /\ same_ctl s s' /\ r_sleep s' = false /\ r_timer s' = r_timer s
      /\ r_payload s' = false
      /\ (exists l, r_in s' = r_in s ++ l)
      /\ forall stream fs, Frm c stream fs s -> exists fs' m rest, 
           Forall (frame_fit c) (fs ++ fs')
           /\ carry_all (r_in s') (filter (intact (rx_msg c)) (fs ++ fs'))
           /\ stream = wires (rx_msg c) (fs ++ fs') ++ header_bytes (rx_msg c) m ++ rest
           /\ rest = seg_bytes (r_buf s') ++ r_net s'
           /\ header_ok (rx_msg c) m /\ rx_maxmsg c < m_length m
  end.

Definition loop_ok (c : rcfg) (n : N) (k : list bool -> rconn -> pres) : Prop :=
  forall qs s, seg_size (r_buf s) <= n -> r_payload s = false -> r_sleep s = false -> G c s -> parse_post c s (k qs s).

Lemma parse_post_trans c s s1 r fs1 :
  same_ctl s s1 -> r_timer s1 = r_timer s -> (exists l, r_in s1 = r_in s ++ l) ->
  (forall stream fs, Frm c stream fs s -> Frm c stream (fs ++ fs1) s1) ->
  parse_post c s1 r -> parse_post c s r.
Proof.
  intros SC T (l & L) Fm P. destruct r as [qs s'|qs s'|e s'|]; cbn [parse_post] in *; auto.
  - destruct P as (A & B & C & D & (l' & E) & H). split; [exact A|]. split; [eapply same_ctl_trans; eauto|].
    split; [exact C|]. split; [congruence|]. split; [exists (l ++ l'); rewrite E, L, app_assoc; reflexivity|].
    intros stream fs F0. destruct (H stream (fs ++ fs1) (Fm _ _ F0)) as (fs' & F1 & X).
    exists (fs1 ++ fs'). rewrite app_assoc. split; [exact F1|].
    destruct X as [X|(f & I & X)]; [left; exact X|right; exists f; split; [apply in_or_app; right; exact I|exact X]].
  - destruct P as (A & B & C & D & D' & (l' & E) & H). split; [exact A|]. split; [eapply same_ctl_trans; eauto|].
    split; [exact C|]. split; [exact D|]. split; [exact D'|]. split; [exists (l ++ l'); rewrite E, L, app_assoc; reflexivity|].
    intros stream fs F0. destruct (H stream (fs ++ fs1) (Fm _ _ F0)) as (fs' & F1).
    exists (fs1 ++ fs'). rewrite app_assoc. exact F1.
  - destruct P as (A0 & A & B & C & D & D' & (l' & E) & H). split; [exact A0|]. split; [exact A|]. split; [eapply same_ctl_trans; eauto|].
    split; [exact C|]. split; [congruence|]. split; [exact D'|]. split; [exists (l ++ l'); rewrite E, L, app_assoc; reflexivity|].
    intros stream fs F0. destruct (H stream (fs ++ fs1) (Fm _ _ F0)) as (fs' & m & rest & F1).
    exists (fs1 ++ fs'), m, rest. rewrite app_assoc. exact F1.
Qed.

Lemma payload_step_ok c k qs s n : cfg_ok c -> r_payload s = true -> G c s ->
  seg_size (r_buf s) <= n -> loop_ok c n k -> parse_post c s (payload_step c k qs s).
Proof.
  intros C P g Hn K. destruct g as [gb gh gs]. destruct (gh P) as (SL & HO & LM). clear gh.
  unfold payload_step. cbv zeta.
  destruct (N.ltb_spec (seg_size (r_buf s)) (m_length (r_msg s))) as [Lt|Ge].
  { cbn [parse_post]. split; [constructor; auto|]. split; [apply same_ctl_refl|]. split; [exact SL|]. split; [reflexivity|].
    split; [exists []; rewrite app_nil_r; reflexivity|].
    intros stream fs F. exists []. rewrite app_nil_r. split; [exact F|]. left. unfold drained. rewrite P. exact Lt. }
  destruct (seg_pop_ok c _ _ gb Ge) as (b' & -> & B' & SB & SZ).
  set (len := m_length (r_msg s)) in *. set (p := takeN len (seg_bytes (r_buf s))).
  set (m' := msg_set_payload p (r_msg s)).
  assert (Lp : lenN p = len).
  { unfold p. rewrite lenN_takeN. destruct gb as ((_ & Z & _) & _). unfold seg_size in Ge. lia. }
  destruct HO as (H1 & H2 & H3 & H4 & H5). fold len in H3.
  set (f := mkFrame (m_magic (r_msg s)) (m_opcode (r_msg s)) (m_checksum (r_msg s)) p).
  assert (FO : frame_fit c f).
  { split; [repeat split; cbn; try assumption; rewrite Lp; assumption|]. cbn [f_payload f]. rewrite Lp. exact LM. }
  assert (CA : carries m' f).
  { unfold m', carries, msg_set_payload. cbn. repeat split. rewrite Lp. apply N.mod_small. exact H3. }
  assert (WF : forall rest, header_bytes (rx_msg c) (r_msg s) ++ seg_bytes (r_buf s) ++ rest
               = wire (rx_msg c) f ++ seg_bytes b' ++ rest).
  { intros rest. rewrite wire_split. cbn [f_magic f_opcode f_check f_payload f]. rewrite Lp.
    rewrite <- !app_assoc. unfold header_bytes at 1 2. cbn [m_magic m_opcode m_length m_checksum]. f_equal.
    rewrite SB. unfold p. rewrite app_assoc. rewrite takeN_dropN. reflexivity. }
  assert (NF : forall stream fs, Frm c stream fs s -> stream = wires (rx_msg c) (fs ++ [f]) ++ seg_bytes b' ++ r_net s
             /\ Forall (frame_fit c) (fs ++ [f])
             /\ carry_all (r_in s) (filter (intact (rx_msg c)) fs)).
  { intros stream fs [S1 S2 S3]. rewrite P in S1. split.
    - rewrite S1, wires_app, <- app_assoc. f_equal. cbn [wires flat_map]. rewrite app_nil_r. apply WF.
    - split; [apply Forall_app; auto|]. unfold pending in S3. rewrite SL, app_nil_r in S3. exact S3. }
  cbn [r_msg set_msg set_buf].
  assert (VR : (if mc_ck (rx_msg c) then msg_verify (rx_msg c) m' else Ret true m') = Ret (intact (rx_msg c) f) m').
  { unfold intact. destruct (mc_ck (rx_msg c)); [|reflexivity]. cbn [negb orb]. unfold msg_verify, msg_get_checksum, m', msg_set_payload.
    cbn. reflexivity. }
  rewrite VR.
  assert (SM : Forall (msg_small c) (r_in s ++ [m'])).
  { unfold pending in gs. rewrite SL, app_nil_r in gs. apply Forall_app. split; [exact gs|].
    constructor; [|constructor]. unfold msg_small, m', msg_set_payload. cbn. rewrite Lp. exact LM. }
  assert (SMin : Forall (msg_small c) (r_in s)) by (apply Forall_app in SM; tauto).
  destruct (intact (rx_msg c) f) eqn:INT.
  - destruct (match qs with [] => (true, []) | q :: r => (q, r) end) as [ok qs']. destruct ok.
    + (* accepted *)
      apply parse_post_trans with (fs1 := [f]) (s1 := add_in m' (set_msg m' false (set_buf b' s))).
      * repeat split.
      * reflexivity.
      * exists [m']. reflexivity.
      * intros stream fs F0. destruct (NF stream fs F0) as (E1 & E2 & E3). constructor.
        -- cbn. exact E1.
        -- exact E2.
        -- unfold pending. cbn. rewrite SL, app_nil_r, filter_app. apply Forall2_app; [exact E3|].
           cbn [filter]. rewrite INT. constructor; auto.
      * apply K; cbn; auto.
        -- lia.
        -- constructor; cbn; auto; try discriminate. unfold pending. cbn. rewrite SL, app_nil_r. exact SM.
    + (* refused *)
      cbn [parse_post]. split; [|split; [|split; [|split; [|split; [|split]]]]]; cbn; auto.
      * constructor; cbn; auto; discriminate.
      * repeat split.
      * exists []. rewrite app_nil_r. reflexivity.
      * intros stream fs F0. destruct (NF stream fs F0) as (E1 & E2 & E3). exists [f]. constructor; auto.
        unfold pending. cbn. rewrite filter_app. apply Forall2_app; [exact E3|].
        cbn [filter]. rewrite INT. constructor; auto.
  - (* damaged *)
    cbn [parse_post]. split; [|split; [|split; [|split; [|split]]]]; cbn; auto.
    * constructor; cbn; auto; try discriminate. unfold pending. cbn. rewrite SL, app_nil_r. exact SMin.
    * repeat split.
    * exists []. rewrite app_nil_r. reflexivity.
    * intros stream fs F0. destruct (NF stream fs F0) as (E1 & E2 & E3). exists [f]. split.
      -- constructor; auto. unfold pending. cbn. rewrite SL, app_nil_r, filter_app. cbn [filter]. rewrite INT, app_nil_r. exact E3.
      -- right. exists f. split; [left; reflexivity|exact INT].
Qed.

Lemma header_branch_ok c k qs s n : cfg_ok c -> r_payload s = false -> r_sleep s = false -> G c s ->
  seg_size (r_buf s) <= n + 8 -> loop_ok c n k ->
  parse_post c s
   (if seg_size (r_buf s) <? header_size (rx_msg c) then PBreak qs s
    else
      let '(hb, b) := seg_pop (header_size (rx_msg c)) (r_buf s) in
      match msg_parse_header (rx_msg c) 0 (ds_new hb) with
      | Ret m _ =>
        let s := set_msg m false (set_buf b s) in
        if rx_maxmsg c <? m_length m then PThrow oversized s
        else payload_step c k qs (set_msg m true s)
      | Exn e _ => PThrow e (set_buf b s)
      | Undef => PUndef
      end).
Proof.
  intros C P SL g Hn K. pose proof g as [gb gh gs]. clear gh.
  destruct (N.ltb_spec (seg_size (r_buf s)) (header_size (rx_msg c))) as [Lt|Ge].
  { cbn [parse_post]. split; [exact g|]. split; [apply same_ctl_refl|]. split; [exact SL|]. split; [reflexivity|].
    split; [exists []; rewrite app_nil_r; reflexivity|].
    intros stream fs F. exists []. rewrite app_nil_r. split; [exact F|]. left. unfold drained. rewrite P. exact Lt. }
  destruct (seg_pop_ok c _ _ gb Ge) as (b' & -> & B' & SB & SZ).
  set (hb := takeN (header_size (rx_msg c)) (seg_bytes (r_buf s))).
  assert (Lh : lenN hb = header_size (rx_msg c)).
  { unfold hb. rewrite lenN_takeN. destruct gb as ((_ & Z & _) & _). unfold seg_size in Ge. lia. }
  destruct (parse_header_total (rx_msg c) hb) as (m & s' & E & Hb & HO & Pm & NP); auto.
  { destruct C; assumption. }
  rewrite E. cbv zeta.
  assert (SE : seg_bytes (r_buf s) = header_bytes (rx_msg c) m ++ seg_bytes b').
  { rewrite SB, <- Hb. unfold hb. rewrite takeN_dropN. reflexivity. }
  pose proof (header_size_pos (rx_msg c)) as HP.
  assert (NF : forall stream fs, Frm c stream fs s ->
     stream = wires (rx_msg c) fs ++ header_bytes (rx_msg c) m ++ seg_bytes b' ++ r_net s).
  { intros stream fs [S1 S2 S3]. rewrite P in S1. rewrite S1, SE, <- app_assoc. reflexivity. }
  assert (SI : pending s = []) by (unfold pending; rewrite SL; reflexivity).
  destruct (N.ltb_spec (rx_maxmsg c) (m_length m)) as [Big|Fit].
  - cbn [parse_post]. split; [reflexivity|]. split; [|split; [|split; [|split; [|split; [|split]]]]]; cbn; auto.
    + constructor; cbn; auto; try discriminate. unfold pending in *. cbn. rewrite SL in *. exact gs.
    + repeat split.
    + exists []. rewrite app_nil_r. reflexivity.
    + intros stream fs F0. exists [], m, (seg_bytes b' ++ r_net s). rewrite app_nil_r.
      pose proof F0 as [S1 S2 S3]. rewrite SI, app_nil_r in S3.
      split; [exact S2|]. split; [exact S3|]. split; [apply NF; exact F0|]. split; [reflexivity|]. split; [exact HO|exact Big].
  - apply parse_post_trans with (fs1 := []) (s1 := set_msg m true (set_msg m false (set_buf b' s))).
    + repeat split.
    + reflexivity.
    + exists []. rewrite app_nil_r. reflexivity.
    + intros stream fs F0. rewrite app_nil_r. pose proof F0 as [S1 S2 S3]. constructor; cbn; auto.
      rewrite SI in S3. unfold pending. cbn. rewrite SL. exact S3.
    + apply payload_step_ok with (n := n); auto.
      * constructor; cbn; auto. unfold pending in *. cbn. rewrite SL in *. exact gs.
      * cbn. lia.
Qed.

Lemma parse_loop_ok c : cfg_ok c -> forall fuel qs s,
  (N.to_nat (seg_size (r_buf s)) + (if r_payload s then 1 else 0) < fuel)%nat ->
  r_sleep s = false -> G c s -> parse_post c s (parse_loop c fuel qs s).
Proof.
  intros C. induction fuel as [|fuel IH]; intros qs s Hf SL g; [lia|].
  cbn [parse_loop]. destruct (r_payload s) eqn:P.
  - apply payload_step_ok with (n := seg_size (r_buf s)); auto; [lia|].
    intros qs' s' H1 H2 H3 H4. apply IH; auto. rewrite H2. lia.
  - destruct (N.ltb_spec (seg_size (r_buf s)) 8) as [Sm|Bg].
    + pose proof (header_size_pos (rx_msg c)) as HP.
      replace (seg_size (r_buf s) <? header_size (rx_msg c)) with true by lia.
      cbn [parse_post]. split; [exact g|]. split; [apply same_ctl_refl|]. split; [exact SL|]. split; [reflexivity|].
      split; [exists []; rewrite app_nil_r; reflexivity|].
      intros stream fs F. exists []. rewrite app_nil_r. split; [exact F|]. left. unfold drained. rewrite P. lia.
    + apply (header_branch_ok c (parse_loop c fuel) qs s (seg_size (r_buf s) - 8)); auto.
      * lia.
      * intros qs' s' H1 H2 H3 H4. apply IH; auto. rewrite H2. lia.
Qed.

(** ** The receive loop *)

Ltac rcbn := cbn [r_buf r_msg r_payload r_sleep r_timer r_ready_recv r_ready_send r_rd r_wr r_est r_up r_term r_errs r_crash r_in r_net
  set_buf set_msg set_sleep set_ready_recv set_ready_send set_mask set_est set_term set_down add_err set_crash add_in set_net].


Definition recv_keeps (c : rcfg) (s s' : rconn) : Prop :=
  G c s' /\ r_msg s' = r_msg s /\ r_payload s' = r_payload s /\ r_sleep s' = r_sleep s /\ r_timer s' = r_timer s
  /\ r_in s' = r_in s /\ r_ready_recv s' = r_ready_recv s /\ r_ready_send s' = r_ready_send s /\ r_rd s' = r_rd s
  /\ r_wr s' = r_wr s /\ r_est s' = r_est s /\ r_up s' = r_up s /\ r_term s' = r_term s /\ r_errs s' = r_errs s
  /\ r_crash s' = r_crash s /\ (forall stream fs, Frm c stream fs s -> Frm c stream fs s').

Lemma recv_keeps_refl c s : G c s -> recv_keeps c s s.
Proof. intros g. unfold recv_keeps. split; [exact g|]. repeat (split; [reflexivity|]). auto. Qed.

Lemma recv_keeps_trans c a b d : recv_keeps c a b -> recv_keeps c b d -> recv_keeps c a d.
Proof.
  unfold recv_keeps. intros (A0&A1&A2&A3&A4&A5&A6&A7&A8&A9&A10&A11&A12&A13&A14&A15)
    (B0&B1&B2&B3&B4&B5&B6&B7&B8&B9&B10&B11&B12&B13&B14&B15).
  split; [exact B0|]. do 14 (split; [congruence|]). auto.
Qed.

Lemma dropN_min n (l : bytes) : dropN (N.min n (lenN l)) l = dropN n l.
Proof.
  destruct (N.le_gt_cases n (lenN l)) as [Q|Q].
  - rewrite N.min_l by exact Q. reflexivity.
  - rewrite N.min_r by lia. rewrite !dropN_all by lia. reflexivity.
Qed.

Definition lstate (l : lres) : rconn := match l with LFull _ s | LDone _ s | LClosed _ s => s end.

Lemma recv_loop_ok c : cfg_ok c -> forall ks s, G c s ->
  recv_keeps c s (lstate (recv_loop c ks s))
  /\ (forall ks' s', recv_loop c ks s = LFull ks' s' -> rx_maxbuf c <= seg_len (r_buf s')).
Proof.
  intros C. induction ks as [|k ks IH]; intros s g; cbn [recv_loop].
  - destruct (N.leb_spec (rx_maxbuf c) (seg_len (r_buf s))).
    + split; [apply recv_keeps_refl; exact g|]. intros ? ? E. inversion E; subst. assumption.
    + split; [apply recv_keeps_refl; exact g|]. discriminate.
  - destruct (N.leb_spec (rx_maxbuf c) (seg_len (r_buf s))) as [Fu|Sp].
    + split; [apply recv_keeps_refl; exact g|]. intros ? ? E. inversion E; subst. assumption.
    + destruct k as [n| | |]; try (split; [apply recv_keeps_refl; exact g|discriminate]).
      cbv zeta. remember (takeN (N.min n (rx_chunk c)) (r_net s)) as d eqn:Ed.
      destruct (lenN d =? 0); [split; [apply recv_keeps_refl; exact g|discriminate]|].
      assert (Ld : lenN d <= rx_chunk c) by (rewrite Ed, lenN_takeN; lia).
      destruct g as [gb gh gs].
      destruct (seg_push_ok c d (r_buf s) C gb Sp Ld) as (B' & SB).
      remember (set_net (dropN (lenN d) (r_net s)) (set_buf (seg_push d (r_buf s)) s)) as s1 eqn:E1.
      assert (K1 : recv_keeps c s s1).
      { rewrite E1. unfold recv_keeps. cbn. split.
        - constructor; cbn; auto.
        - do 14 (split; [reflexivity|]). intros stream fs [S1 S2 S3]. constructor; rcbn; auto.
          rewrite SB, S1. f_equal. f_equal. rewrite <- app_assoc. f_equal.
          rewrite Ed. rewrite lenN_takeN.
          rewrite dropN_min, takeN_dropN. reflexivity. }
      destruct (lenN d =? rx_chunk c).
      * destruct (IH s1) as (K2 & F2); [destruct K1; assumption|]. split; [eapply recv_keeps_trans; eauto|exact F2].
      * split; [exact K1|discriminate].
Qed.

(** ** on_read and recv_data *)

Definition sound (c : rcfg) (fs : list frame) (s : rconn) : Prop :=
  r_term s = false -> r_sleep s = false -> r_ready_recv s = false ->
  drained c s \/ exists f, In f fs /\ intact (rx_msg c) f = false.

Lemma sound_more c fs fs' s : sound c fs' s -> sound c (fs ++ fs') s.
Proof.
  intros H A B D. destruct (H A B D) as [X|(f & I & X)]; [left; exact X|].
  right. exists f. split; [apply in_or_app; right; exact I|exact X].
Qed.

Definition found_oversized (c : rcfg) (stream : bytes) : Prop :=
  exists fs m rest, stream = wires (rx_msg c) fs ++ header_bytes (rx_msg c) m ++ rest
    /\ Forall (frame_fit c) fs /\ header_ok (rx_msg c) m /\ rx_maxmsg c < m_length m.

Definition env_same (s s' : rconn) : Prop :=
  r_est s' = r_est s /\ r_up s' = r_up s /\ r_errs s' = r_errs s /\ r_crash s' = r_crash s
  /\ r_ready_send s' = r_ready_send s.

Definition ores_post (c : rcfg) (s : rconn) (o : ores) : Prop :=
  match o with
  | OUndef => False
  | ORet s' => G c s' /\ r_sleep s' = r_timer s' /\ env_same s s' /\ (r_term s = true -> r_term s' = true)
      /\ (r_term s' = false -> r_rd s' = negb (r_ready_recv s'))
      /\ (r_term s' = false -> r_ready_recv s' = true -> r_sleep s' = false -> rx_maxbuf c <= seg_len (r_buf s'))
      /\ (exists l, r_in s' = r_in s ++ l)
      /\ forall stream fs, Frm c stream fs s -> exists fs', Frm c stream (fs ++ fs') s' /\ sound c fs' s'
  | OThrow e s' => e = oversized /\ G c s' /\ r_sleep s' = false /\ r_timer s' = false /\ env_same s s'
      /\ (r_term s = true -> r_term s' = true)
      /\ (exists l, r_in s' = r_in s ++ l)
      /\ forall stream fs, Frm c stream fs s -> found_oversized c stream
          /\ exists fs', Forall (frame_fit c) (fs ++ fs')
             /\ (exists m rest, stream = wires (rx_msg c) (fs ++ fs') ++ header_bytes (rx_msg c) m ++ rest
                 /\ header_ok (rx_msg c) m /\ rx_maxmsg c < m_length m)
             /\ carry_all (r_in s') (filter (intact (rx_msg c)) (fs ++ fs'))
  end.

Lemma ctl_env s s' : same_ctl s s' -> env_same s s'.
Proof. intros (A1&A2&A3&A4&A5&A6&A7&A8&A9&A10). repeat split; congruence. Qed.

Lemma on_read_unfold c d ks qs s : on_read c d ks qs s =
  if r_sleep s then ORet s
  else
    match parse_loop c (N.to_nat (seg_size (r_buf s)) + 2) qs s with
    | PSleep _ s => ORet s
    | PThrow e s => OThrow e s
    | PUndef => OUndef
    | PBreak qs s =>
      if r_ready_recv s && (seg_len (r_buf s) <? rx_maxbuf c) then
        match d with
        | O => OUndef
        | S d => recv_data c (on_read c d) ks qs (set_mask true (negb (r_ready_send s)) s)
        end
      else ORet s
    end.
Proof. destruct d; reflexivity. Qed.

(** on_read when the socket is not paused. *)
Lemma on_read_live c d ks qs s : cfg_ok c -> G c s -> r_sleep s = r_timer s ->
  r_ready_recv s = false -> r_rd s = true -> (r_sleep s = true -> r_payload s = false) ->
  ores_post c s (on_read c d ks qs s).
Proof.
  intros C g ST RR RD SP. rewrite on_read_unfold. destruct (r_sleep s) eqn:SL.
  { cbn [ores_post]; split; [exact g|]; split; [congruence|]; split; [repeat split|]; split; [auto|];
    split; [rewrite RR; auto|]; split; [congruence|]; split; [exists []; rewrite app_nil_r; reflexivity|];
    intros stream fs F; exists []; rewrite app_nil_r; split; [exact F|]; intros _ X; congruence. }
  pose proof (parse_loop_ok c C (N.to_nat (seg_size (r_buf s)) + 2) qs s) as PL.
  specialize (PL ltac:(destruct (r_payload s); lia) SL g).
  destruct (parse_loop c (N.to_nat (seg_size (r_buf s)) + 2) qs s) as [qs' s'|qs' s'|e s'|]; cbn [parse_post] in PL.
  - destruct PL as (A & B & D & E & L & F); pose proof B as (B1&B2&B3&B4&B5&B6&B7&B8&B9&B10);
    rewrite B1, RR; cbn [andb ores_post]; split; [exact A|]; split; [congruence|]; split; [apply ctl_env; exact B|];
    split; [congruence|]; split; [intros _; rewrite B1, B3, RR, RD; reflexivity|]; split; [rewrite B1, RR; discriminate|];
    split; [exact L|]; intros stream fs F0; destruct (F _ _ F0) as (fs' & F1 & [X|(f & I & X)]); exists fs'; (split; [exact F1|]);
    intros _ _ _; [left; exact X|right; exists f; split; [exact I|exact X]].
  - destruct PL as (A & B & D & E & P & L & F); pose proof B as (B1&B2&B3&B4&B5&B6&B7&B8&B9&B10);
    cbn [ores_post]; split; [exact A|]; split; [congruence|]; split; [apply ctl_env; exact B|];
    split; [congruence|]; split; [intros _; rewrite B1, B3, RR, RD; reflexivity|]; split; [rewrite B1, RR; discriminate|];
    split; [exact L|]; intros stream fs F0; destruct (F _ _ F0) as (fs' & F1); exists fs'; (split; [exact F1|]);
    intros _ X; congruence.
  - destruct PL as (A0 & A & B & D & E & P & L & F); pose proof B as (B1&B2&B3&B4&B5&B6&B7&B8&B9&B10);
    cbn [ores_post]; split; [exact A0|]; split; [exact A|]; split; [exact D|]; split; [congruence|]; split; [apply ctl_env; exact B|];
    split; [congruence|]; split; [exact L|]; intros stream fs F0;
    destruct (F _ _ F0) as (fs' & m & rest & F1 & F2 & F3 & F4 & F5 & F6); split;
    [exists (fs ++ fs'), m, rest; exact (conj F3 (conj F1 (conj F5 F6)))|exists fs'; split; [exact F1|]; split; [|exact F2]; exists m, rest; exact (conj F3 (conj F5 F6))].
  - contradiction.
Qed.

Lemma recv_data_ok c d ks qs s : cfg_ok c -> G c s -> r_sleep s = r_timer s -> r_rd s = true ->
  (r_sleep s = true -> r_payload s = false) ->
  ores_post c s (recv_data c (on_read c d) ks qs s).
Proof.
  intros C g ST RD SP. unfold recv_data. destruct (recv_loop_ok c C ks s g) as (K & FU).
  unfold recv_keeps in K. destruct (recv_loop c ks s) as [ks' s'|ks' s'|ks' s']; cbn [lstate] in K;
    destruct K as (A0&A1&A2&A3&A4&A5&A6&A7&A8&A9&A10&A11&A12&A13&A14&A15).
  - (* full *) cbn [ores_post]. destruct A0 as [gb gh gs].
    split; [constructor; cbn; auto|]. cbn. split; [congruence|]. split; [repeat split; cbn; congruence|]. split; [congruence|].
    split; [reflexivity|]. split; [intros _ _ _; eapply FU; reflexivity|].
    split; [exists []; rewrite app_nil_r; exact A5|]. intros stream fs F. apply A15 in F. exists []. rewrite app_nil_r.
    destruct F as [S1 S2 S3]. split; [constructor; cbn; auto|]. unfold sound. cbn. discriminate.
  - (* done *)
    pose proof A0 as [gb gh gs].
    assert (g' : G c (set_ready_recv false s')) by (constructor; cbn; auto).
    pose proof (on_read_live c d ks' qs (set_ready_recv false s') C g') as R. cbn [r_sleep r_timer r_ready_recv r_rd r_payload set_ready_recv] in R.
    specialize (R ltac:(congruence) eq_refl ltac:(congruence) ltac:(rewrite A3, A2; exact SP)).
    destruct (on_read c d ks' qs (set_ready_recv false s')) as [s2|e s2|]; cbn [ores_post] in *; auto.
    + destruct R as (R1&R2&(R3&R4&R5&R6&R7)&R8&R9&R10&(l & R11)&R12). cbn in *.
      split; [exact R1|]. split; [exact R2|]. split; [repeat split; congruence|]. split; [intros T; apply R8; congruence|].
      split; [exact R9|]. split; [exact R10|]. split; [exists l; congruence|].
      intros stream fs F. apply A15 in F. apply R12. destruct F as [S1 S2 S3]. constructor; cbn; auto.
    + destruct R as (R0&R1&R2&R2'&(R3&R4&R5&R6&R7)&R8&(l & R11)&R12). cbn in *.
      split; [exact R0|]. split; [exact R1|]. split; [exact R2|]. split; [exact R2'|]. split; [repeat split; congruence|]. split; [intros T; apply R8; congruence|].
      split; [exists l; congruence|].
      intros stream fs F. apply A15 in F. apply R12. destruct F as [S1 S2 S3]. constructor; cbn; auto.
  - (* closed *) cbn [ores_post]. destruct A0 as [gb gh gs].
    split; [constructor; cbn; auto|]. cbn. split; [congruence|]. split; [repeat split; cbn; congruence|]. split; [auto|].
    split; [discriminate|]. split; [discriminate|].
    split; [exists []; rewrite app_nil_r; exact A5|]. intros stream fs F. apply A15 in F. exists []. rewrite app_nil_r.
    destruct F as [S1 S2 S3]. split; [constructor; cbn; auto|]. unfold sound. cbn. discriminate.
Qed.

Lemma on_read_ok c ks qs s : cfg_ok c -> G c s -> r_sleep s = false -> r_timer s = false ->
  (r_term s = false -> r_rd s = negb (r_ready_recv s)) ->
  ores_post c s (on_read c 1 ks qs s).
Proof.
  intros C g SL TM RD. rewrite on_read_unfold, SL.
  pose proof (parse_loop_ok c C (N.to_nat (seg_size (r_buf s)) + 2) qs s) as PL.
  specialize (PL ltac:(destruct (r_payload s); lia) SL g).
  destruct (parse_loop c (N.to_nat (seg_size (r_buf s)) + 2) qs s) as [qs' s'|qs' s'|e s'|]; cbn [parse_post] in PL.
  - destruct PL as (A & B & D & E & L & F); pose proof B as (B1&B2&B3&B4&B5&B6&B7&B8&B9&B10).
    destruct (r_ready_recv s') eqn:RR; cbn [andb].
    + destruct (N.ltb_spec (seg_len (r_buf s')) (rx_maxbuf c)) as [Sp|Fu].
      * (* resume *)
        pose proof A as [gb gh gs].
        pose proof (recv_data_ok c 0 ks qs' (set_mask true (negb (r_ready_send s')) s') C) as R.
        specialize (R ltac:(constructor; cbn; auto)). cbn [r_sleep r_timer r_rd r_payload set_mask] in R.
        specialize (R ltac:(congruence) eq_refl ltac:(congruence)).
        destruct L as (l & L).
        destruct (recv_data c (on_read c 0) ks qs' (set_mask true (negb (r_ready_send s')) s')) as [s2|e s2|]; cbn [ores_post] in *; auto.
        -- destruct R as (R1&R2&(R3&R4&R5&R6&R7)&R8&R9&R10&(l' & R11)&R12). cbn in *.
           split; [exact R1|]. split; [exact R2|]. split; [repeat split; congruence|]. split; [intros T; apply R8; congruence|].
           split; [exact R9|]. split; [exact R10|]. split; [exists (l ++ l'); rewrite R11, L, app_assoc; reflexivity|].
           intros stream fs F0. destruct (F _ _ F0) as (fs' & [S1 S2 S3] & _).
           destruct (R12 stream (fs ++ fs')) as (fs2 & R13 & R14); [constructor; cbn; auto|]. exists (fs' ++ fs2). rewrite app_assoc.
           split; [exact R13|]. intros Y1 Y2 Y3. destruct (R14 Y1 Y2 Y3) as [X|(f & I & X)]; [left; exact X|].
           right. exists f. split; [apply in_or_app; right; exact I|exact X].
        -- destruct R as (R0&R1&R2&R2'&(R3&R4&R5&R6&R7)&R8&(l' & R11)&R12). cbn in *.
           split; [exact R0|]. split; [exact R1|]. split; [exact R2|]. split; [exact R2'|]. split; [repeat split; congruence|]. split; [intros T; apply R8; congruence|].
           split; [exists (l ++ l'); rewrite R11, L, app_assoc; reflexivity|].
           intros stream fs F0. destruct (F _ _ F0) as (fs' & [S1 S2 S3] & _).
           destruct (R12 stream (fs ++ fs')) as (O & fs2 & R13); [constructor; cbn; auto|]. split; [exact O|]. exists (fs' ++ fs2). rewrite app_assoc. exact R13.
      * cbn [ores_post]. split; [exact A|]. split; [congruence|]. split; [apply ctl_env; exact B|]. split; [congruence|].
        split; [intros T; rewrite RR, B3; rewrite RD by congruence; rewrite <- B1; reflexivity|].
        split; [intros _ _ _; exact Fu|]. split; [exact L|]. intros stream fs F0. destruct (F _ _ F0) as (fs' & F1 & _).
        exists fs'. split; [exact F1|]. intros _ _ X. congruence.
    + cbn [ores_post]. split; [exact A|]. split; [congruence|]. split; [apply ctl_env; exact B|]. split; [congruence|].
      split; [intros T; rewrite RR, B3; rewrite RD by congruence; rewrite <- B1; reflexivity|].
      split; [congruence|]. split; [exact L|]. intros stream fs F0. destruct (F _ _ F0) as (fs' & F1 & [X|(f & I & X)]).
      * exists fs'. split; [exact F1|]. intros _ _ _. left. exact X.
      * exists fs'. split; [exact F1|]. intros _ _ _. right. exists f. split; [exact I|exact X].
  - destruct PL as (A & B & D & E & P & L & F); pose proof B as (B1&B2&B3&B4&B5&B6&B7&B8&B9&B10).
    cbn [ores_post]. split; [exact A|]. split; [congruence|]. split; [apply ctl_env; exact B|]. split; [congruence|].
    split; [intros T; rewrite B1, B3; apply RD; congruence|]. split; [congruence|].
    split; [exact L|]. intros stream fs F0. destruct (F _ _ F0) as (fs' & F1). exists fs'. split; [exact F1|]. intros _ X. congruence.
  - destruct PL as (A0 & A & B & D & E & P & L & F); pose proof B as (B1&B2&B3&B4&B5&B6&B7&B8&B9&B10).
    cbn [ores_post]. split; [exact A0|]. split; [exact A|]. split; [exact D|]. split; [congruence|]. split; [apply ctl_env; exact B|].
    split; [congruence|]. split; [exact L|]. intros stream fs F0.
    destruct (F _ _ F0) as (fs' & m & rest & F1 & F2 & F3 & F4 & F5 & F6). split;
    [exists (fs ++ fs'), m, rest; exact (conj F3 (conj F1 (conj F5 F6)))|exists fs'; split; [exact F1|]; split; [|exact F2]; exists m, rest; exact (conj F3 (conj F5 F6))].
  - contradiction.
Qed.

(** ** All runs *)

Record Inv (c : rcfg) (stream : bytes) (s : rconn) : Prop := mkInv {
  i_g : G c s;
  i_timer : r_up s = true -> r_sleep s = r_timer s;
  i_sp : r_sleep s = true -> r_payload s = false;
  i_est : r_est s = false -> r_rd s = false /\ r_wr s = false /\ r_ready_recv s = false /\ r_timer s = false;
  i_rd : r_est s = true -> r_up s = true -> r_crash s = false -> r_term s = false -> r_rd s = negb (r_ready_recv s);
  i_full : r_up s = true -> r_crash s = false -> r_term s = false -> r_ready_recv s = true -> r_sleep s = false ->
     rx_maxbuf c <= seg_len (r_buf s);
  i_errs : r_errs s <> [] -> r_term s = true;
  i_down : r_up s = false -> r_term s = true /\ r_rd s = false /\ r_wr s = false /\ r_timer s = false;
  i_over : r_errs s <> [] \/ r_crash s = true -> found_oversized c stream;
  i_exn : Forall (eq oversized) (r_errs s);
  i_frm : r_errs s = [] -> r_crash s = false -> exists fs, Frm c stream fs s /\ sound c fs s }.

Lemma g_sleep_payload c s : G c s -> r_sleep s = true -> r_payload s = false.
Proof.
  intros g SL. destruct (r_payload s) eqn:P; [|reflexivity]. destruct (g_head c s g P) as (X & _). congruence.
Qed.

Lemma inv_init c stream : Inv c stream (rinit stream).
Proof.
  constructor; cbn; auto; try congruence; try discriminate; try (intros [X|X]; congruence).
  - constructor; cbn; auto; try discriminate. split; [|split; [constructor|apply N.le_0_l]].
    split; [constructor|]. split; reflexivity.
  - exists []. split; [constructor; cbn; auto; constructor|]. unfold sound, drained. cbn. intros _ _ _. left.
    pose proof (header_size_pos (rx_msg c)). lia.
Qed.

Lemma guarded_ok c stream s o : Inv c stream s -> r_up s = true -> r_crash s = false -> r_est s = true ->
  ores_post c s o -> exists s', guarded o = SOk s' /\ Inv c stream s'.
Proof.
  intros I U CR ES P. destruct o as [s'|e s'|]; cbn [ores_post guarded] in *; [| |contradiction].
  - destruct P as (A & B & (E1&E2&E3&E4&E5) & T & RD & FU & L & F). exists s'. split; [reflexivity|].
    constructor; auto; try congruence.
    + intros SL. eapply g_sleep_payload; eauto.
    + intros X. apply T. apply (i_errs _ _ _ I). congruence.
    + intros X. apply (i_over _ _ _ I). rewrite E3, E4 in X. exact X.
    + rewrite E3. apply (i_exn _ _ _ I).
    + intros X _. destruct (i_frm _ _ _ I) as (fs & F0 & _); [congruence|exact CR|].
      destruct (F _ _ F0) as (fs' & F1 & F2). exists (fs ++ fs'). split; [exact F1|]. apply sound_more. exact F2.
  - destruct P as (A0 & A & SL & TM & (E1&E2&E3&E4&E5) & T & L & F). eexists. split; [reflexivity|].
    destruct A as [gb gh gs].
    constructor; cbn; auto; try congruence.
    + constructor; cbn; auto.
    + intros _. destruct (r_errs s) as [|x xs] eqn:ER.
      * destruct (i_frm _ _ _ I) as (fs & F0 & _); [exact ER|exact CR|]. destruct (F _ _ F0) as (X & _). exact X.
      * apply (i_over _ _ _ I). left. rewrite ER. discriminate.
    + rewrite E3. apply Forall_app. split; [apply (i_exn _ _ _ I)|]. subst. auto.
    + intros X. exfalso. destruct (r_errs s'); discriminate.
Qed.

Lemma unguarded_ok c stream s s0 o : Inv c stream s -> r_up s = true -> r_crash s = false -> r_est s = true ->
  r_up s0 = true -> r_est s0 = true -> r_errs s0 = r_errs s -> r_crash s0 = false -> r_term s0 = r_term s ->
  (forall fs, Frm c stream fs s -> Frm c stream fs s0) ->
  ores_post c s0 o -> exists s', unguarded o = SOk s' /\ Inv c stream s'.
Proof.
  intros I U CR ES U0 ES0 ER0 CR0 T0 FF P. destruct o as [s'|e s'|]; cbn [ores_post unguarded] in *; [| |contradiction].
  - destruct P as (A & B & (E1&E2&E3&E4&E5) & T & RD & FU & L & F). exists s'. split; [reflexivity|].
    constructor; auto; try congruence.
    + intros SL. eapply g_sleep_payload; eauto.
    + intros X. apply T. rewrite T0. apply (i_errs _ _ _ I). congruence.
    + intros X. apply (i_over _ _ _ I). rewrite E3, E4, ER0, CR0, <- CR in X. exact X.
    + rewrite E3, ER0. apply (i_exn _ _ _ I).
    + intros X _. destruct (i_frm _ _ _ I) as (fs & F0 & _); [congruence|exact CR|].
      destruct (F _ _ (FF _ F0)) as (fs' & F1 & F2). exists (fs ++ fs'). split; [exact F1|]. apply sound_more. exact F2.
  - destruct P as (A0 & A & SL & TM & (E1&E2&E3&E4&E5) & T & L & F). eexists. split; [reflexivity|].
    destruct A as [gb gh gs].
    constructor; cbn; auto; try congruence.
    + constructor; cbn; auto.
    + intros X. apply T. rewrite T0. apply (i_errs _ _ _ I). congruence.
    + intros _. destruct (r_errs s) as [|x xs] eqn:ER.
      * destruct (i_frm _ _ _ I) as (fs & F0 & _); [exact ER|exact CR|]. destruct (F _ _ (FF _ F0)) as (X & _). exact X.
      * apply (i_over _ _ _ I). left. rewrite ER. discriminate.
    + rewrite E3, ER0. apply (i_exn _ _ _ I).
Qed.

Lemma rstep_inv c stream ev s : cfg_ok c -> Inv c stream s ->
  match rstep c ev s with SOk s' => Inv c stream s' | SDisabled => True | SUndef => False end.
Proof.
  intros C I. unfold rstep. destruct (r_crash s) eqn:CR; [exact Logic.I|]. destruct (r_up s) eqn:U; [|exact Logic.I]. cbn [negb].
  pose proof (i_g _ _ _ I) as g. destruct ev as [|ks qs| |ks qs| | | | |]; unfold when.
  - (* establish *)
    destruct (r_est s) eqn:ES; cbn [negb]; [exact Logic.I|]. destruct (i_est _ _ _ I ES) as (X1 & X2 & X3 & X4).
    destruct I, g as [gb gh gs]. constructor; rcbn; auto; try congruence.
    + constructor; rcbn; auto.
    + rewrite X3. reflexivity.
    + intros E1 E2. destruct (i_frm0 E1 E2) as (fs & [S1 S2 S3] & F1). exists fs. split; [constructor; rcbn; auto|exact F1].
  - (* read *)
    destruct (r_rd s) eqn:RD; [|exact Logic.I].
    assert (ES : r_est s = true).
    { destruct (r_est s) eqn:ES; [reflexivity|]. destruct (i_est _ _ _ I ES). congruence. }
    destruct (guarded_ok c stream s (recv_data c (on_read c 1) ks qs s) I U CR ES) as (s' & -> & I'); [|exact I'].
    apply recv_data_ok; auto.
    + apply (i_timer _ _ _ I U).
    + apply (i_sp _ _ _ I).
  - (* socket error *)
    destruct (r_rd s || r_wr s); [|exact Logic.I]. destruct I, g as [gb gh gs]. constructor; rcbn; auto; try congruence.
    + constructor; rcbn; auto.
    + intros E1 E2. destruct (i_frm0 E1 E2) as (fs & [S1 S2 S3] & F1). exists fs. split; [constructor; rcbn; auto|].
      unfold sound. rcbn. discriminate.
  - (* timer *)
    destruct (r_timer s) eqn:TM; [|exact Logic.I].
    assert (ES : r_est s = true).
    { destruct (r_est s) eqn:ES; [reflexivity|]. destruct (i_est _ _ _ I ES) as (_ & _ & _ & X). congruence. }
    assert (SL : r_sleep s = true) by (rewrite (i_timer _ _ _ I U); exact TM).
    destruct (match qs with [] => (true, []) | q :: r => (q, r) end) as [ok qs']. destruct ok.
    + set (s0 := set_sleep false false (add_in (r_msg s) s)).
      destruct g as [gb gh gs].
      assert (GS : G c s0).
      { unfold s0. constructor; rcbn; auto.
        - intros P. destruct (gh P) as (X & _). congruence.
        - unfold pending in *. rcbn. rewrite app_nil_r. rewrite SL in gs. exact gs. }
      destruct (unguarded_ok c stream s s0 (on_read c 1 ks qs' s0) I U CR ES) as (s' & E & I'); unfold s0; rcbn; auto.
      * intros fs [S1 S2 S3]. constructor; rcbn; auto. unfold pending in *. rcbn. rewrite app_nil_r. rewrite SL in S3. exact S3.
      * apply on_read_ok; auto. rcbn. intros T. apply (i_rd _ _ _ I); auto.
      * unfold s0 in E. rewrite E. exact I'.
    + destruct I, g as [gb gh gs]. constructor; rcbn; auto; try congruence.
      * constructor; rcbn; auto.
        -- intros P. destruct (gh P) as (X & _). congruence.
        -- unfold pending in *. rcbn. rewrite SL in gs. exact gs.
      * intros E1 E2. destruct (i_frm0 E1 E2) as (fs & [S1 S2 S3] & F1). exists fs. split; [constructor; rcbn; auto|].
        -- unfold pending in *. rcbn. rewrite SL in S3. exact S3.
        -- unfold sound. rcbn. congruence.
  - (* send idle *)
    destruct (r_est s) eqn:ES; [|exact Logic.I]. destruct I, g as [gb gh gs]. constructor; rcbn; auto; try congruence.
    + constructor; rcbn; auto.
    + intros E1 E2. destruct (i_frm0 E1 E2) as (fs & [S1 S2 S3] & F1). exists fs. split; [constructor; rcbn; auto|exact F1].
  - destruct (r_est s) eqn:ES; [|exact Logic.I]. destruct I, g as [gb gh gs]. constructor; rcbn; auto; try congruence.
    + constructor; rcbn; auto.
    + intros E1 E2. destruct (i_frm0 E1 E2) as (fs & [S1 S2 S3] & F1). exists fs. split; [constructor; rcbn; auto|exact F1].
  - destruct (r_est s) eqn:ES; [|exact Logic.I]. destruct I, g as [gb gh gs]. constructor; rcbn; auto; try congruence.
    + constructor; rcbn; auto.
    + intros E1 E2. destruct (i_frm0 E1 E2) as (fs & [S1 S2 S3] & F1). exists fs. split; [constructor; rcbn; auto|exact F1].
  - (* kill *)
    destruct I, g as [gb gh gs]. constructor; rcbn; auto; try congruence.
    + constructor; rcbn; auto.
    + intros E1 E2. destruct (i_frm0 E1 E2) as (fs & [S1 S2 S3] & F1). exists fs. split; [constructor; rcbn; auto|].
      unfold sound. rcbn. discriminate.
  - (* teardown *)
    destruct (r_term s) eqn:T; [|exact Logic.I]. destruct I, g as [gb gh gs]. constructor; rcbn; auto; try congruence.
    + constructor; rcbn; auto.
    + intros ES. destruct (i_est0 ES) as (_ & _ & X & _). auto.
    + intros E1 E2. destruct (i_frm0 E1 E2) as (fs & [S1 S2 S3] & F1). exists fs. split; [constructor; rcbn; auto|].
      unfold sound. rcbn. discriminate.
Qed.

Lemma rrun_inv c stream evs : cfg_ok c -> forall s, Inv c stream s ->
  match rrun c evs s with SOk s' => Inv c stream s' | SDisabled => True | SUndef => False end.
Proof.
  intros C. induction evs as [|ev evs IH]; intros s I; cbn [rrun]; [exact I|].
  pose proof (rstep_inv c stream ev s C I) as H. destruct (rstep c ev s); auto. apply IH. exact H.
Qed.

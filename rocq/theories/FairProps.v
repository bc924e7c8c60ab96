(** Property C144: how much one callback does before the loop gets to the
    callbacks of other connections and queues.

    The models are RecvModel.v (receiving), DispModel.v (messages to their
    handlers), CallModel.v (posted tasks) and SendModel.v (sending). *)
From Coq Require Import Arith NArith List Bool Lia.
From Coq.Init Require Import Byte.
From Verif Require Import Base StreamModel MsgModel SegModel RecvModel RecvSpec RecvProofs RecvProps.
From Verif Require CallModel DispModel SendModel.
Import ListNotations.

(** ** Receiving *)
Section Recv.
Local Open Scope N_scope.

(** *** Lemmas *)
Definition pst (r : pres) : option rconn :=
  match r with PBreak _ s | PSleep _ s | PThrow _ s => Some s | PUndef => None end.
Definition cost (c : rcfg) (s : rconn) : N := header_size (rx_msg c) * lenN (r_in s) + seg_size (r_buf s).
Definition same_io (s s' : rconn) : Prop := r_net s' = r_net s /\ r_ready_recv s' = r_ready_recv s.
Definition fine (c : rcfg) (s : rconn) (k : N) (r : pres) : Prop :=
  forall s', pst r = Some s' -> buf_ok c (r_buf s') /\ cost c s' <= cost c s + k /\ same_io s s'.

Lemma payload_fine c k qs s : buf_ok c (r_buf s) ->
  (forall qs s1, buf_ok c (r_buf s1) -> r_payload s1 = false -> fine c s1 0 (k qs s1)) ->
  fine c s (header_size (rx_msg c)) (payload_step c k qs s).
Proof.
  intros B K s' E. unfold payload_step in E. cbv zeta in E. destruct (N.ltb_spec (seg_size (r_buf s)) (m_length (r_msg s))) as [Lt|Ge].
  { injection E as <-. split; [exact B|]. split; [lia|split; reflexivity]. }
  destruct (seg_pop_ok c (m_length (r_msg s)) (r_buf s) B Ge) as (b & EP & B' & _ & SZ). rewrite EP in E.
  set (s1 := set_msg (msg_set_payload _ _) false (set_buf b s)) in E.
  assert (C1 : cost c s1 <= cost c s) by (unfold cost; cbn; lia).
  destruct (if mc_ck (rx_msg c) then _ else _) as [[|] m|e m|] eqn:V; try discriminate E.
  - set (ok := match qs with [] => (true, []) | q :: r => (q, r) end) in E. destruct ok as (o & qs'). destruct o.
    + destruct (K qs' (add_in (r_msg s1) s1) B' eq_refl s' E) as (X1 & X2 & X3 & X4). split; [exact X1|]. split; [|split; assumption].
      assert (C2 : cost c (add_in (r_msg s1) s1) = cost c s1 + header_size (rx_msg c)). { unfold cost. cbn [add_in r_in r_buf]. rewrite lenN_app. change (lenN [r_msg s1]) with 1. lia. }
      lia.
    + injection E as <-. split; [exact B'|]. split; [|split; reflexivity]. unfold cost in *. cbn in *. lia.
  - injection E as <-. split; [exact B'|]. split; [lia|split; reflexivity].
  - injection E as <-. split; [exact B'|]. split; [lia|split; reflexivity].
Qed.

Lemma parse_fine c : forall fuel qs s, buf_ok c (r_buf s) -> fine c s (if r_payload s then header_size (rx_msg c) else 0) (parse_loop c fuel qs s).
Proof.
  induction fuel as [|fuel IH]; intros qs s B; [intros s' E; discriminate E|]. cbn [parse_loop]. destruct (r_payload s) eqn:P.
  - apply payload_fine; auto. intros qs' s1 B1 P1. specialize (IH qs' s1 B1). rewrite P1 in IH. exact IH.
  - destruct (N.ltb_spec (seg_size (r_buf s)) (header_size (rx_msg c))) as [Lt|Ge].
    { intros s' E. injection E as <-. split; [exact B|]. split; [lia|split; reflexivity]. }
    destruct (seg_pop_ok c _ (r_buf s) B Ge) as (b & EP & B' & _ & SZ). rewrite EP.
    destruct (msg_parse_header (rx_msg c) 0 _) as [m d|e d|]; [| |intros s' E; discriminate E].
    + set (s1 := set_msg m false (set_buf b s)). assert (C1 : cost c s1 + header_size (rx_msg c) = cost c s) by (unfold cost; cbn; lia).
      destruct (rx_maxmsg c <? m_length m).
      * intros s' E. injection E as <-. split; [exact B'|]. split; [lia|split; reflexivity].
      * intros s' E. assert (F := payload_fine c (parse_loop c fuel) qs (set_msg m true s1) B'). specialize (F ltac:(intros qs' s2 B2 P2; specialize (IH qs' s2 B2); rewrite P2 in IH; exact IH) s' E).
        destruct F as (X1 & X2 & X3 & X4). split; [exact X1|]. split; [|split; assumption]. unfold cost in *. cbn in *. lia.
    + intros s' E. injection E as <-. split; [exact B'|]. split; [unfold cost; cbn; lia|split; reflexivity].
Qed.

(** How many bytes and how many results of the kernel the receive loop uses. *)
Lemma recv_uses c : cfg_ok c -> forall ks s, buf_ok c (r_buf s) -> let s' := lstate (recv_loop c ks s) in
  buf_ok c (r_buf s') /\ r_in s' = r_in s /\ r_ready_recv s' = r_ready_recv s /\ lenN (r_net s) <= lenN (r_net s') + (rx_maxbuf c - seg_len (r_buf s)) * rx_chunk c.
Proof.
  intros C. induction ks as [|k ks IH]; intros s B; cbn [recv_loop]; destruct (N.leb_spec (rx_maxbuf c) (seg_len (r_buf s))) as [Le|Gt]; cbv zeta; cbn [lstate].
  1-3: split; [exact B|split; [reflexivity|split; [reflexivity|apply N.le_add_r]]].
  destruct k as [n| | |]; cbn [lstate].
  2-4: split; [exact B|split; [reflexivity|split; [reflexivity|apply N.le_add_r]]].
  set (d := takeN (N.min n (rx_chunk c)) (r_net s)). assert (Ld : lenN d <= rx_chunk c /\ lenN d <= lenN (r_net s)).
  { unfold d. pose proof (lenN_takeN (N.min n (rx_chunk c)) (r_net s)). lia. }
  destruct (N.eqb_spec (lenN d) 0) as [Z|Z]; [cbn [lstate]; split; [exact B|split; [reflexivity|split; [reflexivity|apply N.le_add_r]]]|].
  destruct (seg_push_ok c d (r_buf s) C B Gt ltac:(lia)) as (B' & _). set (s1 := set_net _ (set_buf (seg_push d (r_buf s)) s)).
  assert (NL : lenN (r_net s1) = lenN (r_net s) - lenN d) by (unfold s1; cbn [set_net r_net]; rewrite lenN_dropN; lia).
  assert (SL : seg_len (r_buf s1) = seg_len (r_buf s) + 1) by (unfold s1; cbn; unfold seg_len, seg_push; cbn [sg_list]; rewrite lenN_app; reflexivity).
  assert (NS : (rx_maxbuf c - seg_len (r_buf s)) * rx_chunk c = (rx_maxbuf c - seg_len (r_buf s1)) * rx_chunk c + rx_chunk c).
  { rewrite SL. replace (rx_maxbuf c - seg_len (r_buf s)) with (rx_maxbuf c - (seg_len (r_buf s) + 1) + 1) by lia. lia. }
  destruct (lenN d =? rx_chunk c).
  - destruct (IH s1 B') as (X1 & X2 & X3 & X4). split; [exact X1|]. split; [exact X2|]. split; [exact X3|]. lia.
  - cbn [lstate]. split; [exact B'|]. split; [reflexivity|]. split; [reflexivity|].
    pose proof (N.le_0_l ((rx_maxbuf c - seg_len (r_buf s1)) * rx_chunk c)). lia.
Qed.

Definition same_l (a b : lres) : Prop :=
  match a, b with LFull _ s, LFull _ s' | LDone _ s, LDone _ s' | LClosed _ s, LClosed _ s' => s = s' | _, _ => False end.
Lemma recv_looks c : forall ks ks' s, firstn (N.to_nat (rx_maxbuf c - seg_len (r_buf s))) ks = firstn (N.to_nat (rx_maxbuf c - seg_len (r_buf s))) ks' -> same_l (recv_loop c ks s) (recv_loop c ks' s).
Proof.
  induction ks as [|k ks IH]; intros [|k' ks'] s E; cbn [recv_loop]; destruct (N.leb_spec (rx_maxbuf c) (seg_len (r_buf s))) as [Le|Gt]; try reflexivity.
  1-2: exfalso; destruct (N.to_nat (rx_maxbuf c - seg_len (r_buf s))) eqn:Z; [lia|discriminate E].
  destruct (N.to_nat (rx_maxbuf c - seg_len (r_buf s))) as [|n] eqn:Z; [lia|]. cbn [firstn] in E. injection E as -> E.
  destruct k' as [m| | |]; try reflexivity. destruct (lenN _ =? 0); [reflexivity|]. destruct (lenN _ =? rx_chunk c); [|reflexivity].
  apply IH. cbn [set_net set_buf r_buf]. replace (seg_len (seg_push _ (r_buf s))) with (seg_len (r_buf s) + 1) by (unfold seg_len, seg_push; cbn [sg_list]; rewrite lenN_app; reflexivity).
  replace (N.to_nat (rx_maxbuf c - (seg_len (r_buf s) + 1))) with n by lia. exact E.
Qed.

Lemma fresh_ks c d ks ks' qs s : r_ready_recv s = false -> buf_ok c (r_buf s) -> on_read c d ks qs s = on_read c d ks' qs s.
Proof.
  intros R B. destruct d as [|d]; cbn [on_read]; (destruct (r_sleep s); [reflexivity|]); pose proof (parse_fine c (N.to_nat (seg_size (r_buf s)) + 2) qs s B) as F;
  destruct (parse_loop c (N.to_nat (seg_size (r_buf s)) + 2) qs s) as [qs' s'|qs' s'|e s'|]; try reflexivity; destruct (F s' eq_refl) as (_ & _ & _ & X); rewrite X, R; reflexivity.
Qed.
Lemma data_ks c d ks ks' qs s : cfg_ok c -> buf_ok c (r_buf s) -> firstn (N.to_nat (rx_maxbuf c)) ks = firstn (N.to_nat (rx_maxbuf c)) ks' ->
  recv_data c (on_read c d) ks qs s = recv_data c (on_read c d) ks' qs s.
Proof.
  intros C B E. assert (E' : firstn (N.to_nat (rx_maxbuf c - seg_len (r_buf s))) ks = firstn (N.to_nat (rx_maxbuf c - seg_len (r_buf s))) ks').
  { assert (Y : forall l : list kres, firstn (N.to_nat (rx_maxbuf c - seg_len (r_buf s))) l = firstn (N.to_nat (rx_maxbuf c - seg_len (r_buf s))) (firstn (N.to_nat (rx_maxbuf c)) l)) by (intros l; rewrite firstn_firstn, Nat.min_l by lia; reflexivity).
    rewrite (Y ks), (Y ks'), E. reflexivity. }
  pose proof (recv_looks c ks ks' s E') as L. pose proof (recv_uses c C ks s B) as U. unfold recv_data. destruct (recv_loop c ks s) as [k1 s1|k1 s1|k1 s1], (recv_loop c ks' s) as [k2 s2|k2 s2|k2 s2]; cbn in L; try contradiction; subst; auto.
  apply fresh_ks; [reflexivity|exact (proj1 U)].
Qed.

Lemma read_ks c d ks ks' qs s : cfg_ok c -> buf_ok c (r_buf s) -> firstn (N.to_nat (rx_maxbuf c)) ks = firstn (N.to_nat (rx_maxbuf c)) ks' ->
  on_read c (S d) ks qs s = on_read c (S d) ks' qs s.
Proof.
  intros C B E. cbn [on_read]. destruct (r_sleep s); [reflexivity|]. pose proof (parse_fine c (N.to_nat (seg_size (r_buf s)) + 2) qs s B) as F.
  destruct (parse_loop c (N.to_nat (seg_size (r_buf s)) + 2) qs s) as [qs' s'|qs' s'|e s'|]; try reflexivity. destruct (F s' eq_refl) as (B' & _).
  destruct (r_ready_recv s' && _); [|reflexivity]. apply data_ks; auto.
Qed.

(** *** One callback makes at most max_recv_buff_size receive calls *)

(** Of the kernel's answers it looks at that many: whatever the kernel would
    answer to further calls makes no difference. *)
Theorem C144_receive_calls : forall c stream evs s ks ks' qs, cfg_ok c -> rrun c evs (rinit stream) = SOk s ->
  firstn (N.to_nat (rx_maxbuf c)) ks = firstn (N.to_nat (rx_maxbuf c)) ks' ->
  rstep c (EvRead ks qs) s = rstep c (EvRead ks' qs) s /\ rstep c (EvTimer ks qs) s = rstep c (EvTimer ks' qs) s.
Proof.
  intros c stream evs s ks ks' qs C R E. pose proof (rrun_inv c stream evs C (rinit stream) (inv_init c stream)) as I. rewrite R in I. pose proof (g_buf _ _ (i_g _ _ _ I)) as B.
  unfold rstep. destruct (r_crash s); [auto|]. destruct (negb (r_up s)); [auto|]. split.
  - rewrite (data_ks c 1 ks ks' qs s C B E). reflexivity.
  - destruct (match qs with [] => (true, []) | q :: r => (q, r) end) as [[|] qs']; [|reflexivity]. rewrite (read_ks c 0 ks ks' qs' (set_sleep false false (add_in (r_msg s) s)) C B E). reflexivity.
Qed.

Lemma out_fine c d ks qs s o : cfg_ok c -> buf_ok c (r_buf s) -> r_ready_recv s = false ->
  on_read c d ks qs s = o -> match o with ORet s' | OThrow _ s' => r_net s' = r_net s /\ cost c s' <= cost c s + header_size (rx_msg c) | OUndef => True end.
Proof.
  intros C B R E. subst o. destruct d as [|d]; cbn [on_read]; (destruct (r_sleep s); [split; [reflexivity|lia]|]); pose proof (parse_fine c (N.to_nat (seg_size (r_buf s)) + 2) qs s B) as F;
  destruct (parse_loop c (N.to_nat (seg_size (r_buf s)) + 2) qs s) as [qs' s'|qs' s'|e s'|]; try exact I; destruct (F s' eq_refl) as (B' & K & X1 & X2); try rewrite X2, R; cbn [andb]; (split; [exact X1|destruct (r_payload s); lia]).
Qed.
Lemma size_le c b : buf_ok c b -> seg_size b <= rx_maxbuf c * rx_chunk c.
Proof.
  intros ((F & Z & Bd) & D & L). unfold seg_size. rewrite Z. pose proof (entries_bytes _ _ D) as Q. fold (SegProps.seg_bytes b) in Q. fold (seg_len b) in Q.
  assert (seg_len b * rx_chunk c <= rx_maxbuf c * rx_chunk c) by (apply N.mul_le_mono_r; exact L). lia.
Qed.
Lemma data_fine c d ks qs s : cfg_ok c -> buf_ok c (r_buf s) ->
  match recv_data c (on_read c d) ks qs s with
  | ORet s' | OThrow _ s' => lenN (r_net s) <= lenN (r_net s') + rx_maxbuf c * rx_chunk c
      /\ header_size (rx_msg c) * lenN (r_in s') <= header_size (rx_msg c) * lenN (r_in s) + rx_maxbuf c * rx_chunk c + header_size (rx_msg c)
  | OUndef => True end.
Proof.
  intros C B. pose proof (recv_uses c C ks s B) as U. cbv zeta in U.
  assert (Q : (rx_maxbuf c - seg_len (r_buf s)) * rx_chunk c <= rx_maxbuf c * rx_chunk c) by (apply N.mul_le_mono_r; lia).
  unfold recv_data. destruct (recv_loop c ks s) as [k1 s1|k1 s1|k1 s1]; cbn [lstate] in U; destruct U as (B1 & U1 & U2 & U3).
  - cbn [set_ready_recv set_mask r_net r_in]. rewrite U1. split; lia.
  - pose proof (out_fine c d k1 qs (set_ready_recv false s1) _ C B1 eq_refl eq_refl) as O. destruct (on_read c d k1 qs (set_ready_recv false s1)) as [s'|e s'|]; [| |exact I].
    all: destruct O as (O1 & O2); cbn [set_ready_recv r_net] in O1; rewrite O1; split; [lia|]; pose proof (size_le c _ B1) as Z; unfold cost in O2; cbn [set_ready_recv r_in r_buf] in O2; rewrite U1 in O2; lia.
  - cbn [set_term r_net r_in]. rewrite U1. split; lia.
Qed.

(** In bytes: no more than a full buffer is taken from the socket; in
    messages: no more are put into the queue of incoming messages than two
    full buffers can hold the headers of, and three. *)
Theorem C144_received : forall c stream evs s e s', cfg_ok c -> rrun c evs (rinit stream) = SOk s -> rstep c e s = SOk s' ->
  lenN (r_net s) <= lenN (r_net s') + rx_maxbuf c * rx_chunk c /\
  header_size (rx_msg c) * lenN (r_in s') <= header_size (rx_msg c) * (lenN (r_in s) + 3) + 2 * (rx_maxbuf c * rx_chunk c).
Proof.
  intros c stream evs s e s' C R E. pose proof (rrun_inv c stream evs C (rinit stream) (inv_init c stream)) as I. rewrite R in I. pose proof (g_buf _ _ (i_g _ _ _ I)) as B.
  unfold rstep in E. destruct (r_crash s); [discriminate|]. destruct (negb (r_up s)); [discriminate|].
  assert (TR : lenN (r_net s) <= lenN (r_net s) + rx_maxbuf c * rx_chunk c /\ header_size (rx_msg c) * lenN (r_in s) <= header_size (rx_msg c) * (lenN (r_in s) + 3) + 2 * (rx_maxbuf c * rx_chunk c)) by lia.
  destruct e as [|ks qs| |ks qs| | | | |]; unfold when in E.
  - destruct (negb _); [|discriminate]. injection E as <-. exact TR.
  - destruct (r_rd s); [|discriminate]. pose proof (data_fine c 1 ks qs s C B) as F. destruct (recv_data c (on_read c 1) ks qs s) as [s1|e s1|]; cbn [guarded] in E; [| |discriminate E]; injection E as <-; cbn [set_term add_err r_net r_in]; lia.
  - destruct (_ || _); [|discriminate]. injection E as <-. exact TR.
  - destruct (r_timer s); [|discriminate]. destruct (match qs with [] => (true, []) | q :: r => (q, r) end) as [[|] qs']; [|injection E as <-; exact TR].
    set (s0 := set_sleep false false (add_in (r_msg s) s)) in E. assert (B0 : buf_ok c (r_buf s0)) by exact B. assert (N0 : r_net s0 = r_net s) by reflexivity.
    assert (I0 : lenN (r_in s0) = lenN (r_in s) + 1) by (unfold s0; cbn [set_sleep add_in r_in]; rewrite lenN_app; reflexivity).
    assert (K : match on_read c 1 ks qs' s0 with ORet s' | OThrow _ s' => lenN (r_net s0) <= lenN (r_net s') + rx_maxbuf c * rx_chunk c
      /\ header_size (rx_msg c) * lenN (r_in s') <= header_size (rx_msg c) * lenN (r_in s0) + 2 * (rx_maxbuf c * rx_chunk c) + 2 * header_size (rx_msg c) | OUndef => True end).
    { cbn [on_read]. change (r_sleep s0) with false. cbv iota. pose proof (parse_fine c (N.to_nat (seg_size (r_buf s0)) + 2) qs' s0 B0) as F. pose proof (size_le c _ B0) as Z0.
      destruct (parse_loop c (N.to_nat (seg_size (r_buf s0)) + 2) qs' s0) as [q1 s1|q1 s1|e s1|]; [| | |exact Logic.I]; destruct (F s1 eq_refl) as (B1 & K1 & X1 & X2); unfold cost in K1.
      - destruct (r_ready_recv s1 && _).
        + pose proof (data_fine c 0 ks q1 (set_mask true (negb (r_ready_send s1)) s1) C B1) as DF. cbn [set_mask r_net r_in] in DF. rewrite X1 in DF.
          change (match recv_data c (on_read c 0) ks q1 (set_mask true (negb (r_ready_send s1)) s1) with ORet s' | OThrow _ s' => lenN (r_net s0) <= lenN (r_net s') + rx_maxbuf c * rx_chunk c
      /\ header_size (rx_msg c) * lenN (r_in s') <= header_size (rx_msg c) * lenN (r_in s0) + 2 * (rx_maxbuf c * rx_chunk c) + 2 * header_size (rx_msg c) | OUndef => True end).
          destruct (recv_data c (on_read c 0) ks q1 _) as [s2|e s2|]; [| |exact Logic.I]; (split; [lia|]); destruct (r_payload s0); lia.
        + rewrite X1. split; [lia|]. destruct (r_payload s0); lia.
      - rewrite X1. split; [lia|]. destruct (r_payload s0); lia.
      - rewrite X1. split; [lia|]. destruct (r_payload s0); lia. }
    destruct (on_read c 1 ks qs' s0) as [s1|e s1|]; cbn [unguarded] in E; [| |discriminate E]; injection E as <-; cbn [set_crash r_net r_in]; rewrite N0, I0 in K; lia.
  - destruct (r_est s); [|discriminate]. injection E as <-. exact TR.
  - destruct (r_est s); [|discriminate]. injection E as <-. exact TR.
  - destruct (r_est s); [|discriminate]. injection E as <-. exact TR.
  - injection E as <-. exact TR.
  - destruct (r_term s); [|discriminate]. injection E as <-. exact TR.
Qed.

(** Up to three pieces of four bytes: with more than that to come, the callback
    takes 12 bytes and leaves the rest; with less, it hands the message over. *)
Example C144_receive_nonvacuous : let c := ex_cfg 4 3 16 in let stream := wires ex_msg (map empty_frame [1; 2; 3]) in
  cfg_ok c /\ exists s s' s'', rrun c [EvEstablish] (rinit stream) = SOk s /\ rstep c (EvRead [KData 4; KData 4; KData 4; KData 4; KErr] []) s = SOk s' /\ lenN (r_net s) = lenN (r_net s') + 12 /\
  rstep c (EvRead [KData 4; KData 4; KData 3] []) s = SOk s'' /\ lenN (r_net s) = lenN (r_net s'') + 11 /\ length (r_in s'') = 1%nat.
Proof.
  cbv zeta. split; [apply ex_cfg_ok; reflexivity|]. eexists. eexists. eexists. split; [vm_compute; reflexivity|]. split; [vm_compute; reflexivity|]. split; [vm_compute; reflexivity|].
  split; [vm_compute; reflexivity|]. split; vm_compute; reflexivity.
Qed.
End Recv.
Print Assumptions C144_receive_calls.
Print Assumptions C144_received.

(** ** Messages to handlers *)
Section Handlers.
Import DispModel.
(** The messages taken off the queue of incoming messages: handed to a handler,
    skipped or dropped. *)
Definition handled (t : list tr) : nat := length (filter (fun x => match x with TReg _ _ => false | _ => true end) t).
Definition below (burst : nat) (s : disp) : Prop := match d_pc s with DFunc k => k < burst | _ => True end.
(** Lemmas: what the running call may still take. *)
Definition left_d (burst : nat) (s : disp) : nat := match d_pc s with DIdle | DMore => 0 | DSig => burst | DFunc k => burst - k end.

Lemma handled_app a b : handled (a ++ b) = handled a + handled b.
Proof. unfold handled. rewrite filter_app, app_length. reflexivity. Qed.
Lemma dstep_left burst e s s' : 0 < burst -> below burst s -> dstep burst e s = Some s' ->
  below burst s' /\ (e <> DReset -> handled (d_tr s') + left_d burst s' <= handled (d_tr s) + left_d burst s).
Proof.
  intros P B E. destruct s as [q pu wo sg nf pc sy mp t]. unfold below, left_d in *. destruct e; cbn [dstep d_pc d_tr] in *.
  - destruct pc; try discriminate. injection E as <-. cbn [d_pc d_tr]. rewrite handled_app. match goal with |- context [handled [?x]] => change (handled [x]) with (match x with TReg _ _ => 0 | _ => 1 end); cbv iota end. split; [exact I|lia].
  - injection E as <-. cbn [d_pc d_tr]. split; [exact B|lia].
  - injection E as <-. cbn [d_pc d_tr]. split; [exact B|lia].
  - injection E as <-. cbn [d_pc d_tr]. split; [exact B|lia].
  - destruct pu; [discriminate|]. injection E as <-. cbn [d_pc d_tr]. split; [exact B|lia].
  - destruct wo; [discriminate|]. injection E as <-. cbn [d_pc d_tr]. split; [exact B|lia].
  - destruct pc; try discriminate. destruct nf; [|discriminate]. injection E as <-. cbn [d_pc d_tr]. split; [exact I|congruence].
  - destruct pc; try discriminate. injection E as <-. cbn [d_pc d_tr]. split; [exact P|lia].
  - destruct pc as [| |k|]; try discriminate. destruct q as [|m q]; [injection E as <-; cbn [d_pc d_tr]; split; [exact I|lia]|]. destruct (sy =? 1).
    + assert (H1 : handled (t ++ [match find_handler (m_op m) mp with Some h => TCall h m | None => TSkip m end]) = handled t + 1) by (rewrite handled_app; destruct (find_handler (m_op m) mp); reflexivity).
      injection E as <-. cbn [d_pc d_tr]. rewrite H1. change (match burst with 0 => false | S m' => k =? m' end) with (S k =? burst). destruct (Nat.eqb_spec (S k) burst); [split; [exact I|lia]|split; lia].
    + injection E as <-. cbn [d_pc d_tr]. rewrite handled_app. match goal with |- context [handled [?x]] => change (handled [x]) with (match x with TReg _ _ => 0 | _ => 1 end); cbv iota end. split; [exact I|lia].
  - destruct pc; try discriminate. injection E as <-. cbn [d_pc d_tr]. split; [exact I|lia].
Qed.
Lemma drun_below burst evs : 0 < burst -> forall s s', below burst s -> drun burst evs s = Some s' -> below burst s'.
Proof.
  intros P. induction evs as [|e evs IH]; intros s s' B E; cbn [drun] in E; [injection E as <-; exact B|]. destruct (dstep burst e s) as [s1|] eqn:Q; [|discriminate].
  exact (IH s1 s' (proj1 (dstep_left _ _ _ _ P B Q)) E).
Qed.
Lemma drun_left burst evs : 0 < burst -> forall s s', below burst s -> drun burst evs s = Some s' -> ~ In DReset evs -> handled (d_tr s') + left_d burst s' <= handled (d_tr s) + left_d burst s.
Proof.
  intros P. induction evs as [|e evs IH]; intros s s' B E N; cbn [drun] in E; [injection E as <-; lia|]. destruct (dstep burst e s) as [s1|] eqn:Q; [|discriminate].
  destruct (dstep_left _ _ _ _ P B Q) as (B1 & L). specialize (IH s1 s' B1 E ltac:(intros X; apply N; right; exact X)). specialize (L ltac:(intros ->; apply N; left; reflexivity)). lia.
Qed.

(** Between two calls of the queue's handler by the loop (DReset) at most
    burst_size messages are taken, whatever the workers put in meanwhile. *)
Theorem C144_messages : forall burst evs1 s evs2 s', 0 < burst -> drun burst evs1 d_new = Some s -> drun burst evs2 s = Some s' -> ~ In DReset evs2 ->
  handled (d_tr s') <= handled (d_tr s) + burst.
Proof.
  intros burst evs1 s evs2 s' P E1 E2 N. pose proof (drun_below burst evs1 P d_new s I E1) as B. pose proof (drun_left burst evs2 P s s' B E2 N) as L.
  unfold left_d in L. destruct (d_pc s); lia.
Qed.

(** Config::burst_size(0) is no limit: one call handles any number. *)
Definition feed_d (m : msg) (n : nat) : list dev := concat (repeat [DPush m; DDeq] n).
Lemma feed_d_run m : forall n s k, d_pc s = DFunc k -> d_q s = [] -> d_sys s = 1 -> exists s', drun 0 (feed_d m n) s = Some s' /\ d_pc s' = DFunc (k + n) /\ handled (d_tr s') = handled (d_tr s) + n.
Proof.
  induction n as [|n IH]; intros s k P Q Y; [exists s; rewrite Nat.add_0_r, Nat.add_0_r; auto|]. destruct s as [q pu wo sg nf pc sy mp t]. cbn [d_pc d_q d_sys] in *. subst.
  unfold feed_d. cbn [repeat concat app drun dstep Nat.eqb]. fold (feed_d m n).
  match goal with |- exists s', drun 0 _ ?x = _ /\ _ => destruct (IH x (S k) eq_refl eq_refl eq_refl) as (s' & E & P' & H) end.
  exists s'. split; [exact E|]. split; [rewrite P'; f_equal; lia|]. rewrite H. cbn [d_tr]. rewrite handled_app. destruct (find_handler (m_op m) mp); cbn; lia.
Qed.
Theorem C144_messages_zero : forall n, exists evs1 s evs2 s', drun 0 evs1 d_new = Some s /\ drun 0 evs2 s = Some s' /\ ~ In DReset evs2 /\ handled (d_tr s') = handled (d_tr s) + n.
Proof.
  intros n. pose (m := mkMsg 7%N 0). pose (a := [DStart; DPush m; DExch; DNotify; DReset; DSigs; DDeq]).
  assert (E0 : exists s, drun 0 a d_new = Some s /\ d_pc s = DFunc 1 /\ d_q s = [] /\ d_sys s = 1) by (eexists; split; [reflexivity|]; repeat split).
  destruct E0 as (s & E0 & P & Q & Y). destruct (feed_d_run m n s 1 P Q Y) as (s' & E & _ & H). exists a, s, (feed_d m n), s'. repeat split; auto.
  intros X. unfold feed_d in X. apply in_concat in X. destruct X as (l & L & X). apply repeat_spec in L. subst l. destruct X as [X|[X|[]]]; discriminate X.
Qed.

(** Three messages, two per call: the third waits for the next one. *)
Example C144_messages_nonvacuous : let m := mkMsg 7%N in
  exists s s', drun 2 [DSet 7 4; DStart; DPush (m 0); DExch; DNotify; DPush (m 1); DPush (m 2)] d_new = Some s /\
  drun 2 [DReset; DSigs; DDeq; DDeq; DRenotify] s = Some s' /\ d_tr s' = [TReg 7 4; TCall 4 (m 0); TCall 4 (m 1)] /\ d_q s' = [m 2] /\ drun 2 [DReset; DSigs; DDeq; DDeq; DDeq] s = None.
Proof. cbv zeta. eexists. eexists. split; [reflexivity|]. split; [reflexivity|]. repeat split. Qed.
End Handlers.
Print Assumptions C144_messages.
Print Assumptions C144_messages_zero.

(** ** Tasks posted to a loop *)
Section Tasks.
Import CallModel.
Definition below_t (burst : nat) (s : tcall) : Prop := match k_pc s with LFunc k => k < burst | _ => True end.
Definition left_t (burst : nat) (s : tcall) : nat := match k_pc s with LIdle | LMore => 0 | LSig => burst | LFunc k => burst - k end.
Lemma tstep_left burst e s s' : 0 < burst -> below_t burst s -> tstep burst e s = Some s' ->
  below_t burst s' /\ (e <> TReset -> length (k_done s') + left_t burst s' <= length (k_done s) + left_t burst s).
Proof.
  intros P B E. destruct s as [q pu wo sg nf pc st dn an gn]. unfold below_t, left_t in *. cbn [tstep] in E. destruct gn; [discriminate|]. destruct e; cbn [k_pc k_done] in *.
  - injection E as <-. cbn. split; [exact B|lia].
  - destruct pu; [discriminate|]. injection E as <-. cbn. split; [exact B|lia].
  - destruct wo; [discriminate|]. injection E as <-. cbn. split; [exact B|lia].
  - injection E as <-. cbn. split; [exact B|lia].
  - destruct pc; try discriminate. destruct nf; [|discriminate]. injection E as <-. cbn. split; [exact I|congruence].
  - destruct pc; try discriminate. injection E as <-. cbn. split; [exact P|lia].
  - destruct pc as [| |k|]; try discriminate. destruct q as [|m q]; [injection E as <-; cbn; split; [exact I|lia]|].
    injection E as <-. cbn [k_pc k_done]. rewrite app_length. cbn [length]. change (match burst with 0 => false | S m' => k =? m' end) with (S k =? burst). destruct (Nat.eqb_spec (S k) burst); [split; [exact I|lia]|split; lia].
  - destruct pc; try discriminate. injection E as <-. cbn. split; [exact I|lia].
  - destruct pc; try discriminate. injection E as <-. cbn. split; [exact I|lia].
Qed.
Lemma trun_below burst evs : 0 < burst -> forall s s', below_t burst s -> trun burst evs s = Some s' -> below_t burst s'.
Proof.
  intros P. induction evs as [|e evs IH]; intros s s' B E; cbn [trun] in E; [injection E as <-; exact B|]. destruct (tstep burst e s) as [s1|] eqn:Q; [|discriminate].
  exact (IH s1 s' (proj1 (tstep_left _ _ _ _ P B Q)) E).
Qed.
Lemma trun_left burst evs : 0 < burst -> forall s s', below_t burst s -> trun burst evs s = Some s' -> ~ In TReset evs -> length (k_done s') + left_t burst s' <= length (k_done s) + left_t burst s.
Proof.
  intros P. induction evs as [|e evs IH]; intros s s' B E N; cbn [trun] in E; [injection E as <-; lia|]. destruct (tstep burst e s) as [s1|] eqn:Q; [|discriminate].
  destruct (tstep_left _ _ _ _ P B Q) as (B1 & L). specialize (IH s1 s' B1 E ltac:(intros X; apply N; right; exact X)). specialize (L ltac:(intros ->; apply N; left; reflexivity)). lia.
Qed.

(** Between two calls of the handler by the loop (TReset) at most burst_size
    tasks are dequeued, also when tasks post further ones. *)
Theorem C144_tasks : forall burst evs1 s evs2 s', 0 < burst -> trun burst evs1 tc_new = Some s -> trun burst evs2 s = Some s' -> ~ In TReset evs2 ->
  length (k_done s') <= length (k_done s) + burst.
Proof.
  intros burst evs1 s evs2 s' P E1 E2 N. pose proof (trun_below burst evs1 P tc_new s I E1) as B. pose proof (trun_left burst evs2 P s s' B E2 N) as L.
  unfold left_t in L. destruct (k_pc s); lia.
Qed.

Example C144_tasks_nonvacuous : let t := fun i => mkTask i true (OVal (Some i)) in
  exists s s', trun 2 [TPost (t 0); TExch; TNotify; TPost (t 1); TPost (t 2)] tc_new = Some s /\
  trun 2 [TReset; TSig; TDeq; TDeq; TRenotify] s = Some s' /\ k_done s' = [(t 0, true); (t 1, true)] /\ k_q s' = [t 2] /\ trun 2 [TReset; TSig; TDeq; TDeq; TDeq] s = None.
Proof. cbv zeta. eexists. eexists. split; [reflexivity|]. split; [reflexivity|]. repeat split. Qed.
End Tasks.
Print Assumptions C144_tasks.

(** ** Sending *)
Section Sends.
Import SendModel.
Definition is_send (e : sev) : bool := match e with SvSend _ => true | _ => false end.
Definition is_push (e : sev) : bool := match e with SvPush _ _ => true | _ => false end.
(** The events with which the loop calls a callback that sends. *)
Definition calls (e : sev) : bool := match e with SvHandler | SvWritable => true | _ => false end.
Definition count (f : sev -> bool) (evs : list sev) : nat := length (filter f evs).

(** What one would expect: in whatever state a connection is, there is a bound
    on the send() calls made before the loop gets control back. *)
Definition C144_sends_full : Prop := exists B : sconn -> nat, forall evs1 s evs2 s', srun evs1 sinit = Some s -> srun evs2 s = Some s' -> count calls evs2 = 0 -> count is_send evs2 <= B s.

Definition todo (s : sconn) : nat := match s_pc s with WIdle | WEnd => 0 | WHold _ => S (length (s_q s)) | _ => length (s_q s) end.
Definition b2n (b : bool) : nat := if b then 1 else 0.
Lemma sstep_todo e s s' : sstep e s = Some s' -> calls e = false -> b2n (is_send e) + todo s' <= todo s + b2n (is_push e).
Proof.
  intros E C. destruct s as [q pu wo sg nf pc rd wr rg es up tm sn ac]. unfold todo.
  destruct e as [d ok| | | | | | | | | | | | |r| | |]; cbn in E, C |- *; try discriminate C; unfold when, idle in E; cbn in E.
  - injection E as <-. destruct ok; cbn; destruct pc; try rewrite app_length; cbn; lia.
  - destruct pu; [discriminate|]. injection E as <-. cbn. lia.
  - destruct wo; [discriminate|]. injection E as <-. cbn. lia.
  - destruct (_ && _); [|discriminate]. injection E as <-. cbn. lia.
  - destruct (_ && _); [|discriminate]. injection E as <-. cbn. lia.
  - destruct (_ && _); [|discriminate]. injection E as <-. cbn. lia.
  - destruct (_ && _); [|discriminate]. injection E as <-. cbn. lia.
  - destruct pc; try discriminate. injection E as <-. cbn. lia.
  - destruct pc; try discriminate. injection E as <-. destruct rd; cbn; lia.
  - destruct (_ && _); [|discriminate]. injection E as <-. cbn. lia.
  - destruct pc; try discriminate. injection E as <-. destruct q as [|d q]; [cbn; lia|]. destruct (lenN d =? 0)%N; cbn; lia.
  - destruct pc as [| | | |d|]; try discriminate. destruct r as [n| |].
    + destruct (lenN d <? n)%N; [discriminate|]. destruct (n =? lenN d)%N; injection E as <-; cbn; lia.
    + injection E as <-. cbn. lia.
    + injection E as <-. cbn. lia.
  - destruct pc; try discriminate. injection E as <-. cbn. lia.
  - injection E as <-. cbn. lia.
  - destruct (_ && _); [|discriminate]. injection E as <-. cbn. lia.
Qed.

(** It makes no more than there are segments in the queue, one it holds, and
    those that writers add meanwhile. *)
Theorem C144_sends_partial : forall evs s s', srun evs s = Some s' -> count calls evs = 0 -> count is_send evs <= length (s_q s) + 1 + count is_push evs.
Proof.
  assert (K : forall evs s s', srun evs s = Some s' -> count calls evs = 0 -> count is_send evs + todo s' <= todo s + count is_push evs).
  { induction evs as [|e evs IH]; intros s s' E C; cbn [srun] in E; [injection E as <-; cbn; lia|]. destruct (sstep e s) as [s1|] eqn:Q; [|discriminate].
    unfold count in *. cbn [filter] in *. destruct (calls e) eqn:CE; [discriminate C|]. pose proof (sstep_todo e s s1 Q CE) as L. specialize (IH s1 s' E C). destruct (is_send e), (is_push e); cbn [length b2n] in *; lia. }
  intros evs s s' E C. specialize (K evs s s' E C). assert (todo s <= length (s_q s) + 1) by (unfold todo; destruct (s_pc s); lia). lia.
Qed.

(** A writer that goes on writing: the worker does not leave the loop. *)
Definition one : list sev := [SvPush [x01] true; SvPop; SvSend (SendN 1)].
Definition feed_s (n : nat) : list sev := concat (repeat one n).
Lemma feed_s_run : forall n s, s_pc s = WLoop -> s_q s = [] -> exists s', srun (feed_s n) s = Some s' /\ s_pc s' = WLoop /\ lenN (s_sent s') = (lenN (s_sent s) + N.of_nat n)%N.
Proof.
  induction n as [|n IH]; intros s P Q; [exists s; cbn; rewrite N.add_0_r; auto|]. destruct s as [q pu wo sg nf pc rd wr rg es up tm sn ac]. cbn in P, Q. subst.
  unfold feed_s. cbn [repeat concat one app]. fold (feed_s n). cbn [srun sstep add_acc set_q set_prod s_q s_pushed s_won s_sig s_nfd s_pc s_ready s_wr s_reg s_est s_up s_term s_sent s_acc app].
  change (lenN [x01] =? 0)%N with false. cbn [set_pc set_q s_q s_pushed s_won s_sig s_nfd s_pc s_ready s_wr s_reg s_est s_up s_term s_sent s_acc]. change (lenN [x01] <? 1)%N with false. change (1 =? lenN [x01])%N with true. cbv iota.
  match goal with |- exists s', srun _ ?x = _ /\ _ => destruct (IH x eq_refl eq_refl) as (s' & E & P' & L) end.
  exists s'. split; [exact E|]. split; [exact P'|]. rewrite L. cbn [set_pc add_sent add_acc set_q set_prod s_sent]. rewrite lenN_app. change (lenN [x01]) with 1%N. lia.
Qed.
Lemma feed_s_count n : count calls (feed_s n) = 0 /\ count is_send (feed_s n) = n.
Proof.
  induction n as [|n [A B]]; [split; reflexivity|]. unfold feed_s in *. cbn [repeat concat]. unfold count in *. rewrite !filter_app, !app_length, A, B. split; reflexivity.
Qed.
Definition opened : list sev := [SvReg; SvEstablish; SvWritable].
Lemma opened_run : exists s, srun opened sinit = Some s /\ s_pc s = WLoop /\ s_q s = [].
Proof. eexists. split; [reflexivity|]. split; reflexivity. Qed.

(** From one and the same state: any number of send() calls and bytes in one
    callback, at the end of which the worker still is in its loop. *)
Theorem C144_sends_unbounded_refuted : exists evs1 s, srun evs1 sinit = Some s /\ forall n, exists evs2 s', srun evs2 s = Some s' /\ count calls evs2 = 0 /\ s_pc s' <> WIdle /\
  count is_send evs2 = n /\ lenN (s_sent s') = (lenN (s_sent s) + N.of_nat n)%N.
Proof.
  destruct opened_run as (s & E & P & Q). exists opened, s. split; [exact E|]. intros n. destruct (feed_s_run n s P Q) as (s' & E' & P' & L). destruct (feed_s_count n) as (A & B).
  exists (feed_s n), s'. rewrite P'. repeat split; auto. discriminate.
Qed.
Theorem C144_sends_full_refuted : ~ C144_sends_full.
Proof.
  intros (B & H). destruct C144_sends_unbounded_refuted as (evs1 & s & E & K). destruct (K (S (B s))) as (evs2 & s' & E2 & C & _ & N & _). specialize (H evs1 s evs2 s' E E2 C). lia.
Qed.
End Sends.
Print Assumptions C144_sends_partial.
Print Assumptions C144_sends_unbounded_refuted.
Print Assumptions C144_sends_full_refuted.

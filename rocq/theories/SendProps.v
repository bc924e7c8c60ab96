(** C32, C33 and C35: the send side and end-to-end delivery. *)
From Coq Require Import Arith NArith ZArith List Bool Lia.
From Coq.Init Require Import Byte.
From Verif Require Import Base MsgModel MsgProps RecvModel RecvSpec RecvProofs RecvProps SendModel.
Import ListNotations.
Local Open Scope N_scope.

Ltac scbn := cbn [s_q s_pushed s_won s_sig s_nfd s_pc s_ready s_wr s_reg s_est s_up s_term s_sent s_acc
  set_q set_prod set_pc set_ctl set_life add_sent add_acc].

Ltac scase ev s E :=
  destruct ev; cbn [sstep] in E; unfold SendModel.when in E.

(** ** C32 *)

Definition held (s : sconn) : bytes := match s_pc s with WHold d => d | _ => [] end.

Lemma concat_snoc (l : list bytes) d : concat (l ++ [d]) = concat l ++ d.
Proof. rewrite concat_app. cbn. rewrite app_nil_r. reflexivity. Qed.

Lemma lenN_zero (d : bytes) : lenN d = 0 -> d = [].
Proof. destruct d; [reflexivity|]. unfold lenN. cbn. lia. Qed.

Ltac some E := first [discriminate E | injection E as <-].

Lemma step_bytes ev s s' : sstep ev s = Some s' ->
  s_sent s ++ held s ++ concat (s_q s) = concat (s_acc s) ->
  s_sent s' ++ held s' ++ concat (s_q s') = concat (s_acc s').
Proof.
  intros E H. unfold held in *. destruct ev; cbn [sstep] in E; unfold SendModel.when, idle in E.
  - destruct ok; some E; scbn; [|exact H]. rewrite !concat_snoc, <- H, <- !app_assoc. reflexivity.
  - destruct (s_pushed s); some E. exact H.
  - destruct (s_won s); some E. exact H.
  - destruct (_ && _) eqn:B; some E. exact H.
  - destruct (_ && _) eqn:B; some E. exact H.
  - destruct (_ && _) eqn:B; some E. exact H.
  - destruct (_ && _) eqn:B; some E. exact H.
  - destruct (s_pc s) eqn:P; cbn in E; try discriminate. destruct (_ && _) eqn:B; some E. scbn. exact H.
  - destruct (s_pc s) eqn:P; some E. scbn. exact H.
  - destruct (s_pc s) eqn:P; some E. destruct (s_ready s); scbn; exact H.
  - destruct (s_pc s) eqn:P; cbn in E; try discriminate. destruct (_ && _) eqn:B; some E. scbn. exact H.
  - destruct (_ && _) eqn:B; some E. exact H.
  - destruct (s_pc s) eqn:P; some E. destruct (s_q s) as [|d q] eqn:Q; [scbn; rewrite Q; exact H|].
    destruct (N.eqb_spec (lenN d) 0) as [Z|Z]; scbn.
    + apply lenN_zero in Z. subst d. exact H.
    + exact H.
  - destruct (s_pc s) eqn:P; try discriminate. destruct r as [n| |].
    + destruct (lenN d <? n); [discriminate|]. destruct (n =? lenN d); some E; scbn.
      * rewrite <- H, <- !app_assoc. reflexivity.
      * cbn [concat app]. rewrite <- H, <- !app_assoc. f_equal. rewrite !app_assoc. f_equal. apply takeN_dropN.
    + some E. scbn. exact H.
    + some E. scbn. exact H.
  - destruct (s_pc s) eqn:P; some E. scbn. exact H.
  - some E. exact H.
  - destruct (_ && _) eqn:B; some E. exact H.
Qed.

(** Whatever the threads, the kernel and the callbacks do, what was sent is
    followed by what is still held and queued to give exactly the accepted
    writes, whole and in acceptance order. *)
Theorem C32_sent_in_order : forall evs s, srun evs sinit = Some s ->
  s_sent s ++ held s ++ concat (s_q s) = concat (s_acc s).
Proof.
  assert (H : forall evs s0 s, s_sent s0 ++ held s0 ++ concat (s_q s0) = concat (s_acc s0) -> srun evs s0 = Some s ->
     s_sent s ++ held s ++ concat (s_q s) = concat (s_acc s)).
  { induction evs as [|ev evs IH]; intros s0 s H R; cbn [srun] in R.
    - injection R as <-. exact H.
    - destruct (sstep ev s0) as [s1|] eqn:E; [|discriminate]. apply (IH s1 s); auto. apply (step_bytes _ _ _ E H). }
  intros evs s R. apply (H evs sinit s); auto.
Qed.
Print Assumptions C32_sent_in_order.

(** The bytes on the wire are a prefix of the accepted writes, and what the
    callers passed is what is accepted. *)
Fixpoint accepted (evs : list sev) : list bytes :=
  match evs with
  | [] => []
  | SvPush d true :: evs => d :: accepted evs
  | _ :: evs => accepted evs
  end.

Lemma step_acc ev s s' : sstep ev s = Some s' -> s_acc s' = s_acc s ++ accepted [ev].
Proof.
  intros E. destruct ev; cbn [sstep accepted] in *; unfold SendModel.when in E; rewrite ?app_nil_r.
  - destruct ok; some E; [reflexivity|rewrite app_nil_r; reflexivity].
  - destruct (s_pushed s); some E. reflexivity.
  - destruct (s_won s); some E. reflexivity.
  - destruct (_ && _); some E. reflexivity.
  - destruct (_ && _); some E. reflexivity.
  - destruct (_ && _); some E. reflexivity.
  - destruct (_ && _); some E. reflexivity.
  - destruct (_ && _); some E. reflexivity.
  - destruct (s_pc s); some E. reflexivity.
  - destruct (s_pc s); some E. destruct (s_ready s); reflexivity.
  - destruct (_ && _); some E. reflexivity.
  - destruct (_ && _); some E. reflexivity.
  - destruct (s_pc s); some E. destruct (s_q s) as [|d q]; [reflexivity|]. destruct (_ =? _); reflexivity.
  - destruct (s_pc s); try discriminate. destruct r as [n| |].
    + destruct (_ <? _); [discriminate|]. destruct (_ =? _); some E; reflexivity.
    + some E. reflexivity.
    + some E. reflexivity.
  - destruct (s_pc s); some E. reflexivity.
  - some E. reflexivity.
  - destruct (_ && _); some E. reflexivity.
Qed.

Lemma accepted_cons ev evs : accepted (ev :: evs) = accepted [ev] ++ accepted evs.
Proof. destruct ev as [d [|]| | | | | | | | | | | | | | | |]; reflexivity. Qed.

Lemma run_acc evs : forall s s', srun evs s = Some s' -> s_acc s' = s_acc s ++ accepted evs.
Proof.
  induction evs as [|ev evs IH]; intros s s' R; cbn [srun] in R.
  - injection R as <-. symmetry. apply app_nil_r.
  - destruct (sstep ev s) as [s1|] eqn:E; [|discriminate]. rewrite (IH _ _ R), (step_acc _ _ _ E), (accepted_cons ev evs), <- app_assoc. reflexivity.
Qed.

Theorem C32_wire_prefix : forall evs s, srun evs sinit = Some s ->
  exists rest, concat (accepted evs) = s_sent s ++ rest
    /\ (s_q s = [] -> idle s = true -> rest = []).
Proof.
  intros evs s R. exists (held s ++ concat (s_q s)). rewrite (C32_sent_in_order evs s R), (run_acc evs _ _ R). split; [reflexivity|].
  intros Q I. unfold held, idle in *. rewrite Q. destruct (s_pc s); try discriminate. reflexivity.
Qed.
Print Assumptions C32_wire_prefix.

Example C32_nonvacuous : exists s,
  srun [SvReg; SvPush [x61; x62; x63] true; SvExch; SvPush [x64] true; SvEstablish; SvWritable; SvPop; SvPush [x65] true; SvSend (SendN 2); SvNotify;
        SvHandler; SvSig; SvExch; SvFunc; SvWritable; SvPop; SvSend (SendN 1); SvPop; SvSend SendBlock] sinit = Some s
  /\ s_sent s = [x61; x62; x63] /\ s_q s = [[x64]; [x65]] /\ accepted [SvPush [x61] true; SvPush [x62] false; SvPush [x63] true] = [[x61]; [x63]].
Proof. eexists. split; [vm_compute; reflexivity|]. repeat split; reflexivity. Qed.

(** ** C33 *)

Definition sending (pc : wpc) : bool := match pc with WLoop | WHold _ | WEnd => true | _ => false end.

(** A write in progress, or a notification not yet handled. *)
Definition token (s : sconn) : Prop := (0 < s_pushed s)%nat \/ (0 < s_won s)%nat \/ s_nfd s = true.

(** Why nothing is forgotten. *)
Record SInv (s : sconn) : Prop := mkSInv {
  v_full : Forall (fun d => d <> []) (s_q s);
  v_held : forall d, s_pc s = WHold d -> d <> [];
  v_sig : s_sig s = false -> (0 < s_won s)%nat \/ s_nfd s = true \/ s_pc s = WSig;
  v_tok : s_q s <> [] -> s_pc s = WEnd \/ (s_pc s = WIdle /\ (s_ready s = true \/ s_reg s = false)) -> s_term s = false -> token s;
  v_wr : sending (s_pc s) = true -> s_wr s = true;
  v_arm : s_up s = true -> s_est s = true -> s_term s = false -> s_ready s = false -> s_wr s = true;
  v_pre : s_up s = true -> s_reg s = false -> s_wr s = false /\ s_pc s = WIdle;
  v_est : s_up s = true -> s_est s = true -> s_reg s = true;
  v_down : s_up s = false -> s_term s = true }.

Lemma sinv_init : SInv sinit.
Proof. constructor; cbn; try discriminate; auto. intros X; congruence. Qed.

Lemma idle_eq s : idle s = true -> s_pc s = WIdle.
Proof. unfold idle. destruct (s_pc s); congruence. Qed.

Lemma drop_nonempty n (d : bytes) : n < lenN d -> dropN n d <> [].
Proof. intros L E. apply (f_equal lenN) in E. rewrite lenN_dropN in E. change (lenN (@nil byte)) with 0 in E. lia. Qed.

Ltac bools := repeat match goal with H : _ && _ = true |- _ => apply andb_prop in H; destruct H | H : negb _ = true |- _ => apply negb_true_iff in H end.

Ltac fin := solve
  [ auto using Nat.lt_0_succ | discriminate | congruence | intros; discriminate | intros; congruence
  | match goal with I3 : s_sig _ = false -> _ |- s_sig _ = false -> _ =>
      let X := fresh in let Y := fresh in intros X; destruct (I3 X) as [Y|[Y|Y]]; auto; congruence end
  | let S := fresh in intros _ [S|(S & _)]; discriminate
  | match goal with I7 : s_up _ = true -> s_reg _ = false -> _ |- s_up _ = true -> s_reg _ = false -> _ =>
      let U := fresh in let G := fresh in intros U G; destruct (I7 U G); congruence end
  | match goal with H : s_pc _ = _ |- sending _ = true -> _ => rewrite H; discriminate end ].

Lemma step_sinv ev s s' : sstep ev s = Some s' -> Forall (fun d => d <> []) (accepted [ev]) -> SInv s -> SInv s'.
Proof.
  intros E N [I1 I2 I3 I4 I5 I6 I7 I8 I9]. unfold token in *.
  destruct ev; cbn [sstep] in E; unfold SendModel.when in E.
  - destruct ok; some E; [|constructor; auto]. cbn [accepted] in N. inversion N; subst.
    constructor; unfold token; scbn; try fin. apply Forall_app; auto.
  - destruct (s_pushed s) as [|p] eqn:P; some E. constructor; unfold token; scbn; try fin.
    + intros _. destruct (s_sig s); [left; apply Nat.lt_0_succ|]. apply I3. reflexivity.
    + intros Q S T. destruct (s_sig s) eqn:SG; [right; left; apply Nat.lt_0_succ|]. destruct (I3 eq_refl) as [X|[X|X]]; auto.
      destruct S as [S|(S & _)]; congruence.
  - destruct (s_won s) as [|w] eqn:W; some E. constructor; unfold token; scbn; try fin.
  - destruct (_ && _) eqn:B; some E. bools. match goal with X : idle s = true |- _ => apply idle_eq in X end. constructor; unfold token; scbn; try fin.
  - destruct (_ && _) eqn:B; some E. bools. match goal with X : idle s = true |- _ => apply idle_eq in X end. constructor; unfold token; scbn; try fin.
  - destruct (_ && _) eqn:B; some E. bools. match goal with X : idle s = true |- _ => apply idle_eq in X end. constructor; unfold token; scbn; try fin.
  - destruct (_ && _) eqn:B; some E. bools. match goal with X : idle s = true |- _ => apply idle_eq in X end. constructor; unfold token; scbn; try fin.
    + intros _ _ _ ->. reflexivity.
    + intros U R. rewrite I8 in R by assumption. discriminate.
  - destruct (_ && _) eqn:B; some E. bools. match goal with X : idle s = true |- _ => apply idle_eq in X end. constructor; unfold token; scbn; try fin.
  - destruct (s_pc s) eqn:P; some E. constructor; unfold token; scbn; try fin.
  - destruct (s_pc s) eqn:P; some E. destruct (s_ready s) eqn:R; constructor; unfold token; scbn; try fin.
    intros _ [S|(_ & [S|S])] T; try discriminate; try congruence.
    destruct (s_up s) eqn:U; [|rewrite I9 in T; [discriminate|reflexivity]]. destruct (I7 eq_refl S). discriminate.
  - destruct (_ && _) eqn:B; some E. bools. match goal with X : idle s = true |- _ => apply idle_eq in X end. constructor; unfold token; scbn; try fin.
  - destruct (_ && _) eqn:B; some E. constructor; unfold token; scbn; try fin.
  - destruct (s_pc s) eqn:P; some E.
    assert (PS : forall pc q, (pc = WEnd \/ exists d, pc = WHold d /\ d <> []) -> (pc = WEnd -> q = []) -> Forall (fun d => d <> []) q -> SInv (set_pc pc (set_q q s))).
    { intros pc q HP HQ F. constructor; unfold token; scbn; try fin.
      - intros d ->. destruct HP as [X|(d' & X & Y)]; [discriminate|congruence].
      - intros Q [S|(S & _)]; [exfalso; auto|]. destruct HP as [X|(d' & X & Y)]; congruence. }
    destruct (s_q s) as [|d q] eqn:Q.
    + replace s with (set_q [] s) by (destruct s; cbn in *; subst; reflexivity). apply PS; auto.
    + inversion I1; subst. destruct (N.eqb_spec (lenN d) 0) as [Z|Z]; [apply lenN_zero in Z; contradiction|].
      apply PS; [right; exists d; auto|discriminate|assumption].
  - destruct (s_pc s) eqn:P; try discriminate. pose proof (I2 _ eq_refl) as D. assert (W : s_wr s = true) by (apply I5; reflexivity).
    assert (VR : s_term s = false -> s_reg s = false -> False).
    { intros T G. destruct (s_up s) eqn:U; [destruct (I7 eq_refl G); discriminate|]. rewrite I9 in T; [discriminate|reflexivity]. }
    destruct r as [n| |].
    + destruct (N.ltb_spec (lenN d) n) as [|LE]; [discriminate|]. destruct (N.eqb_spec n (lenN d)) as [Z|Z]; some E.
      * constructor; unfold token; scbn; try fin.
      * constructor; unfold token; scbn; try fin.
        -- constructor; auto. apply drop_nonempty. revert LE Z. clear. lia.
        -- intros _ [S|(_ & [S|S])] T; try discriminate. destruct (VR T S).
    + some E. constructor; unfold token; scbn; try fin.
      intros _ [S|(_ & [S|S])] T; try discriminate. destruct (VR T S).
    + some E. constructor; unfold token; scbn; try fin.
  - destruct (s_pc s) eqn:P; some E. constructor; unfold token; scbn; try fin.
  - some E. constructor; unfold token; scbn; try fin.
  - destruct (_ && _) eqn:B; some E. bools. match goal with X : idle s = true |- _ => apply idle_eq in X end. constructor; unfold token; scbn; try fin.
Qed.

Lemma run_sinv evs : forall s s', srun evs s = Some s' -> Forall (fun d => d <> []) (accepted evs) -> SInv s -> SInv s'.
Proof.
  induction evs as [|ev evs IH]; intros s s' R N I; cbn [srun] in R.
  - injection R as <-. exact I.
  - destruct (sstep ev s) as [s1|] eqn:E; [|discriminate]. rewrite (accepted_cons ev evs) in N. apply Forall_app in N.
    apply (IH s1 s'); [exact R|apply N|]. apply (step_sinv ev s s1 E); [apply N|exact I].
Qed.

(** The worker running alone on a socket that accepts everything. *)
Inductive wrun : sconn -> nat -> sconn -> Prop :=
| wrun_here s : wrun s 0 s
| wrun_step s ev s1 n s' :
    match ev with
    | SvHandler | SvSig | SvFunc | SvWritable | SvPop | SvEnd => True
    | SvSend (SendN k) => k = lenN (held s)
    | _ => False
    end -> sstep ev s = Some s1 -> wrun s1 n s' -> wrun s (S n) s'.

(** No callback is running and no event of the worker is pending. *)
Definition quiet (s : sconn) : Prop := s_pc s = WIdle /\ s_nfd s = false /\ s_wr s = false.

Definition rank (s : sconn) : nat :=
  2 * length (s_q s) + (if s_nfd s then 10 else 0)
  + match s_pc s with WIdle => if s_wr s then 4 else 0 | WSig => 9 | WFunc => 8 | WLoop => 3 | WHold _ => 4 | WEnd => 1 end.

Definition can_step (s : sconn) : Prop := exists ev s1, 
    match ev with
    | SvHandler | SvSig | SvFunc | SvWritable | SvPop | SvEnd => True
    | SvSend (SendN k) => k = lenN (held s)
    | _ => False
    end /\ sstep ev s = Some s1.

Lemma wrun_keeps s n s' : wrun s n s' ->
  (n + rank s' <= rank s)%nat /\ s_est s' = s_est s /\ s_up s' = s_up s /\ s_term s' = s_term s
  /\ s_reg s' = s_reg s /\ s_pushed s' = s_pushed s /\ s_won s' = s_won s /\ s_acc s' = s_acc s
  /\ exists evs, srun evs s = Some s' /\ accepted evs = [].
Proof.
  induction 1 as [s|s ev s1 n s' A E W IH].
  - repeat (split; [solve [lia | reflexivity]|]). exists []. auto.
  - destruct IH as (R & B1 & B2 & B3 & B4 & B5 & B6 & B7 & evs & R2 & AC).
    assert (X : (1 + rank s1 <= rank s)%nat /\ s_est s1 = s_est s /\ s_up s1 = s_up s /\ s_term s1 = s_term s
       /\ s_reg s1 = s_reg s /\ s_pushed s1 = s_pushed s /\ s_won s1 = s_won s /\ s_acc s1 = s_acc s /\ accepted [ev] = []).
    { unfold rank. destruct ev; try contradiction; cbn [sstep] in E; unfold SendModel.when in E.
      - destruct (_ && _) eqn:B; some E. bools. apply idle_eq in H. scbn. rewrite H, H0. 
        split; [destruct (s_wr s); clear; lia|repeat split].
      - destruct (s_pc s) eqn:P; some E. scbn. split; [clear; lia|repeat split].
      - destruct (s_pc s) eqn:P; some E. destruct (s_ready s); scbn; (split; [|repeat split]); destruct (s_wr s); clear; lia.
      - destruct (_ && _) eqn:B; some E. bools. apply idle_eq in H. scbn. rewrite H, H0. split; [clear; lia|repeat split].
      - destruct (s_pc s) eqn:P; some E. destruct (s_q s) as [|d q] eqn:Q; [scbn; rewrite Q; split; [cbn [length]; clear; lia|repeat split]|].
        destruct (_ =? _); scbn; cbn [length]; (split; [clear; lia|repeat split]).
      - destruct (s_pc s) eqn:P; try (destruct r; discriminate). destruct r as [k| |]; try contradiction.
        unfold held in A. rewrite P in A. subst k. rewrite N.ltb_irrefl, N.eqb_refl in E. some E. scbn. split; [clear; lia|repeat split].
      - destruct (s_pc s) eqn:P; some E. scbn. split; [clear; lia|repeat split]. }
    destruct X as (X1 & X2 & X3 & X4 & X5 & X6 & X7 & X8 & X9).
    split; [revert X1 R; clear; lia|]. do 7 (split; [congruence|]). exists (ev :: evs). split; [cbn [srun]; rewrite E; exact R2|].
    rewrite accepted_cons, X9, AC. reflexivity.
Qed.

Lemma stuck_quiet s : s_up s = true -> s_reg s = true -> ~ can_step s -> quiet s.
Proof.
  intros U G NC. unfold quiet.
  destruct (s_pc s) eqn:P.
  - split; [reflexivity|]. split.
    + destruct (s_nfd s) eqn:N; [|reflexivity]. exfalso. apply NC. exists SvHandler. eexists. split; [exact I|].
      cbn [sstep]. unfold SendModel.when, idle. rewrite P, U, G, N. reflexivity.
    + destruct (s_wr s) eqn:N; [|reflexivity]. exfalso. apply NC. exists SvWritable. eexists. split; [exact I|].
      cbn [sstep]. unfold SendModel.when, idle. rewrite P, U, N. reflexivity.
  - exfalso. apply NC. exists SvSig. eexists. split; [exact I|]. cbn [sstep]. rewrite P. reflexivity.
  - exfalso. apply NC. exists SvFunc. eexists. split; [exact I|]. cbn [sstep]. rewrite P. reflexivity.
  - exfalso. apply NC. exists SvPop. eexists. split; [exact I|]. cbn [sstep]. rewrite P. reflexivity.
  - exfalso. apply NC. exists (SvSend (SendN (lenN d))). eexists. split; [unfold held; rewrite P; reflexivity|].
    cbn [sstep]. rewrite P, N.ltb_irrefl, N.eqb_refl. reflexivity.
  - exfalso. apply NC. exists SvEnd. eexists. split; [exact I|]. cbn [sstep]. rewrite P. reflexivity.
Qed.

(** For non-empty writes: whenever data is queued on a live established
    connection, a callback is running, a notification is pending or on its way,
    or write events are enabled. *)
Theorem C33_event_enabled_partial : forall evs s,
  srun evs sinit = Some s -> Forall (fun d => d <> []) (accepted evs) ->
  s_est s = true -> s_up s = true -> s_term s = false -> s_q s <> [] ->
  idle s = false \/ s_wr s = true \/ (0 < s_pushed s)%nat \/ (0 < s_won s)%nat \/ (s_reg s = true /\ s_nfd s = true).
Proof.
  intros evs s R N ES U T Q. pose proof (run_sinv evs _ _ R N sinv_init) as I.
  destruct (idle s) eqn:P; [|left; reflexivity]. apply idle_eq in P. right.
  destruct (s_ready s) eqn:RD.
  - right. destruct (v_tok _ I Q) as [X|[X|X]]; auto. right. right. split; [apply (v_est _ I); auto|exact X].
  - left. apply (v_arm _ I); auto.
Qed.
Print Assumptions C33_event_enabled_partial.

(** For non-empty writes: in an established, not terminated connection with no
    write call in progress, the worker running on an accepting socket stops
    after finitely many steps, and when it stops everything accepted has been
    sent. *)
Theorem C33_no_stall_partial : forall evs s,
  srun evs sinit = Some s -> Forall (fun d => d <> []) (accepted evs) ->
  s_est s = true -> s_up s = true -> s_term s = false -> s_pushed s = 0%nat -> s_won s = 0%nat ->
  forall n s', wrun s n s' ->
    (n <= rank s)%nat /\ (~ can_step s' -> s_q s' = [] /\ s_sent s' = concat (accepted evs)).
Proof.
  intros evs s R N ES U T PU WO n s' W.
  pose proof (run_sinv evs _ _ R N sinv_init) as I.
  destruct (wrun_keeps _ _ _ W) as (RK & B1 & B2 & B3 & B4 & B5 & B6 & B7 & evs' & R' & AC).
  split; [lia|]. intros NC.
  assert (I' : SInv s') by (apply (run_sinv evs' s s' R'); [rewrite AC; constructor|exact I]).
  assert (G : s_reg s = true) by (apply (v_est _ I); auto).
  destruct (stuck_quiet s') as (P & NF & WR); [congruence|congruence|exact NC|].
  assert (Q : s_q s' = []).
  { destruct (s_q s') as [|d q] eqn:Q; [reflexivity|]. exfalso.
    destruct (s_ready s') eqn:RD.
    - destruct (v_tok _ I') as [X|[X|X]]; [rewrite Q; discriminate|right; auto|congruence| | |congruence]; rewrite ?B5, ?B6, ?PU, ?WO in X; inversion X.
    - rewrite (v_arm _ I') in WR; congruence. }
  split; [exact Q|].
  assert (RR : srun (evs ++ evs') sinit = Some s').
  { clear - R R'. revert R. generalize sinit. induction evs as [|e evs IH]; intros s0 R; cbn [srun app] in *.
    - injection R as ->. exact R'.
    - destruct (sstep e s0); [|discriminate]. apply IH; exact R. }
  pose proof (C32_sent_in_order _ _ RR) as H. unfold held in H. rewrite P, Q in H. cbn in H. rewrite app_nil_r in H.
  rewrite H, B7. rewrite (run_acc evs _ _ R). reflexivity.
Qed.
Print Assumptions C33_no_stall_partial.

Example C33_nonvacuous : exists s, srun [SvReg; SvEstablish; SvWritable; SvPop; SvEnd; SvPush [x61] true; SvExch; SvNotify] sinit = Some s
  /\ s_est s = true /\ s_up s = true /\ s_term s = false /\ s_pushed s = 0%nat /\ s_won s = 0%nat /\ s_q s = [[x61]] /\ s_wr s = false
  /\ exists s', srun [SvHandler; SvSig; SvFunc; SvPop; SvSend (SendN 1); SvPop; SvEnd] s = Some s' /\ s_q s' = [] /\ quiet s'.
Proof.
  eexists. split; [vm_compute; reflexivity|]. do 7 (split; [reflexivity|]). eexists. split; [vm_compute; reflexivity|].
  split; [reflexivity|]. repeat split.
Qed.

(** The full claim fails: an empty write ahead of others is taken for the end
    of the queue; the worker then waits for a notification nobody will send,
    although the socket would accept the data. *)
Theorem C33_no_stall_refuted : exists evs s,
  srun evs sinit = Some s /\ s_est s = true /\ s_up s = true /\ s_term s = false /\ s_pushed s = 0%nat /\ s_won s = 0%nat
  /\ ~ can_step s /\ s_q s = [[x61]] /\ s_sent s = [] /\ accepted evs = [[]; [x61]].
Proof.
  exists [SvReg; SvEstablish; SvWritable; SvPop; SvEnd; SvPush [] true; SvExch; SvNotify; SvPush [x61] true; SvExch;
          SvHandler; SvSig; SvFunc; SvPop; SvEnd]. eexists.
  split; [vm_compute; reflexivity|]. do 5 (split; [reflexivity|]). split.
  - intros (ev & s1 & A & E). destruct ev; try contradiction; cbn in E; discriminate.
  - repeat split.
Qed.
Print Assumptions C33_no_stall_refuted.

(** ** C35 *)

Lemma built_wire c magic opcode p m : msg_built c magic opcode p m ->
  magic < 2 ^ 32 -> opcode < word_mod (mc_ow c) -> lenN p < 2 ^ 32 -> digest_ok c ->
  exists f, msg_serialize c m = wire c f /\ frame_ok c f /\ intact c f = true
    /\ f_magic f = magic /\ f_opcode f = opcode /\ f_payload f = p.
Proof.
  intros (B1 & B2 & B3 & B4 & B5 & B6) Hm Ho Hp D.
  exists (mkFrame magic opcode (if mc_ck c then m_checksum m else 0) p). cbn [f_magic f_opcode f_payload].
  rewrite N.mod_small in B5 by exact Hp.
  split; [|split; [|split; [|auto]]].
  - rewrite msg_bytes. unfold wire. cbn [f_magic f_opcode f_check f_payload]. rewrite B1, B2, B3, B5. destruct (mc_ck c); reflexivity.
  - unfold frame_ok. cbn [f_magic f_opcode f_check f_payload].
    split; [exact Hm|]. split; [exact Ho|]. split; [exact Hp|]. destruct (mc_ck c); [|split; [reflexivity|auto]].
    split; [|discriminate]. rewrite B6 by reflexivity.
    assert (L : length (firstn 4 (mc_sha1 c p)) = 4%nat) by (rewrite firstn_length_le; [reflexivity|apply D]).
    pose proof (native_word_lt (mc_host c) (firstn 4 (mc_sha1 c p))) as X. rewrite L in X. exact X.
  - unfold intact. cbn [f_check f_payload]. destruct (mc_ck c); [|reflexivity]. rewrite B6 by reflexivity. cbn [negb orb]. apply N.eqb_refl.
Qed.

(** What the application passes to send_msg. *)
Record outmsg := mkOut { o_magic : N; o_opcode : N; o_payload : bytes }.
Definition out_ok (c : rcfg) (o : outmsg) : Prop :=
  o_magic o < 2 ^ 32 /\ o_opcode o < word_mod (mc_ow (rx_msg c)) /\ lenN (o_payload o) < 2 ^ 32
  /\ lenN (o_payload o) <= rx_maxmsg c.
(** network.h 724-740: the bytes given to write. *)
Definition sent_as (c : msg_cfg) (o : outmsg) (d : bytes) : Prop :=
  exists l k m, msg_make c (o_magic o) (o_opcode o) l k (StreamModel.ds_new (o_payload o)) = Ret tt m /\ d = msg_serialize c m.
Definition arrives (m : msg) (o : outmsg) : Prop :=
  m_magic m = o_magic o /\ m_opcode m = o_opcode o /\ m_payload m = o_payload o /\ m_no_payload m = false.

Lemma sent_frames c os ds : digest_ok (rx_msg c) -> Forall (out_ok c) os -> Forall2 (sent_as (rx_msg c)) os ds ->
  exists fs, concat ds = wires (rx_msg c) fs /\ fits c fs /\ Forall (fun f => intact (rx_msg c) f = true) fs
    /\ Forall2 (fun f o => f_magic f = o_magic o /\ f_opcode f = o_opcode o /\ f_payload f = o_payload o) fs os.
Proof.
  intros D F H. revert F. induction H as [|o d os ds (l & k & m & E & Ed) H IH]; intros F.
  - exists []. repeat split; constructor.
  - inversion F as [|? ? (O1 & O2 & O3 & O4) F']; subst. destruct (IH F') as (fs & E1 & (FO & FM) & E3 & E4).
    destruct (msg_make_built (rx_msg c) (o_magic o) (o_opcode o) l k (o_payload o)) as (m' & Em & B). rewrite Em in E. injection E as ->.
    destruct (built_wire _ _ _ _ _ B O1 O2 O3 D) as (f & W1 & W2 & W3 & W4 & W5 & W6).
    exists (f :: fs). cbn [concat wires flat_map]. rewrite W1, E1. split; [reflexivity|].
    split; [split; constructor; auto; rewrite W6; exact O4|]. split; [constructor; auto|]. constructor; auto.
Qed.

(** Two endpoints of equal configuration joined by a reliable byte stream.
    The receiver's messages are a prefix of the messages sent, equal in
    opcode, magic and payload; all of them when everything was sent and
    received and the receiver is at rest. *)
Theorem C35_end_to_end_partial : forall c os sevs s revs r,
  cfg_ok c -> digest_ok (rx_msg c) -> Forall (out_ok c) os ->
  srun sevs sinit = Some s -> Forall2 (sent_as (rx_msg c)) os (accepted sevs) ->
  rrun c revs (rinit (s_sent s)) = SOk r ->
  r_errs r = [] /\ r_crash r = false
  /\ exists k, Forall2 arrives (r_in r) (firstn k os)
     /\ (s_q s = [] -> idle s = true -> r_net r = [] -> at_rest r -> Forall2 arrives (r_in r) os).
Proof.
  intros c os sevs s revs r C D F S A R.
  destruct (sent_frames c os _ D F A) as (fs & E1 & FT & IN & CO).
  destruct (C32_wire_prefix sevs s S) as (rest & E2 & All).
  destruct (C23_framing_partial c fs (s_sent s) rest revs r C FT IN ltac:(rewrite <- E1; symmetry; exact E2) R)
    as (H1 & H2 & got & Eg & k & Ca & _ & Rest).
  split; [exact H1|]. split; [exact H2|]. exists k.
  assert (X : forall k, carry_all (r_in r) (firstn k fs) -> Forall2 arrives (r_in r) (firstn k os)).
  { clear - CO. intros k. generalize (r_in r). revert k. induction CO as [|f o fs os (O1 & O2 & O3) CO IH]; intros k ms H.
    - rewrite firstn_nil in *. inversion H; subst. constructor.
    - destruct k as [|k]; cbn [firstn] in *; [inversion H; subst; constructor|].
      inversion H as [|m ? ms' ? (M1 & M2 & M3 & M4 & M5) H']; subst. constructor; [|apply IH; exact H'].
      unfold arrives. rewrite M1, M2, M3. auto. }
  split; [apply X; exact Ca|].
  intros Q I NT AR. destruct (Rest AR) as (Lk & t & Et & Nx). rewrite NT, app_nil_r in Eg. rewrite (All Q I), app_nil_r, E1 in E2.
  assert (L : length fs = length os) by (apply Forall2_len in CO; exact CO).
  assert (K : k = length fs).
  { destruct (Nat.eq_dec k (length fs)) as [|NE]; [assumption|]. exfalso.
    destruct (nth_error fs k) as [f|] eqn:Nf; [|apply nth_error_None in Nf; lia].
    specialize (Nx f eq_refl). apply nth_error_split in Nf. destruct Nf as (l1 & l2 & Ef & Ll).
    rewrite Eg, Et, Ef in E2. rewrite <- Ll, firstn_pre in E2. rewrite wires_app in E2. apply app_inv_head in E2.
    cbn [wires flat_map] in E2. apply (f_equal lenN) in E2. rewrite lenN_app in E2. lia. }
  rewrite <- (firstn_all os), <- L, <- K. apply X. exact Ca.
Qed.
Print Assumptions C35_end_to_end_partial.

(** The full claim fails: everything was sent and received, both ends are
    alive and idle, and nothing was delivered (C23, C28). *)
Theorem C35_end_to_end_refuted : exists c os sevs s revs r,
  cfg_ok c /\ digest_ok (rx_msg c) /\ Forall (out_ok c) os
  /\ srun sevs sinit = Some s /\ Forall2 (sent_as (rx_msg c)) os (accepted sevs)
  /\ rrun c revs (rinit (s_sent s)) = SOk r
  /\ s_q s = [] /\ idle s = true /\ r_net r = [] /\ r_term r = false /\ r_in r = [] /\ length os = 1%nat
  /\ forall revs' r', rrun c revs' r = SOk r' -> r_in r' = [].
Proof.
  pose (c0 := mkRcfg (mkMsgCfg LittleE 1 false (fun _ => [x00; x00; x00; x00])) 9 1 16).
  exists c0, [mkOut 0 5 []],
    [SvReg; SvEstablish; SvWritable; SvPop; SvEnd; SvPush [x00; x00; x00; x00; x05; x00; x00; x00; x00] true; SvExch; SvNotify; SvHandler; SvSig; SvFunc; SvPop; SvSend (SendN 9); SvPop; SvEnd].
  eexists. exists [EvEstablish; EvRead [KData 9] []]. eexists.
  split; [repeat split; cbn; lia|]. split; [intros p; cbn; lia|]. split; [repeat (constructor; [unfold out_ok; vm_compute; intuition congruence|]); constructor|].
  split; [vm_compute; reflexivity|]. split.
  { constructor; [|constructor]. exists 0, 0. eexists. split; [vm_compute; reflexivity|vm_compute; reflexivity]. }
  split; [vm_compute; reflexivity|]. do 6 (split; [reflexivity|]).
  intros revs' r' R. apply stalled_forever in R; [|repeat split]. destruct R as (R & _). rewrite R. reflexivity.
Qed.
Print Assumptions C35_end_to_end_refuted.

Example C35_nonvacuous :
  let c := mkRcfg (mkMsgCfg LittleE 1 true (fun p => firstn 4 (p ++ [x00; x00; x00; x00]))) 16 4 16 in
  let os := [mkOut 0 5 [x61]; mkOut 0 6 [x62; x63]] in
  let ds := [[x00; x00; x00; x00; x05; x01; x00; x00; x00; x61; x00; x00; x00; x61]; [x00; x00; x00; x00; x06; x02; x00; x00; x00; x62; x63; x00; x00; x62; x63]] in
  cfg_ok c /\ Forall (out_ok c) os /\ Forall2 (sent_as (rx_msg c)) os ds
  /\ exists s r, srun [SvReg; SvEstablish; SvPush (nth 0 ds []) true; SvExch; SvPush (nth 1 ds []) true; SvWritable; SvPop; SvSend (SendN 5); SvExch;
              SvWritable; SvPop; SvSend (SendN 9); SvPop; SvSend (SendN 15); SvPop; SvEnd] sinit = Some s
     /\ rrun c [EvEstablish; EvRead [KData 16; KData 3] [false]; EvRead [KData 16] []; EvTimer [] []] (rinit (s_sent s)) = SOk r
     /\ s_q s = [] /\ r_net r = [] /\ at_rest r /\ length (r_in r) = 2%nat.
Proof.
  cbv zeta. split; [repeat split; cbn; lia|]. split; [repeat (constructor; [unfold out_ok; vm_compute; intuition congruence|]); constructor|]. split.
  - constructor; [|constructor; [|constructor]]; exists 0, 0; eexists; (split; [vm_compute; reflexivity|vm_compute; reflexivity]).
  - eexists. eexists. split; [vm_compute; reflexivity|]. split; [vm_compute; reflexivity|]. repeat split; reflexivity.
Qed.

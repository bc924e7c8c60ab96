(** C21, C22: SegBuffer. *)
From Coq Require Import Arith NArith List Bool Lia ZifyBool ZifyN ZifyNat.
From Coq.Init Require Import Byte.
From Verif Require Import Base StreamProofs SegModel.
Import ListNotations.
Local Open Scope N_scope.

(** ** Invariant *)

Definition entry_rest (e : entry) : bytes := dropN (e_off e) (e_data e).
Definition seg_bytes (s : seg) : bytes := flat_map entry_rest (sg_list s).
Definition seg_ok (s : seg) : Prop :=
  Forall (fun e => e_off e <= lenN (e_data e)) (sg_list s)
  /\ sg_size s = lenN (seg_bytes s) /\ lenN (seg_bytes s) < size_max1.

Lemma pop_loop_ok es : forall len bs es',
  Forall (fun e => e_off e <= lenN (e_data e)) es ->
  pop_loop len es = (bs, es') ->
  bs = takeN len (flat_map entry_rest es) /\ flat_map entry_rest es' = dropN len (flat_map entry_rest es)
  /\ Forall (fun e => e_off e <= lenN (e_data e)) es'.
Proof.
  induction es as [|e r IH]; intros len bs es' F E; cbn [pop_loop] in E.
  - inversion E; subst. unfold takeN, dropN. rewrite firstn_nil, skipn_nil. auto.
  - inversion F as [|? ? Fe Fr]; subst. cbn [flat_map].
    destruct (N.eqb_spec len 0) as [-> | NZ].
    { inversion E; subst. rewrite dropN_0. auto. }
    cbv zeta in E. unfold entry_length in E. cbn [e_off] in E.
    assert (LR : lenN (entry_rest e) = lenN (e_data e) - e_off e) by (unfold entry_rest; apply lenN_dropN).
    destruct (N.eqb_spec (e_off e + N.min (lenN (e_data e) - e_off e) len) (lenN (e_data e))) as [Q|Q].
    + destruct (pop_loop (len - N.min (lenN (e_data e) - e_off e) len) r) as [bs1 es1] eqn:P.
      inversion E; subst. destruct (IH _ _ _ Fr P) as (-> & Er & Fs).
      assert (M : N.min (lenN (e_data e) - e_off e) len = lenN (entry_rest e)) by lia.
      rewrite M in *. fold (entry_rest e).
      assert (A : takeN (lenN (entry_rest e)) (entry_rest e) = entry_rest e)
        by (unfold takeN, lenN; rewrite Nat2N.id; apply firstn_all).
      rewrite A. unfold takeN, dropN in *.
      rewrite firstn_app, skipn_app.
      replace (firstn (N.to_nat len) (entry_rest e)) with (entry_rest e)
        by (symmetry; apply firstn_all2; unfold lenN in *; lia).
      replace (skipn (N.to_nat len) (entry_rest e)) with (@nil byte)
        by (symmetry; apply skipn_all2; unfold lenN in *; lia).
      rewrite Er. cbn [app].
      replace (N.to_nat (len - lenN (entry_rest e))) with (N.to_nat len - length (entry_rest e))%nat
        by (unfold lenN; lia). auto.
    + inversion E; subst. assert (M : N.min (lenN (e_data e) - e_off e) len = len) by lia. rewrite M in *.
      fold (entry_rest e). cbn [flat_map]. 
      rewrite takeN_app, dropN_app by lia. split; [reflexivity|]. split.
      * f_equal. unfold entry_rest. cbn [e_off e_data]. rewrite dropN_dropN. reflexivity.
      * constructor; [cbn [e_off e_data]; lia|exact Fr].
Qed.

(** ** C21 *)

Inductive seg_op := QPush (d : bytes) | QRewind (d : bytes) | QPop (n : N) | QSize | QEmpty | QClear.
Inductive seg_res := QUnit | QBytes (d : bytes) | QNum (n : N) | QBool (b : bool).

(** The ideal byte string; empty() may only say true when it is empty. *)
Inductive ideal : bytes -> seg_op -> seg_res -> bytes -> Prop :=
| I_push v d : ideal v (QPush d) QUnit (v ++ d)
| I_rewind v d : ideal v (QRewind d) QUnit (d ++ v)
| I_pop v n : ideal v (QPop n) (QBytes (takeN n v)) (dropN n v)
| I_size v : ideal v QSize (QNum (lenN v)) v
| I_empty v b : (b = true -> v = []) -> ideal v QEmpty (QBool b) v
| I_clear v : ideal v QClear QUnit [].
Inductive ideal_run : bytes -> list seg_op -> list seg_res -> bytes -> Prop :=
| IR_nil v : ideal_run v [] [] v
| IR_cons v o r v1 os rs v2 : ideal v o r v1 -> ideal_run v1 os rs v2 -> ideal_run v (o :: os) (r :: rs) v2.

Definition seg_step (o : seg_op) (s : seg) : seg_res * seg :=
  match o with
  | QPush d => (QUnit, seg_push d s)
  | QRewind d => (QUnit, seg_rewind d s)
  | QPop n => let '(bs, s') := seg_pop n s in (QBytes bs, s')
  | QSize => (QNum (seg_size s), s)
  | QEmpty => (QBool (seg_empty s), s)
  | QClear => (QUnit, seg_clear s)
  end.
Fixpoint seg_run (os : list seg_op) (s : seg) : list seg_res * seg :=
  match os with
  | [] => ([], s)
  | o :: os' => let '(r, s1) := seg_step o s in
                let '(rs, s2) := seg_run os' s1 in (r :: rs, s2)
  end.
(** Bytes added by a history. *)
Definition op_bytes (o : seg_op) : N := match o with QPush d | QRewind d => lenN d | _ => 0 end.
Definition ops_bytes (os : list seg_op) : N := fold_right (fun o n => op_bytes o + n) 0 os.

Lemma seg_step_ok o s r s' : seg_ok s -> lenN (seg_bytes s) + op_bytes o < size_max1 ->
  seg_step o s = (r, s') ->
  seg_ok s' /\ ideal (seg_bytes s) o r (seg_bytes s') /\ lenN (seg_bytes s') <= lenN (seg_bytes s) + op_bytes o.
Proof.
  intros (F & Z & B) L E. destruct o as [d|d|n| | |]; cbn [seg_step op_bytes] in *.
  - inversion E; subst. unfold seg_push, seg_ok, seg_bytes in *. cbn [sg_list sg_size].
    rewrite flat_map_app. cbn [flat_map]. rewrite app_nil_r.
    replace (entry_rest (entry_new d)) with d by reflexivity. rewrite lenN_app.
    split; [|split; [constructor|lia]]. split; [apply Forall_app; split; auto; constructor; auto; apply N.le_0_l|].
    split; [rewrite szadd_small; lia|lia].
  - inversion E; subst. unfold seg_rewind, seg_ok, seg_bytes in *. cbn [sg_list sg_size flat_map].
    replace (entry_rest (entry_new d)) with d by reflexivity. rewrite lenN_app.
    split; [|split; [constructor|lia]]. split; [constructor; auto; apply N.le_0_l|].
    split; [rewrite szadd_small; lia|lia].
  - unfold seg_pop in E. destruct (pop_loop n (sg_list s)) as [bs es] eqn:P. inversion E; subst.
    destruct (pop_loop_ok _ _ _ _ F P) as (-> & Er & F'). unfold seg_ok, seg_bytes in *. cbn [sg_list sg_size].
    rewrite Er. rewrite lenN_dropN, lenN_takeN. split; [|split; [constructor|lia]].
    split; [exact F'|]. split; [|lia]. rewrite Z, szsub_small; lia.
  - inversion E; subst. split; [repeat split; auto|]. split; [|lia]. unfold seg_size. rewrite Z. constructor.
  - inversion E; subst. split; [repeat split; auto|]. split; [|lia]. constructor.
    unfold seg_empty, seg_bytes. destruct (sg_list s'); [reflexivity|discriminate].
  - inversion E; subst. split; [repeat split; simpl; auto; constructor|]. split; [constructor|apply N.le_0_l].
Qed.

(** Any history on a new buffer. *)
Theorem C21_segbuffer_is_byte_queue : forall os rs s',
  ops_bytes os < 2 ^ 64 -> seg_run os seg_new = (rs, s') ->
  exists v, ideal_run [] os rs v /\ seg_size s' = lenN v
    /\ (v = [] -> seg_size s' = 0) /\ fst (seg_pop (lenN v) s') = v.
Proof.
  intros os rs s' L E.
  assert (G : forall os s rs s', seg_ok s -> lenN (seg_bytes s) + ops_bytes os < size_max1 ->
     seg_run os s = (rs, s') -> ideal_run (seg_bytes s) os rs (seg_bytes s') /\ seg_ok s').
  { clear. induction os as [|o os IH]; intros s rs s' K L E; cbn [seg_run] in E.
    - inversion E; subst. split; [constructor|exact K].
    - destruct (seg_step o s) as [r s1] eqn:E1. destruct (seg_run os s1) as [rs1 s2] eqn:E2.
      inversion E; subst. cbn [ops_bytes fold_right] in L. fold (ops_bytes os) in L.
      destruct (seg_step_ok o s r s1 K) as (K1 & I1 & B1); [lia|exact E1|].
      destruct (IH s1 rs1 s' K1) as (I2 & K2); [lia|exact E2|].
      split; [econstructor; eauto|exact K2]. }
  destruct (G os seg_new rs s') as (I & K); auto.
  { split; [constructor|split; reflexivity]. }
  exists (seg_bytes s'). split; [exact I|]. destruct K as (F & Z & B).
  split; [exact Z|]. split; [intros V; unfold seg_size; rewrite Z, V; reflexivity|].
  unfold seg_pop. destruct (pop_loop (lenN (seg_bytes s')) (sg_list s')) as [bs es] eqn:P.
  destruct (pop_loop_ok _ _ _ _ F P) as (-> & _). cbn [fst]. fold (seg_bytes s').
  unfold takeN, lenN. rewrite Nat2N.id. apply firstn_all.
Qed.
Print Assumptions C21_segbuffer_is_byte_queue.

(** The results of the ideal byte string are determined by the history (apart
    from empty() on a buffer holding only empty segments), so the theorem
    fixes what every call returns. *)
Theorem C21_ideal_deterministic : forall os v rs rs' v1 v2,
  ~ In QEmpty os -> ideal_run v os rs v1 -> ideal_run v os rs' v2 -> rs = rs' /\ v1 = v2.
Proof.
  induction os as [|o os IH]; intros v rs rs' v1 v2 NE A B.
  - inversion A; inversion B; subst; auto.
  - inversion A as [|? ? r1 w1 ? rs1 ? A1 A2]; inversion B as [|? ? r2 w2 ? rs2 ? B1 B2]; subst.
    assert (X : r1 = r2 /\ w1 = w2).
    { inversion A1; subst; inversion B1; subst; auto. exfalso. apply NE. left. reflexivity. }
    destruct X as (-> & ->). destruct (IH w2 rs1 rs2 v1 v2) as (-> & ->); auto.
    intros H. apply NE. right. exact H.
Qed.
Print Assumptions C21_ideal_deterministic.

Example C21_nonvacuous :
  fst (seg_run [QPush [x01; x02; x03]; QPush []; QPush [x04]; QPop 2; QRewind [x09]; QSize; QPop 10; QEmpty] seg_new)
  = [QUnit; QUnit; QUnit; QBytes [x01; x02]; QUnit; QNum 3; QBytes [x09; x03; x04]; QBool true].
Proof. vm_compute. reflexivity. Qed.

(** ** C22 *)

(** True as long as the first segment has not been partly consumed ... *)
Theorem C22_move_pop_partial : forall s e r,
  seg_ok s -> sg_list s = e :: r -> e_off e = 0 ->
  exists d s', seg_move_pop s = Ret d s' /\ seg_bytes s = d ++ seg_bytes s'
    /\ d = entry_rest e /\ seg_size s' = lenN (seg_bytes s') /\ seg_ok s'.
Proof.
  intros s e r (F & Z & B) E O. unfold seg_move_pop. rewrite E. eexists. eexists. split; [reflexivity|].
  assert (R : entry_rest e = e_data e) by (unfold entry_rest; rewrite O; apply dropN_0).
  unfold seg_ok, seg_bytes in *. rewrite E in *. cbn [flat_map sg_list sg_size] in *.
  rewrite R in *. rewrite lenN_app in *.
  assert (S : szsub (sg_size s) (lenN (e_data e)) = lenN (flat_map entry_rest r))
    by (rewrite Z, szsub_small; lia).
  unfold seg_size. cbn [sg_size]. inversion F; subst.
  repeat (split; [first [reflexivity|assumption]|]). lia.
Qed.
Print Assumptions C22_move_pop_partial.

(** ... in particular for every history of push, rewind, move_pop and clear
    (no pop): the buffer is a queue of segments. *)
Inductive mv_op := VPush (d : bytes) | VRewind (d : bytes) | VMovePop | VClear.
Definition mv_step (o : mv_op) (s : seg) : option (option bytes * seg) :=
  match o with
  | VPush d => Some (None, seg_push d s)
  | VRewind d => Some (None, seg_rewind d s)
  | VMovePop => match seg_move_pop s with Ret d s' => Some (Some d, s') | _ => None end
  | VClear => Some (None, seg_clear s)
  end.
Definition mv_ideal (o : mv_op) (q : list bytes) : option (option bytes * list bytes) :=
  match o with
  | VPush d => Some (None, q ++ [d])
  | VRewind d => Some (None, d :: q)
  | VMovePop => match q with d :: q' => Some (Some d, q') | [] => None end
  | VClear => Some (None, [])
  end.
Fixpoint mv_run {S} (step : mv_op -> S -> option (option bytes * S)) (os : list mv_op) (s : S)
  : option (list (option bytes) * S) :=
  match os with
  | [] => Some ([], s)
  | o :: os' => match step o s with
                | Some (r, s1) => match mv_run step os' s1 with
                                  | Some (rs, s2) => Some (r :: rs, s2)
                                  | None => None
                                  end
                | None => None
                end
  end.
Definition mv_bytes (os : list mv_op) : N :=
  fold_right (fun o n => match o with VPush d | VRewind d => lenN d | _ => 0 end + n) 0 os.

Theorem C22_move_pop_histories : forall os,
  mv_bytes os < 2 ^ 64 ->
  match mv_run mv_ideal os [], mv_run mv_step os seg_new with
  | Some (rs, q), Some (rs', s) => rs' = rs /\ seg_size s = lenN (concat q)
  | None, None => True
  | _, _ => False
  end.
Proof.
  intros os L.
  assert (G : forall os q s, sg_list s = map entry_new q -> sg_size s = lenN (concat q) ->
     lenN (concat q) + mv_bytes os < size_max1 ->
     match mv_run mv_ideal os q, mv_run mv_step os s with
     | Some (rs, q'), Some (rs', s') => rs' = rs /\ seg_size s' = lenN (concat q')
     | None, None => True
     | _, _ => False
     end).
  { clear. induction os as [|o os IH]; intros q s E Z L; cbn [mv_run].
    - auto.
    - cbn [mv_bytes fold_right] in L. fold (mv_bytes os) in L.
      assert (K : forall q1 s1 r, sg_list s1 = map entry_new q1 -> sg_size s1 = lenN (concat q1) ->
        lenN (concat q1) + mv_bytes os < size_max1 ->
        match match mv_run mv_ideal os q1 with Some (rs, q2) => Some (r :: rs, q2) | None => None end,
              match mv_run mv_step os s1 with Some (rs, s2) => Some (r :: rs, s2) | None => None end with
        | Some (rs, q'), Some (rs', s') => rs' = rs /\ seg_size s' = lenN (concat q')
        | None, None => True
        | _, _ => False
        end).
      { intros q1 s1 r E1 Z1 L1. specialize (IH q1 s1 E1 Z1 L1).
        destruct (mv_run mv_ideal os q1) as [[? ?]|], (mv_run mv_step os s1) as [[? ?]|]; auto.
        destruct IH as (-> & ?). auto. }
      destruct o as [d|d| |]; cbn [mv_step mv_ideal].
      + apply K; unfold seg_push; cbn [sg_list sg_size].
        * rewrite E, map_app. reflexivity.
        * rewrite concat_app, lenN_app. cbn [concat]. rewrite app_nil_r, Z. apply szadd_small. lia.
        * rewrite concat_app, lenN_app. cbn [concat]. rewrite app_nil_r. lia.
      + apply K; unfold seg_rewind; cbn [sg_list sg_size concat map].
        * rewrite E. reflexivity.
        * rewrite lenN_app, Z, szadd_small; lia.
        * rewrite lenN_app. lia.
      + unfold seg_move_pop. rewrite E. destruct q as [|d q]; cbn [map]; [exact I|].
        cbn [concat] in *. rewrite lenN_app in *.
        apply K; cbn [sg_list sg_size entry_new e_data]; [reflexivity| |lia].
        rewrite Z, szsub_small; lia.
      + apply K; try reflexivity. change (lenN (concat (@nil bytes))) with 0. lia. }
  apply G; auto.
Qed.
Print Assumptions C22_move_pop_histories.

(** After a partial pop, move_pop hands the consumed bytes out again and size()
    is wrong. *)
Theorem C22_move_pop_refuted : exists s d s',
  seg_ok s /\ seg_move_pop s = Ret d s'
  /\ seg_bytes s = [x02; x03] /\ d = [x01; x02; x03] /\ seg_bytes s' = [] /\ seg_size s' = 2 ^ 64 - 1.
Proof.
  exists (snd (seg_pop 1 (seg_push [x01; x02; x03] seg_new))), [x01; x02; x03],
    (mkSeg [] 18446744073709551615).
  repeat split; try (vm_compute; reflexivity).
  vm_compute. repeat constructor. discriminate.
Qed.
Print Assumptions C22_move_pop_refuted.

Example C22_nonvacuous :
  mv_run mv_step [VPush [x01]; VPush [x02; x03]; VMovePop; VRewind [x04]; VMovePop; VMovePop] seg_new
  = Some ([None; None; Some [x01]; None; Some [x04]; Some [x02; x03]], mkSeg [] 0).
Proof. vm_compute. reflexivity. Qed.

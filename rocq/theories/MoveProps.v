(** C63: messages queued on a lost connection. *)
From Coq Require Import Arith NArith List Bool Lia.
From Coq.Init Require Import Byte.
From Verif Require Import Base MsgModel MsgProps RecvModel RecvSpec RecvProofs RecvProps SendModel SendProps MoveModel.
Import ListNotations.
Local Open Scope N_scope.

(** ** Specification *)

(** The data of the writes to the old connection that returned true. *)
Fixpoint old_writes (es : list mev) : list bytes :=
  match es with
  | [] => []
  | MOld (SvPush d true) :: es => d :: old_writes es
  | _ :: es => old_writes es
  end.

(** Of the writes [ds], [sent] went onto the wire and [l] is left: either
    whole writes, or first the second part of a write whose first part was
    sent. *)
Definition whole (ds : list bytes) (sent : bytes) (l : list bytes) : Prop := exists done, ds = done ++ l /\ sent = concat done.
Definition broken (ds : list bytes) (sent : bytes) (l : list bytes) : Prop :=
  exists done h t rest, h <> [] /\ t <> [] /\ ds = done ++ (h ++ t) :: rest /\ sent = concat done ++ h /\ l = t :: rest.
Definition leftover ds sent l : Prop := whole ds sent l \/ broken ds sent l.

(** Nobody else writes to the new connection, and its queue has room. *)
Definition alone (e : mev) : Prop := match e with MNew (SvPush _ _) | MMove false => False | _ => True end.

(** ** Proofs *)

Definition queue (s : sconn) : list bytes := match s_pc s with WHold d => d :: s_q s | _ => s_q s end.

Lemma leftover_push ds sent l d : leftover ds sent l -> leftover (ds ++ [d]) sent (l ++ [d]).
Proof.
  intros [(done & -> & S)|(done & h & t & rest & H & T & -> & S & ->)].
  - left. exists done. rewrite app_assoc. auto.
  - right. exists done, h, t, (rest ++ [d]). repeat split; auto. rewrite <- app_assoc. reflexivity.
Qed.
Lemma leftover_all ds sent d l : leftover ds sent (d :: l) -> leftover ds (sent ++ d) l.
Proof.
  intros [(done & -> & S)|(done & h & t & rest & H & T & -> & S & E)]; left.
  - exists (done ++ [d]). rewrite <- app_assoc, concat_snoc, S. auto.
  - injection E as -> ->. exists (done ++ [h ++ t]). rewrite <- app_assoc, concat_snoc, S, <- app_assoc. auto.
Qed.
Lemma leftover_part ds sent a b l : a <> [] -> b <> [] -> leftover ds sent ((a ++ b) :: l) -> leftover ds (sent ++ a) (b :: l).
Proof.
  intros A B [(done & -> & S)|(done & h & t & rest & H & T & -> & S & E)]; right.
  - exists done, a, b, l. rewrite S. auto.
  - injection E as <- ->. exists done, (h ++ a), b, rest. rewrite S, <- !app_assoc. repeat split; auto. intros X. apply app_eq_nil in X. tauto.
Qed.

(** The invariant of one connection; [l]: what was taken away before. *)
Record left (l : list bytes) (s : sconn) : Prop := mkLeft {
  l_left : leftover (s_acc s) (s_sent s) (l ++ queue s);
  l_ne : Forall (fun d => d <> []) (queue s) }.

Definition off (s : sconn) : Prop := s_pc s = WIdle /\ s_up s = false.

Lemma step_left ev s s' : sstep ev s = Some s' -> Forall (fun d => d <> []) (accepted [ev]) -> left [] s -> left [] s'.
Proof.
  intros E NE [H F]. cbn [app] in H. unfold queue in *. destruct ev; cbn [sstep] in E; unfold SendModel.when, idle in E.
  - destruct ok; some E; [|constructor; auto]. inversion NE as [|? ? N _]; subst.
    assert (Q : forall q, match s_pc s with WHold x => x :: q ++ [d] | _ => q ++ [d] end = (match s_pc s with WHold x => x :: q | _ => q end) ++ [d]) by (intros q; destruct (s_pc s); reflexivity).
    constructor; unfold queue; scbn; cbn [app]; rewrite Q; [apply leftover_push; exact H|]. apply Forall_app. auto.
  - destruct (s_pushed s); some E. constructor; assumption.
  - destruct (s_won s); some E. constructor; assumption.
  - destruct (_ && _) eqn:B; some E. constructor; assumption.
  - destruct (_ && _) eqn:B; some E. constructor; assumption.
  - destruct (_ && _) eqn:B; some E. constructor; assumption.
  - destruct (_ && _) eqn:B; some E. constructor; assumption.
  - destruct (s_pc s) eqn:P; cbn in E; try discriminate. destruct (_ && _) eqn:B; some E. constructor; assumption.
  - destruct (s_pc s) eqn:P; some E. constructor; assumption.
  - destruct (s_pc s) eqn:P; some E. destruct (s_ready s); constructor; assumption.
  - destruct (s_pc s) eqn:P; cbn in E; try discriminate. destruct (_ && _) eqn:B; some E. constructor; assumption.
  - destruct (_ && _) eqn:B; some E. constructor; assumption.
  - destruct (s_pc s) eqn:P; some E. destruct (s_q s) as [|d q] eqn:Q; [constructor; unfold queue; scbn; rewrite Q; auto|].
    inversion F as [|? ? N F']; subst. destruct (N.eqb_spec (lenN d) 0) as [Z|Z]; [exfalso; apply N, lenN_zero, Z|]. constructor; assumption.
  - destruct (s_pc s) eqn:P; try discriminate. inversion F as [|? ? N F']; subst. destruct r as [n| |].
    + destruct (N.ltb_spec (lenN d) n) as [|LE]; [discriminate|]. destruct (N.eqb_spec n (lenN d)) as [->|NE']; some E.
      * constructor; unfold queue; scbn; [apply leftover_all; exact H|exact F'].
      * assert (DN : dropN n d <> []) by (apply drop_nonempty; lia). constructor; unfold queue; scbn; [|constructor; auto]. cbn [app].
        destruct (N.eq_dec n 0) as [->|N0]; [change (dropN 0 d) with d; change (takeN 0 d) with (@nil byte); rewrite app_nil_r; exact H|].
        apply leftover_part; [|exact DN|rewrite takeN_dropN; exact H]. intros X. assert (L : lenN (takeN n d) = 0) by (rewrite X; reflexivity). rewrite lenN_takeN in L. lia.
    + some E. constructor; assumption.
    + some E. constructor; assumption.
  - destruct (s_pc s) eqn:P; some E. constructor; assumption.
  - some E. constructor; assumption.
  - destruct (_ && _) eqn:B; some E. constructor; assumption.
Qed.

(** Once the old worker is gone only writers use the old connection. *)
Lemma step_off ev s s' : sstep ev s = Some s' -> off s -> off s' /\ s_sent s' = s_sent s /\ s_q s' = s_q s ++ accepted [ev].
Proof.
  intros E (P & U). unfold off. destruct ev; cbn [sstep accepted] in *; unfold SendModel.when, idle in E; rewrite ?P, ?U, ?andb_false_r in E; cbn [andb] in E; rewrite ?app_nil_r.
  - destruct ok; some E; scbn; rewrite ?app_nil_r; auto.
  - destruct (s_pushed s); some E; auto.
  - destruct (s_won s); some E; auto.
  - discriminate.
  - discriminate.
  - discriminate.
  - discriminate.
  - discriminate.
  - discriminate.
  - discriminate.
  - discriminate.
  - discriminate.
  - discriminate.
  - discriminate.
  - discriminate.
  - some E. auto.
  - discriminate.
Qed.

Record MI (s : mv) : Prop := mkMI {
  mi_left : left (v_moved s) (v_old s);
  mi_pre : v_pc s = MBefore -> v_moved s = [];
  mi_off : v_pc s <> MBefore -> off (v_old s) }.

Lemma off_queue s : off s -> queue s = s_q s.
Proof. intros (P & _). unfold queue. rewrite P. reflexivity. Qed.

Lemma mi_step e s s' : mstep e s = Some s' -> Forall (fun d => d <> []) (old_writes [e]) -> MI s -> MI s'.
Proof.
  intros E NE [L P O]. destruct e as [ev|ev| |ok]; cbn [mstep] in E.
  - destruct (sstep ev (v_old s)) as [o|] eqn:S; [|discriminate]. injection E as <-.
    assert (NA : Forall (fun d => d <> []) (accepted [ev])) by (destruct ev; auto; destruct ok; auto).
    constructor; cbn [v_old v_pc v_moved]; auto.
    + destruct (v_pc s) eqn:PC.
      * rewrite (P eq_refl) in *. exact (step_left _ _ _ S NA L).
      * assert (F : off (v_old s)) by (apply O; discriminate). destruct L as [L1 L2]. destruct (step_off _ _ _ S F) as (F' & S1 & Q1). rewrite (off_queue _ F) in *.
        constructor; rewrite (off_queue _ F'), Q1; [|apply Forall_app; auto]. rewrite S1, (step_acc _ _ _ S), app_assoc. destruct ev; cbn [accepted] in *; rewrite ?app_nil_r; try exact L1. destruct ok; rewrite ?app_nil_r; [apply leftover_push|]; exact L1.
      * assert (F : off (v_old s)) by (apply O; discriminate). destruct L as [L1 L2]. destruct (step_off _ _ _ S F) as (F' & S1 & Q1). rewrite (off_queue _ F) in *.
        constructor; rewrite (off_queue _ F'), Q1; [|apply Forall_app; auto]. rewrite S1, (step_acc _ _ _ S), app_assoc. destruct ev; cbn [accepted] in *; rewrite ?app_nil_r; try exact L1. destruct ok; rewrite ?app_nil_r; [apply leftover_push|]; exact L1.
    + intros N. exact (proj1 (step_off _ _ _ S (O N))).
  - destruct (sstep ev (v_new s)) as [o|]; [|discriminate]. injection E as <-. constructor; auto.
  - destruct (v_pc s) eqn:PC; try discriminate. destruct (idle (v_old s)) eqn:I; [|discriminate]. destruct (s_up (v_old s)) eqn:U; [discriminate|]. injection E as <-.
    constructor; cbn [v_old v_pc v_moved]; [exact L|discriminate|]. intros _. split; [exact (idle_eq _ I)|exact U].
  - destruct (v_pc s) eqn:PC; try discriminate. assert (F : off (v_old s)) by (apply O; discriminate). destruct L as [L1 L2]. rewrite (off_queue _ F) in *.
    destruct (s_q (v_old s)) as [|d q] eqn:Q; [injection E as <-; constructor; cbn; [constructor; rewrite (off_queue _ F), Q; auto|discriminate|auto]|].
    inversion L2 as [|? ? N L2']; subst. destruct (N.eqb_spec (lenN d) 0) as [Z|_]; [exfalso; apply N, lenN_zero, Z|]. cbn [sstep] in E. injection E as <-.
    assert (F' : off (set_q q (v_old s))) by exact F.
    constructor; cbn [v_old v_pc v_moved]; [|discriminate|auto]. constructor; rewrite (off_queue _ F'); scbn; [|exact L2']. rewrite <- app_assoc. exact L1.
Qed.

Lemma old_writes_app a b : old_writes (a ++ b) = old_writes a ++ old_writes b.
Proof. induction a as [|e a IH]; [reflexivity|]. cbn [app old_writes]. destruct e as [[]| | |]; auto. destruct ok; cbn [app]; congruence. Qed.
Lemma mrun_app a b : forall s, mrun (a ++ b) s = match mrun a s with Some s1 => mrun b s1 | None => None end.
Proof. induction a as [|e a IH]; intros s; [reflexivity|]. cbn [app mrun]. destruct (mstep e s); [apply IH|reflexivity]. Qed.

Lemma mstep_acc e s s' : mstep e s = Some s' -> s_acc (v_old s') = s_acc (v_old s) ++ old_writes [e].
Proof.
  intros E. destruct e as [ev|ev| |ok]; cbn [mstep] in E.
  - destruct (sstep ev (v_old s)) as [o|] eqn:S; [|discriminate]. injection E as <-. exact (step_acc _ _ _ S).
  - destruct (sstep ev (v_new s)) as [o|]; [|discriminate]. injection E as <-. rewrite app_nil_r. reflexivity.
  - destruct (v_pc s); try discriminate. destruct (_ && _); [|discriminate]. injection E as <-. rewrite app_nil_r. reflexivity.
  - destruct (v_pc s); try discriminate. rewrite app_nil_r. destruct (s_q (v_old s)) as [|d q]; [injection E as <-; reflexivity|]. destruct (lenN d =? 0); [injection E as <-; reflexivity|].
    cbn [sstep] in E. injection E as <-. reflexivity.
Qed.

Lemma mi_run es : forall s s', mrun es s = Some s' -> Forall (fun d => d <> []) (old_writes es) -> MI s -> MI s' /\ s_acc (v_old s') = s_acc (v_old s) ++ old_writes es.
Proof.
  induction es as [|e es IH]; intros s s' R F M; cbn [mrun] in R; [injection R as <-; rewrite app_nil_r; auto|].
  destruct (mstep e s) as [s1|] eqn:E; [|discriminate]. change (e :: es) with ([e] ++ es) in *. rewrite old_writes_app in *. apply Forall_app in F. destruct F as (F1 & F2).
  destruct (IH s1 s' R F2 (mi_step _ _ _ E F1 M)) as (M' & A). split; [exact M'|]. rewrite A, (mstep_acc _ _ _ E), app_assoc. reflexivity.
Qed.
Lemma mi_init : MI minit.
Proof. constructor; [constructor; [left; exists []; auto|constructor]|reflexivity|intros H; exfalso; apply H; reflexivity]. Qed.

(** What is moved, at any time, and what is still queued on the old connection
    is what was left of the writes to it. *)
Theorem C63_leftover_partial : forall es s, mrun es minit = Some s -> Forall (fun d => d <> []) (old_writes es) ->
  v_pc s <> MBefore -> leftover (old_writes es) (s_sent (v_old s)) (v_moved s ++ s_q (v_old s)).
Proof.
  intros es s R F P. destruct (mi_run es _ _ R F mi_init) as ([[L _] _ O] & A). rewrite (off_queue _ (O P)), A in L. exact L.
Qed.
Print Assumptions C63_leftover_partial.

(** The end of the old wire between two writes determines which. *)
Lemma concat_split (done : list bytes) : forall rest done' h t rest', Forall (fun d => d <> []) (done ++ rest) -> h <> [] -> t <> [] ->
  done ++ rest = done' ++ (h ++ t) :: rest' -> concat done = concat done' ++ h -> False.
Proof.
  induction done as [|d done IH]; intros rest done' h t rest' F H T E C.
  - cbn [concat] in C. symmetry in C. apply app_eq_nil in C. tauto.
  - destruct done' as [|d' done']; cbn [app] in E.
    + injection E as -> E. cbn [concat app] in C. rewrite <- app_assoc in C. apply (f_equal lenN) in C. rewrite !lenN_app in C.
      assert (lenN t <> 0) by (intros Z; apply T, lenN_zero, Z). lia.
    + injection E as -> E. cbn [concat app] in C. rewrite <- app_assoc in C. apply app_inv_head in C. inversion F; subst. exact (IH rest done' h t rest' H3 H T E C).
Qed.
Lemma concat_whole (done : list bytes) : forall rest done' rest', Forall (fun d => d <> []) (done ++ rest) -> done ++ rest = done' ++ rest' -> concat done = concat done' -> rest = rest'.
Proof.
  induction done as [|d done IH]; intros rest done' rest' F E C.
  - destruct done' as [|d' done']; [exact E|]. exfalso. cbn [app concat] in *. subst rest. inversion F; subst. symmetry in C. apply app_eq_nil in C. tauto.
  - destruct done' as [|d' done']; cbn [app] in *.
    + exfalso. inversion F; subst. cbn [concat] in C. apply app_eq_nil in C. tauto.
    + injection E as -> E. cbn [concat] in C. apply app_inv_head in C. inversion F; subst. exact (IH _ _ _ H2 E C).
Qed.

Lemma alone_step e s s' : mstep e s = Some s' -> alone e ->
  exists m, s_acc (v_new s') = s_acc (v_new s) ++ m /\ v_moved s' = v_moved s ++ m.
Proof.
  intros E A. destruct e as [ev|ev| |ok]; cbn [mstep] in E.
  - destruct (sstep ev (v_old s)) as [o|]; [|discriminate]. injection E as <-. exists []. rewrite !app_nil_r. auto.
  - destruct (sstep ev (v_new s)) as [o|] eqn:S; [|discriminate]. injection E as <-. exists []. cbn. rewrite (step_acc _ _ _ S), !app_nil_r. split; [|reflexivity].
    destruct ev; try apply app_nil_r. destruct A.
  - destruct (v_pc s); try discriminate. destruct (_ && _); [|discriminate]. injection E as <-. exists []. rewrite !app_nil_r. auto.
  - destruct (v_pc s); try discriminate. destruct (s_q (v_old s)) as [|d q]; [injection E as <-; exists []; rewrite !app_nil_r; auto|]. destruct (lenN d =? 0); [injection E as <-; exists []; rewrite !app_nil_r; auto|].
    destruct ok; [|destruct A]. cbn [sstep] in E. injection E as <-. exists [d]. auto.
Qed.
Lemma alone_run es : forall s s', mrun es s = Some s' -> Forall alone es -> exists m, s_acc (v_new s') = s_acc (v_new s) ++ m /\ v_moved s' = v_moved s ++ m.
Proof.
  induction es as [|e es IH]; intros s s' R A; cbn [mrun] in R; [injection R as <-; exists []; rewrite !app_nil_r; auto|].
  destruct (mstep e s) as [s1|] eqn:E; [|discriminate]. inversion A as [|? ? A1 A2]; subst. destruct (IH s1 s' R A2) as (m2 & M1 & M2).
  assert (X : exists m, s_acc (v_new s1) = s_acc (v_new s) ++ m /\ v_moved s1 = v_moved s ++ m) by exact (alone_step _ _ _ E A1).
  destruct X as (m1 & N1 & N2). exists (m1 ++ m2). rewrite M1, M2, N1, N2, !app_assoc. auto.
Qed.

(** The loop ends with the old queue empty. *)
Lemma loop_end ok s s' : mstep (MMove ok) s = Some s' -> MI s -> v_pc s' = MDone -> s_q (v_old s') = [] /\ v_moved s' = v_moved s /\ v_old s' = v_old s /\ v_new s' = v_new s.
Proof.
  intros E [[_ L2] _ O] D. cbn [mstep] in E. destruct (v_pc s) eqn:PC; try discriminate. assert (F : off (v_old s)) by (apply O; discriminate). rewrite (off_queue _ F) in L2.
  destruct (s_q (v_old s)) as [|d q] eqn:Q; [injection E as <-; auto|].
  inversion L2 as [|? ? N L2']; subst. destruct (N.eqb_spec (lenN d) 0) as [Z|_]; [exfalso; apply N, lenN_zero, Z|]. cbn [sstep] in E. injection E as <-. discriminate D.
Qed.

(** When the old connection broke between two messages, the loop writes to the
    new connection exactly the messages not sent before, in order. *)
Theorem C63_whole_partial : forall es1 s1 es2 s2 ok s3 sent unsent,
  mrun es1 minit = Some s1 -> v_pc s1 = MBefore ->
  mrun es2 s1 = Some s2 -> Forall alone es2 -> mstep (MMove ok) s2 = Some s3 -> v_pc s3 = MDone ->
  Forall (fun d => d <> []) (old_writes (es1 ++ es2)) ->
  old_writes (es1 ++ es2) = sent ++ unsent -> s_sent (v_old s3) = concat sent ->
  s_acc (v_new s3) = s_acc (v_new s1) ++ unsent.
Proof.
  intros es1 s1 es2 s2 ok s3 sent unsent R1 P1 R2 A E D F W S.
  pose proof F as F0. rewrite old_writes_app in F0. apply Forall_app in F0. destruct F0 as (F1 & F2).
  destruct (mi_run _ _ _ R1 F1 mi_init) as (M1 & A1). destruct (mi_run _ _ _ R2 F2 M1) as (M2 & A2).
  destruct (loop_end _ _ _ E M2 D) as (Q & V & O & Nw).
  assert (A3 : s_acc (v_old s2) = old_writes (es1 ++ es2)) by (rewrite A2, A1, old_writes_app; reflexivity).
  assert (X : leftover (old_writes (es1 ++ es2)) (s_sent (v_old s2)) (v_moved s2)).
  { destruct M2 as [[L _] _ OF]. assert (F3 : off (v_old s2)).
    { apply OF. cbn [mstep] in E. destruct (v_pc s2); congruence. }
    rewrite O in Q. rewrite (off_queue _ F3), Q, app_nil_r, A3 in L. exact L. }
  assert (U : v_moved s2 = unsent).
  { rewrite O in S. destruct X as [(done & X1 & X2)|(done & h & t & r & H & T & X1 & X2 & _)].
    - symmetry. rewrite W in X1. apply (concat_whole sent unsent done); [rewrite <- W; exact F|exact X1|congruence].
    - exfalso. rewrite W in X1. apply (concat_split sent unsent done h t r); [rewrite <- W; exact F|exact H|exact T|exact X1|congruence]. }
  destruct (alone_run _ _ _ R2 A) as (m & N1 & N2). rewrite Nw, N1. f_equal. rewrite (mi_pre _ M1 P1) in N2. cbn [app] in N2. congruence.
Qed.
Print Assumptions C63_whole_partial.

(** The new connection is a connection like any other (C32-C35 apply to it). *)
Lemma new_run es : forall s s' evs, mrun es s = Some s' -> srun evs sinit = Some (v_new s) ->
  exists evs', srun evs' sinit = Some (v_new s').
Proof.
  assert (SA : forall a e x y, srun a x = Some y -> srun (a ++ [e]) x = sstep e y).
  { induction a as [|b a IH]; intros e x y H; cbn [app srun] in *; [injection H as <-; destruct (sstep e x); reflexivity|]. destruct (sstep b x); [|discriminate]. apply IH. exact H. }
  induction es as [|e es IH]; intros s s' evs R N; cbn [mrun] in R; [injection R as <-; eauto|].
  destruct (mstep e s) as [s1|] eqn:E; [|discriminate].
  assert (X : exists evs1, srun evs1 sinit = Some (v_new s1)); [|destruct X as (evs1 & X); exact (IH _ _ _ R X)].
  clear R IH. destruct e as [ev|ev| |ok]; cbn [mstep] in E.
  - destruct (sstep ev (v_old s)); [|discriminate]. injection E as <-. eauto.
  - destruct (sstep ev (v_new s)) as [o|] eqn:S; [|discriminate]. injection E as <-. exists (evs ++ [ev]). rewrite (SA _ _ _ _ N). exact S.
  - destruct (v_pc s); try discriminate. destruct (_ && _); [|discriminate]. injection E as <-. eauto.
  - destruct (v_pc s); try discriminate. destruct (s_q (v_old s)) as [|d q]; [injection E as <-; eauto|]. destruct (lenN d =? 0); [injection E as <-; eauto|].
    exists (evs ++ [SvPush d ok]). rewrite (SA _ _ _ _ N). cbn [sstep] in *. injection E as <-. reflexivity.
Qed.

(** The same up to the receiver of the new connection: with messages [ns]
    written to it before the loop and [lost] those of the old connection's
    messages not sent, it gets, at every later time, a prefix of
    [ns ++ lost ++ ...], and nothing else. *)
Theorem C63_delivered_partial : forall c es1 s1 es2 s2 ok s3 es3 s4 ns os lost later sent unsent revs r,
  cfg_ok c -> digest_ok (rx_msg c) ->
  mrun es1 minit = Some s1 -> v_pc s1 = MBefore ->
  mrun es2 s1 = Some s2 -> Forall alone es2 -> mstep (MMove ok) s2 = Some s3 -> v_pc s3 = MDone -> mrun es3 s3 = Some s4 ->
  Forall (fun d => d <> []) (old_writes (es1 ++ es2)) ->
  old_writes (es1 ++ es2) = sent ++ unsent -> s_sent (v_old s3) = concat sent ->
  Forall2 (sent_as (rx_msg c)) (os ++ lost) (old_writes (es1 ++ es2)) -> length os = length sent ->
  Forall (out_ok c) (ns ++ lost ++ later) ->
  Forall2 (sent_as (rx_msg c)) ns (s_acc (v_new s1)) ->
  (exists ls, s_acc (v_new s4) = s_acc (v_new s3) ++ ls /\ Forall2 (sent_as (rx_msg c)) later ls) ->
  rrun c revs (rinit (s_sent (v_new s4))) = SOk r ->
  r_errs r = [] /\ r_crash r = false /\ exists k, Forall2 arrives (r_in r) (firstn k (ns ++ lost ++ later)).
Proof.
  intros c es1 s1 es2 s2 ok s3 es3 s4 ns os lost later sent unsent revs r C DG R1 P1 R2 A E D R3 F W S SO LO FO SN (ls & L1 & L2) R.
  pose proof (C63_whole_partial _ _ _ _ _ _ _ _ R1 P1 R2 A E D F W S) as T.
  assert (SL : Forall2 (sent_as (rx_msg c)) lost unsent).
  { rewrite W in SO. clear -SO LO. revert sent LO SO. induction os as [|o os IH]; intros [|d sent] LO SO; try discriminate; [exact SO|].
    inversion SO; subst. apply (IH sent); [injection LO; auto|assumption]. }
  destruct (new_run es1 minit s1 [] R1 eq_refl) as (v1 & V1). destruct (new_run es2 s1 s2 v1 R2 V1) as (v2 & V2).
  destruct (new_run [MMove ok] s2 s3 v2 ltac:(cbn [mrun]; rewrite E; reflexivity) V2) as (v3 & V3). destruct (new_run es3 s3 s4 v3 R3 V3) as (v4 & V4).
  assert (AC : accepted v4 = s_acc (v_new s1) ++ unsent ++ ls).
  { pose proof (run_acc _ _ _ V4) as X. cbn [s_acc sinit app] in X. rewrite <- X, L1, T, <- app_assoc. reflexivity. }
  destruct (C35_end_to_end_partial c (ns ++ lost ++ later) v4 (v_new s4) revs r C DG FO V4) as (E1 & E2 & k & E3 & _).
  - rewrite AC. apply Forall2_app; [exact SN|]. apply Forall2_app; assumption.
  - exact R.
  - split; [exact E1|]. split; [exact E2|]. exists k. exact E3.
Qed.
Print Assumptions C63_delivered_partial.

(** The full claim fails, in three ways.

    The old connection broke inside a message: the rest of that message is
    written to the new connection as if it were one.  Here one message, with
    opcode 5, is sent; the receiver of the new connection gets a message with
    opcode 7, which nobody sent. *)
Definition tear : list mev := [MOld SvReg; MOld SvEstablish; MOld (SvPush [x00; x00; x00; x00; x05; x0a; x00; x00; x00; x00; x00; x00; x00; x07; x01; x00; x00; x00; x61] true);
  MOld SvWritable; MOld SvPop; MOld (SvSend (SendN 9)); MOld SvError; MOld SvTermTask;
  MStart; MMove true; MMove true; MNew SvReg; MNew SvEstablish; MNew SvWritable; MNew SvPop; MNew (SvSend (SendN 10)); MNew SvPop; MNew SvEnd].

Theorem C63_torn_refuted : exists c o d s revs r,
  cfg_ok c /\ digest_ok (rx_msg c) /\ out_ok c o /\ sent_as (rx_msg c) o d
  /\ mrun tear minit = Some s /\ Forall alone tear /\ old_writes tear = [d] /\ v_pc s = MDone
  /\ rrun c revs (rinit (s_sent (v_new s))) = SOk r
  /\ o_opcode o = 5 /\ map m_opcode (r_in r) = [7] /\ map m_payload (r_in r) = [[x61]].
Proof.
  exists (mkRcfg (mkMsgCfg LittleE 1 false (fun _ => [x00; x00; x00; x00])) 16 4 16), (mkOut 0 5 [x00; x00; x00; x00; x07; x01; x00; x00; x00; x61]),
    [x00; x00; x00; x00; x05; x0a; x00; x00; x00; x00; x00; x00; x00; x07; x01; x00; x00; x00; x61].
  eexists. exists [EvEstablish; EvRead [KData 16; KData 3] [false]; EvTimer [] []]. eexists.
  split; [repeat split; cbn; lia|]. split; [intros p; cbn; lia|]. split; [unfold out_ok; vm_compute; intuition congruence|]. split.
  { exists 0, 0. eexists. split; vm_compute; reflexivity. }
  split; [vm_compute; reflexivity|]. split; [repeat constructor|]. split; [reflexivity|]. split; [reflexivity|].
  split; [vm_compute; reflexivity|]. repeat split; reflexivity.
Qed.
Print Assumptions C63_torn_refuted.

Lemma done_forever es : forall s s', mrun es s = Some s' -> v_pc s = MDone -> off (v_old s) ->
  s_sent (v_old s') = s_sent (v_old s) /\ v_moved s' = v_moved s /\ v_pc s' = MDone /\ exists q, s_q (v_old s') = s_q (v_old s) ++ q.
Proof.
  induction es as [|e es IH]; intros s s' R D O; cbn [mrun] in R; [injection R as <-; repeat split; auto; exists []; rewrite app_nil_r; reflexivity|].
  destruct (mstep e s) as [s1|] eqn:E; [|discriminate].
  assert (X : s_sent (v_old s1) = s_sent (v_old s) /\ v_moved s1 = v_moved s /\ v_pc s1 = MDone /\ off (v_old s1) /\ exists q, s_q (v_old s1) = s_q (v_old s) ++ q).
  { destruct e as [ev|ev| |ok]; cbn [mstep] in E; rewrite ?D in E; try discriminate.
    - destruct (sstep ev (v_old s)) as [o|] eqn:S; [|discriminate]. injection E as <-. destruct (step_off _ _ _ S O) as (O' & S' & Q'). cbn. repeat split; auto; try apply O'. eauto.
    - destruct (sstep ev (v_new s)) as [o|]; [|discriminate]. injection E as <-. cbn. repeat split; auto; try apply O. exists []. rewrite app_nil_r. reflexivity. }
  destruct X as (X1 & X2 & X3 & X4 & q & X5). destruct (IH _ _ R X3 X4) as (Y1 & Y2 & Y3 & q' & Y5). repeat split; try congruence. exists (q ++ q'). rewrite Y5, X5, app_assoc. reflexivity.
Qed.

(** A thread that looked up the old connection just before: its write returns
    true after the loop, and the data stays in the old queue for ever. *)
Theorem C63_late_write_refuted : exists es s d,
  mrun es minit = Some s /\ v_pc s = MDone /\ old_writes es = [d]
  /\ forall es' s', mrun es' s = Some s' -> v_pc s' = MDone /\ s_sent (v_old s') = [] /\ v_moved s' = [] /\ exists q, s_q (v_old s') = d :: q.
Proof.
  exists [MOld SvReg; MOld SvEstablish; MOld SvError; MOld SvTermTask; MStart; MMove true; MOld (SvPush [x61] true)]. eexists. exists [x61].
  split; [vm_compute; reflexivity|]. split; [reflexivity|]. split; [reflexivity|].
  intros es' s' R. apply done_forever in R; [|reflexivity|split; reflexivity]. destruct R as (G1 & G2 & G3 & q & G4). split; [exact G3|]. split; [exact G1|]. split; [exact G2|]. exists q. exact G4.
Qed.
Print Assumptions C63_late_write_refuted.

(** The new connection's queue is full: the loop ignores that write refused
    the data, which is then nowhere. *)
Theorem C63_full_refuted : exists es s d,
  mrun es minit = Some s /\ v_pc s = MDone /\ old_writes es = [d] /\ d <> []
  /\ s_sent (v_old s) = [] /\ queue (v_old s) = [] /\ s_acc (v_new s) = [] /\ queue (v_new s) = [] /\ s_up (v_new s) = true.
Proof.
  exists [MOld SvReg; MOld SvEstablish; MOld (SvPush [x61] true); MOld SvError; MOld SvTermTask; MStart; MMove false; MMove true]. eexists. exists [x61].
  split; [vm_compute; reflexivity|]. repeat split; try reflexivity. discriminate.
Qed.
Print Assumptions C63_full_refuted.

(** Three messages: the first is sent, the handshake reply is written to the new
    connection, the other two follow it there. *)
Example C63_nonvacuous :
  let c := mkRcfg (mkMsgCfg LittleE 1 false (fun _ => [x00; x00; x00; x00])) 16 4 16 in
  let m o := [x00; x00; x00; x00; o; x01; x00; x00; x00; x61] in
  exists s1 s2 s3 s4 r,
  mrun [MOld SvReg; MOld SvEstablish; MOld (SvPush (m x05) true); MOld SvWritable; MOld SvPop; MOld (SvSend (SendN 10)); MOld SvPop; MOld SvEnd; MOld SvError; MOld SvTermTask;
        MOld (SvPush (m x06) true); MNew SvReg; MNew SvEstablish; MNew (SvPush (m x01) true)] minit = Some s1 /\ v_pc s1 = MBefore
  /\ mrun [MStart; MMove true; MOld (SvPush (m x07) true); MMove true] s1 = Some s2 /\ Forall alone [MStart; MMove true; MOld (SvPush (m x07) true); MMove true]
  /\ mstep (MMove true) s2 = Some s3 /\ v_pc s3 = MDone /\ s_sent (v_old s3) = concat [m x05]
  /\ mrun [MNew SvWritable; MNew SvPop; MNew (SvSend (SendN 10)); MNew SvPop; MNew (SvSend (SendN 10)); MNew SvPop; MNew (SvSend (SendN 10)); MNew SvPop; MNew SvEnd] s3 = Some s4
  /\ s_sent (v_new s4) = m x01 ++ m x06 ++ m x07
  /\ rrun c [EvEstablish; EvRead [KData 16; KData 16] [false]; EvTimer [] []] (rinit (s_sent (v_new s4))) = SOk r /\ map m_opcode (r_in r) = [1; 6; 7]
  /\ Forall2 (sent_as (rx_msg c)) [mkOut 0 5 [x61]; mkOut 0 6 [x61]; mkOut 0 7 [x61]] [m x05; m x06; m x07]
  /\ Forall (out_ok c) [mkOut 0 1 [x61]; mkOut 0 6 [x61]; mkOut 0 7 [x61]].
Proof.
  cbv zeta. do 5 eexists. split; [vm_compute; reflexivity|]. split; [reflexivity|]. split; [vm_compute; reflexivity|]. split; [repeat constructor|].
  split; [vm_compute; reflexivity|]. split; [reflexivity|]. split; [reflexivity|]. split; [vm_compute; reflexivity|]. split; [reflexivity|].
  split; [vm_compute; reflexivity|]. split; [reflexivity|]. split.
  - repeat (constructor; [exists 0, 0; eexists; (split; vm_compute; reflexivity)|]). constructor.
  - repeat (constructor; [unfold out_ok; vm_compute; intuition congruence|]). constructor.
Qed.

(** C41 (no lost wake-up), C42 and C43 (ThreadCall). *)
From Coq Require Import Arith List Bool Lia.
From Verif Require Import CallModel.
Import ListNotations.

(** ** C41 *)

Section C41.
Variable A : Type.

Definition somewhere (p : cpc) (s : evq A) : Prop := In p (e_cons s).

Record EInv (s : evq A) : Prop := mkEInv {
  ei_sig : e_sig s = false -> 0 < e_won s \/ e_nfd s = true \/ somewhere CSig s;
  ei_q : e_q s <> [] -> 0 < e_pushed s \/ 0 < e_won s \/ e_nfd s = true
           \/ somewhere CSig s \/ somewhere CFunc s \/ somewhere CMore s }.

Lemma at_pc_nth i p (s : evq A) : at_pc i p s = true -> nth_error (e_cons s) i = Some p.
Proof. unfold at_pc. destruct (nth_error (e_cons s) i) as [[]|], p; congruence. Qed.

Lemma repl_in_new {B} i (v : B) l w : nth_error l i = Some w -> In v (repl i v l).
Proof. revert l. induction i as [|i IH]; intros [|x l] H; cbn in *; try discriminate; eauto. Qed.

Lemma repl_in_old {B} i (v w x : B) l : nth_error l i = Some w -> In x l -> x <> w -> In x (repl i v l).
Proof.
  revert l. induction i as [|i IH]; intros [|y l] H I N; cbn in *; try discriminate.
  - injection H as ->. destruct I as [<-|I]; [contradiction|auto].
  - destruct I as [->|I]; [auto|]. right. eauto.
Qed.

Lemma einv_step ev s s' : estep ev s = Some s' -> EInv s -> EInv s'.
Proof.
  intros E [H1 H2]. unfold somewhere in *. destruct ev; cbn [estep] in E.
  - destruct ok; injection E as <-; [|constructor; auto]. constructor; unfold somewhere; cbn; [exact H1|]. intros _. left. lia.
  - destruct (e_pushed s) as [|p] eqn:P; [discriminate|]. injection E as <-. constructor; unfold somewhere; cbn.
    + intros _. destruct (e_sig s); [left; lia|]. auto.
    + intros Q. destruct (e_sig s); [right; left; lia|]. destruct (H1 eq_refl) as [W|[N|S]]; auto.
  - destruct (e_won s) as [|w]; [discriminate|]. injection E as <-. constructor; unfold somewhere; cbn; auto.
  - destruct (at_pc i CIdle s) eqn:P; [|discriminate]. destruct (e_nfd s) eqn:N; [|discriminate]. injection E as <-. apply at_pc_nth in P.
    constructor; unfold somewhere; cbn.
    + intros _. right. right. apply repl_in_new with CIdle. exact P.
    + intros _. right. right. right. left. apply repl_in_new with CIdle. exact P.
  - destruct (at_pc i CIdle s && negb (e_nfd s)); [|discriminate]. injection E as <-. constructor; auto.
  - destruct (at_pc i CSig s) eqn:P; [|discriminate]. injection E as <-. apply at_pc_nth in P. constructor; unfold somewhere; cbn.
    + discriminate.
    + intros _. right. right. right. right. left. apply repl_in_new with CSig. exact P.
  - destruct (at_pc i CFunc s) eqn:P; [|discriminate]. destruct (e_q s) as [|a q] eqn:Q; [discriminate|]. injection E as <-.
    constructor; unfold somewhere; cbn; [exact H1|]. intros _. apply H2. discriminate.
  - destruct (at_pc i CFunc s) eqn:P; [|discriminate]. injection E as <-. apply at_pc_nth in P. constructor; unfold somewhere; cbn.
    + intros S. destruct (H1 S) as [W|[N|I]]; auto. right. right. apply repl_in_old with CFunc; auto. discriminate.
    + intros _. right. right. right. right. right. apply repl_in_new with CFunc. exact P.
  - destruct (at_pc i CFunc s) eqn:P; [|discriminate]. destruct (e_q s) as [|a q] eqn:Q; [|discriminate]. injection E as <-. apply at_pc_nth in P.
    constructor; unfold somewhere; cbn.
    + intros S. destruct (H1 S) as [W|[N|I]]; auto. right. right. apply repl_in_old with CFunc; auto. discriminate.
    + rewrite Q. congruence.
  - destruct (at_pc i CMore s) eqn:P; [|discriminate]. injection E as <-. constructor; cbn; auto.
Qed.

(** For any number of producers and registered handlers (one handler: the
    MPSC variant) and any schedule: if an element is queued and no producer is
    inside enqueue, the notification is pending or a handler is running. *)
Theorem C41_no_lost_wakeup : forall n evs (s : evq A), erun evs (evq_new n) = Some s ->
  e_q s <> [] -> e_pushed s = 0 -> e_won s = 0 ->
  e_nfd s = true \/ exists i p, nth_error (e_cons s) i = Some p /\ p <> CIdle.
Proof.
  intros n evs s R Q P W.
  assert (G : forall evs (s0 : evq A), EInv s0 -> forall s, erun evs s0 = Some s -> EInv s).
  { induction evs0 as [|ev evs0 IH]; intros s0 H s1 E; cbn in E; [congruence|].
    destruct (estep ev s0) as [s2|] eqn:E2; [|discriminate]. apply (IH s2); [|exact E]. apply (einv_step ev s0); auto. }
  assert (I0 : EInv (evq_new n)) by (constructor; cbn; congruence).
  destruct (G evs _ I0 s R) as [H1 H2].
  assert (X : forall p, somewhere p s -> p <> CIdle -> e_nfd s = true \/ exists i p, nth_error (e_cons s) i = Some p /\ p <> CIdle).
  { intros p I N. right. destruct (In_nth_error _ _ I) as (i & Hi). exists i, p. auto. }
  destruct (H2 Q) as [?|[?|[?|[?|[?|?]]]]]; try lia; auto; eapply X; eauto; discriminate.
Qed.
End C41.
Print Assumptions C41_no_lost_wakeup.

Example C41_nonvacuous : exists s, erun [EPush 1 true; EExch; ENotify; EReset 1; EPush 2 true; ESig 1; EDeq 1; EExch; ENotify; EMore 1] (evq_new 2) = Some s
  /\ e_q s = [2] /\ e_pushed s = 0 /\ e_won s = 0.
Proof. eexists. split; [vm_compute; reflexivity|]. repeat split. Qed.

(** ** C42 *)

Definition posted (evs : list tev) : list task := flat_map (fun ev => match ev with TPost t => [t] | _ => [] end) evs.
Definition destroyed (evs : list tev) : Prop := In TDestroy evs.

(** The answers due for the tasks dequeued: one per synchronous task. *)
Definition expected (d : task * bool) : list (nat * answer) :=
  if t_sync (fst d)
  then [(t_id (fst d), if snd d then match t_out (fst d) with OVal v => AVal v | OThrow e => AExc e end else ANotAvail)]
  else [].

Lemma tstep_gone burst ev s s' : tstep burst ev s = Some s' -> k_gone s = false.
Proof. destruct s as [q pushed won sig nfd pc st done ans gone]. cbn. destruct gone; [discriminate|reflexivity]. Qed.

Record TInv (p : list task) (s : tcall) : Prop := mkTInv {
  ti_q : k_gone s = false -> p = map fst (k_done s) ++ k_q s;
  ti_g : k_gone s = true -> exists r, p = map fst (k_done s) ++ r;
  ti_a : k_answers s = flat_map expected (k_done s) }.

Lemma tinv_step burst ev p s s' : tstep burst ev s = Some s' -> TInv p s -> TInv (p ++ posted [ev]) s'.
Proof.
  intros E [H1 H2 H3]. destruct s as [q pushed won sig nfd pc st done ans gone]. cbn in *. destruct gone; [discriminate|].
  specialize (H1 eq_refl). destruct ev; cbn [posted flat_map app] in *; rewrite ?app_nil_r.
  - injection E as <-. constructor; cbn; [|discriminate|exact H3]. intros _. rewrite H1, app_assoc. reflexivity.
  - destruct pushed; [discriminate|]. injection E as <-. constructor; cbn; auto.
  - destruct won; [discriminate|]. injection E as <-. constructor; cbn; auto.
  - injection E as <-. constructor; cbn; auto.
  - destruct pc; try discriminate. destruct nfd; [|discriminate]. injection E as <-. constructor; cbn; auto.
  - destruct pc; try discriminate. injection E as <-. constructor; cbn; auto.
  - destruct pc as [| |cnt|]; try discriminate. destruct q as [|t q]; injection E as <-; constructor; cbn; auto; try discriminate.
    + intros _. rewrite H1, map_app, <- app_assoc. reflexivity.
    + rewrite flat_map_app. cbn. rewrite app_nil_r, <- H3. unfold expected, run_task. cbn.
      destruct (t_sync t); [|rewrite app_nil_r; reflexivity]. destruct st; reflexivity.
  - destruct pc; try discriminate. injection E as <-. constructor; cbn; auto.
  - destruct pc; try discriminate. injection E as <-. constructor; cbn; [discriminate| |exact H3]. intros _. exists q. exact H1.
Qed.

Lemma trun_inv burst evs : forall p s s', trun burst evs s = Some s' -> TInv p s -> TInv (p ++ posted evs) s'.
Proof.
  induction evs as [|ev evs IH]; intros p s s' R I; cbn [trun] in R.
  - injection R as <-. cbn. rewrite app_nil_r. exact I.
  - destruct (tstep burst ev s) as [s1|] eqn:E; [|discriminate].
    replace (p ++ posted (ev :: evs)) with ((p ++ posted [ev]) ++ posted evs) by (unfold posted; cbn [flat_map]; rewrite app_nil_r, <- app_assoc; reflexivity).
    apply (IH _ s1); auto. apply (tinv_step burst ev p s); auto.
Qed.

Lemma tinit_inv : TInv [] tc_new.
Proof. constructor; cbn; auto; discriminate. Qed.

Lemma trun_app burst a b s : trun burst (a ++ b) s = match trun burst a s with Some s1 => trun burst b s1 | None => None end.
Proof. revert s. induction a as [|e a IH]; intros s; cbn; [reflexivity|]. destruct (tstep burst e s); auto. Qed.

(** Tasks are taken in posting order, each exactly once; unless the ThreadCall
    was destroyed, exactly the others are still queued; a task dequeued after
    stop() was refused and one dequeued before was run; each synchronous
    caller whose task was taken got exactly one answer: the value its task
    set, the exception it threw, or NOT_AVAIL if it was refused. *)
Theorem C42_threadcall_order : forall burst evs s, trun burst evs tc_new = Some s ->
  (exists rest, posted evs = map fst (k_done s) ++ rest /\ (~ destroyed evs -> rest = k_q s))
  /\ k_answers s = flat_map expected (k_done s).
Proof.
  intros burst evs s R. pose proof (trun_inv burst evs [] _ _ R tinit_inv) as [H1 H2 H3]. cbn [app] in *. split; [|exact H3].
  destruct (k_gone s) eqn:G.
  - destruct (H2 eq_refl) as (r & Hr). exists r. split; [exact Hr|]. intros N. exfalso. apply N.
    clear - R G. assert (Z : k_gone tc_new = false) by reflexivity. revert R Z. generalize tc_new. induction evs as [|ev evs IH]; intros s0 R Z; cbn in R; [congruence|].
    destruct (tstep burst ev s0) as [s1|] eqn:E; [|discriminate]. destruct (k_gone s1) eqn:G1.
    + left. destruct s0 as [q pushed won sig nfd pc st done ans gone]. cbn in *. subst gone. destruct ev; auto; exfalso.
      all: try (injection E as <-; discriminate G1).
      * destruct pushed; [discriminate|]. injection E as <-. discriminate G1.
      * destruct won; [discriminate|]. injection E as <-. discriminate G1.
      * destruct pc; try discriminate. destruct nfd; [|discriminate]. injection E as <-. discriminate G1.
      * destruct pc; try discriminate. injection E as <-. discriminate G1.
      * destruct pc as [| |cnt|]; try discriminate. destruct q; injection E as <-; discriminate G1.
      * destruct pc; try discriminate. injection E as <-. discriminate G1.
    + right. apply (IH s1); auto.
  - exists (k_q s). auto.
Qed.
Print Assumptions C42_threadcall_order.

Lemma stopped_stays burst evs : forall s s', trun burst evs s = Some s' -> k_stopped s = true ->
  k_stopped s' = true /\ exists d, k_done s' = k_done s ++ d /\ Forall (fun x => snd x = false) d.
Proof.
  induction evs as [|ev evs IH]; intros s s' R S; cbn in R.
  - injection R as <-. split; [exact S|]. exists []. rewrite app_nil_r. auto.
  - destruct (tstep burst ev s) as [s1|] eqn:E; [|discriminate].
    assert (X : k_stopped s1 = true /\ exists d, k_done s1 = k_done s ++ d /\ Forall (fun x => snd x = false) d).
    { destruct s as [q pushed won sig nfd pc st done ans gone]. cbn in *. subst st. destruct gone; [discriminate|].
      destruct ev.
      all: try (injection E as <-; cbn; split; [reflexivity|]; exists []; rewrite app_nil_r; auto; fail).
      - destruct pushed; [discriminate|]. injection E as <-. cbn. split; [reflexivity|]. exists []. rewrite app_nil_r. auto.
      - destruct won; [discriminate|]. injection E as <-. cbn. split; [reflexivity|]. exists []. rewrite app_nil_r. auto.
      - destruct pc; try discriminate. destruct nfd; [|discriminate]. injection E as <-. cbn. split; [reflexivity|]. exists []. rewrite app_nil_r. auto.
      - destruct pc; try discriminate. injection E as <-. cbn. split; [reflexivity|]. exists []. rewrite app_nil_r. auto.
      - destruct pc as [| |cnt|]; try discriminate. destruct q as [|t q]; injection E as <-; cbn.
        + split; [reflexivity|]. exists []. rewrite app_nil_r. auto.
        + split; [reflexivity|]. eexists. split; [reflexivity|]. auto.
      - destruct pc; try discriminate. injection E as <-. cbn. split; [reflexivity|]. exists []. rewrite app_nil_r. auto.
      - destruct pc; try discriminate. injection E as <-. cbn. split; [reflexivity|]. exists []. rewrite app_nil_r. auto. }
    destruct X as (S1 & d1 & D1 & F1). destruct (IH s1 s' R S1) as (S2 & d2 & D2 & F2). split; [exact S2|].
    exists (d1 ++ d2). rewrite D2, D1, app_assoc. split; [reflexivity|]. apply Forall_app. auto.
Qed.

Lemma unstopped burst evs : forall s s', trun burst evs s = Some s' -> ~ In TStop evs -> k_stopped s = false ->
  Forall (fun x => snd x = true) (k_done s) -> k_stopped s' = false /\ Forall (fun x => snd x = true) (k_done s').
Proof.
  induction evs as [|ev evs IH]; intros s s' R N S F; cbn in R.
  - injection R as <-. auto.
  - destruct (tstep burst ev s) as [s1|] eqn:E; [|discriminate].
    assert (X : k_stopped s1 = false /\ Forall (fun x => snd x = true) (k_done s1)).
    { destruct s as [q pushed won sig nfd pc st done ans gone]. cbn in *. subst st. destruct gone; [discriminate|].
      destruct ev.
      all: try (injection E as <-; cbn; auto; fail).
      - destruct pushed; [discriminate|]. injection E as <-. auto.
      - destruct won; [discriminate|]. injection E as <-. auto.
      - exfalso. apply N. left. reflexivity.
      - destruct pc; try discriminate. destruct nfd; [|discriminate]. injection E as <-. auto.
      - destruct pc; try discriminate. injection E as <-. auto.
      - destruct pc as [| |cnt|]; try discriminate. destruct q as [|t q]; injection E as <-; cbn; auto. split; [reflexivity|]. apply Forall_app. auto.
      - destruct pc; try discriminate. injection E as <-. auto.
      - destruct pc; try discriminate. injection E as <-. auto. }
    destruct X as (S1 & F1). apply (IH s1 s' R); auto. intros I. apply N. right. exact I.
Qed.

(** Before the first stop() every task taken is run; after it none is. *)
Theorem C42_stop : forall burst evs1 evs2 s1 s2, ~ In TStop evs1 ->
  trun burst evs1 tc_new = Some s1 -> trun burst (TStop :: evs2) s1 = Some s2 ->
  Forall (fun x => snd x = true) (k_done s1)
  /\ exists d, k_done s2 = k_done s1 ++ d /\ Forall (fun x => snd x = false) d.
Proof.
  intros burst evs1 evs2 s1 s2 N R1 R2. split.
  - apply (unstopped burst evs1 tc_new s1); auto. constructor.
  - cbn in R2. destruct s1 as [q pushed won sig nfd pc st done ans gone]. cbn in R2. destruct gone; [discriminate|].
    destruct (stopped_stays burst evs2 _ _ R2 eq_refl) as (_ & H). exact H.
Qed.
Print Assumptions C42_stop.

Definition ex_calls : list tev :=
  [TPost (mkTask 1 true (OVal (Some 7))); TExch; TPost (mkTask 2 false (OThrow 3)); TNotify; TReset; TSig; TDeq; TExch; TPost (mkTask 3 true (OThrow 5)); TExch;
   TDeq; TNotify; TRenotify; TReset; TSig; TDeq; TDeq].
Definition ex_calls2 : list tev :=
  [TStop; TPost (mkTask 4 true (OVal None)); TExch; TNotify; TReset; TSig; TDeq; TDeq].

Example C42_nonvacuous : exists s1 s2, trun 2 ex_calls tc_new = Some s1 /\ trun 2 ex_calls2 s1 = Some s2
  /\ map (fun d => t_id (fst d)) (k_done s1) = [1; 2; 3]
  /\ k_answers s2 = [(1, AVal (Some 7)); (3, AExc 5); (4, ANotAvail)].
Proof. eexists. eexists. split; [vm_compute; reflexivity|]. split; [vm_compute; reflexivity|]. split; reflexivity. Qed.

(** ** C43 *)

(** Steps the event loop and the producers already inside enqueue take. *)
Definition internal (ev : tev) : bool :=
  match ev with TExch | TNotify | TReset | TSig | TDeq | TRenotify => true | _ => false end.

Definition call_pending (evs : list tev) (s : tcall) (t : task) : Prop :=
  In t (posted evs) /\ t_sync t = true /\ ~ exists a, In (t_id t, a) (k_answers s).

Record LInv (s : tcall) : Prop := mkLInv {
  li_sig : k_sig s = false -> 0 < k_won s \/ k_nfd s = true \/ k_pc s = LSig;
  li_q : k_q s <> [] -> 0 < k_pushed s \/ 0 < k_won s \/ k_nfd s = true \/ k_pc s <> LIdle }.

Lemma linv_step burst ev s s' : tstep burst ev s = Some s' -> LInv s -> LInv s'.
Proof.
  intros E [H1 H2]. destruct s as [q pushed won sig nfd pc st done ans gone]. cbn in *. destruct gone; [discriminate|].
  destruct ev.
  - injection E as <-. constructor; cbn; auto. intros _. left. lia.
  - destruct pushed; [discriminate|]. injection E as <-. constructor; cbn.
    + intros _. destruct sig; [left; lia|auto].
    + intros Q. destruct sig; [right; left; lia|]. destruct (H1 eq_refl) as [?|[?| ->]]; auto. right. right. right. discriminate.
  - destruct won; [discriminate|]. injection E as <-. constructor; cbn; auto.
  - injection E as <-. constructor; cbn; auto.
  - destruct pc; try discriminate. destruct nfd; [|discriminate]. injection E as <-. constructor; cbn; auto. intros _. right. right. right. discriminate.
  - destruct pc; try discriminate. injection E as <-. constructor; cbn; [discriminate|]. intros _. right. right. right. discriminate.
  - destruct pc as [| |cnt|]; try discriminate. destruct q as [|t q]; injection E as <-; constructor; cbn.
    + intros S. destruct (H1 S) as [?|[?|?]]; auto. discriminate.
    + congruence.
    + intros S. destruct (H1 S) as [?|[?|?]]; auto. discriminate.
    + intros _. right. right. right. match goal with |- (if ?b then _ else _) <> _ => destruct b; discriminate end.
  - destruct pc; try discriminate. injection E as <-. constructor; cbn; auto.
  - destruct pc; try discriminate. injection E as <-. constructor; cbn; [|congruence]. exact H1.
Qed.

Lemma linv_run burst evs : forall s s', trun burst evs s = Some s' -> LInv s -> LInv s'.
Proof.
  induction evs as [|ev evs IH]; intros s s' R I; cbn in R; [congruence|].
  destruct (tstep burst ev s) as [s1|] eqn:E; [|discriminate]. apply (IH s1); auto. apply (linv_step burst ev s); auto.
Qed.

(** Work left. *)
Definition todo (s : tcall) : nat :=
  4 * length (k_q s) + 5 * k_pushed s + 4 * k_won s + (if k_nfd s then 3 else 0)
  + match k_pc s with LIdle => 0 | LSig => 2 | LFunc _ => 1 | LMore => 4 end.

Lemma todo_step burst ev s s' : tstep burst ev s = Some s' -> internal ev = true -> todo s' < todo s.
Proof.
  intros E I. destruct s as [q pushed won sig nfd pc st done ans gone]. unfold todo. cbn in *. destruct gone; [discriminate|].
  destruct ev; try discriminate.
  - destruct pushed; [discriminate|]. injection E as <-. cbn. destruct sig; lia.
  - destruct won; [discriminate|]. injection E as <-. cbn. destruct nfd; lia.
  - destruct pc; try discriminate. destruct nfd; [|discriminate]. injection E as <-. cbn. lia.
  - destruct pc; try discriminate. injection E as <-. cbn. lia.
  - destruct pc as [| |cnt|]; try discriminate. destruct q as [|t q]; injection E as <-; cbn; [lia|]. match goal with |- context [if ?b then LMore else _] => destruct b; cbn; lia end.
  - destruct pc; try discriminate. injection E as <-. cbn. destruct nfd; lia.
Qed.

(** As long as the ThreadCall is not destroyed, a pending call means that the
    loop (or a producer still inside enqueue) has a step to take; and without
    new posts only finitely many such steps ([todo]) are possible, so the call
    is answered. *)
Theorem C43_answered_partial : forall burst evs s, trun burst evs tc_new = Some s -> ~ destroyed evs ->
  (forall t, call_pending evs s t -> exists ev s', internal ev = true /\ tstep burst ev s = Some s')
  /\ (forall evs' s', Forall (fun ev => internal ev = true) evs' -> trun burst evs' s = Some s' -> length evs' <= todo s).
Proof.
  intros burst evs s R ND. split.
  - intros t (IN & SY & NA).
    destruct (C42_threadcall_order burst evs s R) as ((rest & P & Q) & AN). specialize (Q ND). subst rest.
    assert (L : LInv s) by (apply (linv_run burst evs tc_new); auto; constructor; cbn; congruence).
    assert (NQ : k_q s <> []).
    { rewrite P in IN. apply in_app_or in IN. destruct IN as [IN|IN]; [|intros X; rewrite X in IN; contradiction].
      exfalso. apply NA. apply in_map_iff in IN. destruct IN as ((t' & b) & E & IN). cbn in E. subst t'.
      rewrite AN. eexists. apply in_flat_map. exists (t, b). split; [exact IN|]. unfold expected. cbn. rewrite SY. left. reflexivity. }
    destruct L as [H1 H2]. specialize (H2 NQ).
    assert (G : k_gone s = false).
    { destruct (k_gone s) eqn:G; [|reflexivity]. exfalso. apply ND.
      revert R G. clear. assert (Z : k_gone tc_new = false) by reflexivity. revert Z. generalize tc_new. induction evs as [|ev evs IH]; intros s0 Z R G; cbn in R; [congruence|].
      destruct (tstep burst ev s0) as [s1|] eqn:E; [|discriminate]. destruct (k_gone s1) eqn:G1; [|right; apply (IH s1); auto].
      left. destruct s0 as [q pushed won sig nfd pc st done ans gone]. cbn in *. subst gone. destruct ev; auto; exfalso.
      all: try (injection E as <-; discriminate G1).
      - destruct pushed; [discriminate|]. injection E as <-. discriminate G1.
      - destruct won; [discriminate|]. injection E as <-. discriminate G1.
      - destruct pc; try discriminate. destruct nfd; [|discriminate]. injection E as <-. discriminate G1.
      - destruct pc; try discriminate. injection E as <-. discriminate G1.
      - destruct pc as [| |cnt|]; try discriminate. destruct q; injection E as <-; discriminate G1.
      - destruct pc; try discriminate. injection E as <-. discriminate G1. }
    destruct s as [q pushed won sig nfd pc st done ans gone]. cbn in *. subst gone.
    destruct pushed as [|p]; [|exists TExch; eexists; split; [reflexivity|]; cbn; reflexivity].
    destruct won as [|w]; [|exists TNotify; eexists; split; [reflexivity|]; cbn; reflexivity].
    destruct pc.
    + destruct nfd; [|exfalso; destruct H2 as [?|[?|[?|?]]]; try lia; congruence]. exists TReset. eexists. split; [reflexivity|]. cbn. reflexivity.
    + exists TSig. eexists. split; [reflexivity|]. cbn. reflexivity.
    + exists TDeq. cbn. destruct q; eexists; split; reflexivity.
    + exists TRenotify. eexists. split; [reflexivity|]. cbn. reflexivity.
  - intros evs' s' F R'. clear R ND. revert s R'. induction F as [|ev evs' HI F IH]; intros s R'; cbn [length]; [lia|].
    cbn [trun] in R'. destruct (tstep burst ev s) as [s1|] eqn:E; [|discriminate]. specialize (IH s1 R'). pose proof (todo_step burst ev s s1 E HI). lia.
Qed.
Print Assumptions C43_answered_partial.

Example C43_nonvacuous :
  let evs := [TPost (mkTask 1 true (OVal (Some 7))); TExch] in
  exists s, trun 128 evs tc_new = Some s /\ ~ destroyed evs /\ call_pending evs s (mkTask 1 true (OVal (Some 7))).
Proof.
  cbv zeta. eexists. split; [vm_compute; reflexivity|]. split.
  - unfold destroyed. cbn. intuition discriminate.
  - split; [left; reflexivity|]. split; [reflexivity|]. intros (a & []).
Qed.

(** Steps of the event loop. *)
Definition loop_steps (evs : list tev) : nat :=
  length (filter (fun ev => match ev with TReset | TSig | TDeq | TRenotify => true | _ => false end) evs).

Definition lpcw (p : lpc) : nat := match p with LIdle => 3 | LSig => 2 | LFunc _ => 1 | LMore => 4 end.

Lemma answers_mono burst evs : forall s s', trun burst evs s = Some s' -> forall i, In i (map fst (k_answers s)) -> In i (map fst (k_answers s')).
Proof.
  induction evs as [|ev evs IH]; intros s s' R i I; cbn [trun] in R; [congruence|].
  destruct (tstep burst ev s) as [s1|] eqn:E; [|discriminate]. apply (IH s1 s' R).
  destruct s as [q pushed won sig nfd pc st done ans gone]. cbn [k_answers] in I. cbn in E. destruct gone; [discriminate|].
  destruct ev.
  all: try (injection E as <-; exact I).
  - destruct pushed; [discriminate|]. injection E as <-. exact I.
  - destruct won; [discriminate|]. injection E as <-. exact I.
  - destruct pc; try discriminate. destruct nfd; [|discriminate]. injection E as <-. exact I.
  - destruct pc; try discriminate. injection E as <-. exact I.
  - destruct pc as [| |cnt|]; try discriminate. destruct q as [|t q]; injection E as <-; cbn; [exact I|].
    destruct (t_sync t); [|exact I]. rewrite map_app. apply in_or_app. auto.
  - destruct pc; try discriminate. injection E as <-. exact I.
  - destruct pc; try discriminate. injection E as <-. exact I.
Qed.

Lemma wait_bound burst t : t_sync t = true -> forall evs s s' a b, trun burst evs s = Some s' -> ~ destroyed evs -> k_q s = a ++ t :: b ->
  In (t_id t) (map fst (k_answers s')) \/ loop_steps evs <= 4 * length a + 4 + lpcw (k_pc s).
Proof.
  intros SY. induction evs as [|ev evs IH]; intros s s' a b R ND Q; [right; cbn; lia|]. cbn [trun] in R.
  destruct (tstep burst ev s) as [s1|] eqn:E; [|discriminate].
  assert (ND' : ~ destroyed evs) by (intros X; apply ND; right; exact X).
  destruct s as [q pushed won sig nfd pc st done ans gone]. cbn [k_q k_pc] in *. subst q. cbn in E. destruct gone; [discriminate|].
  unfold loop_steps in *. cbn [filter].
  destruct ev.
  - injection E as <-. destruct (IH _ s' a (b ++ [t0]) R ND') as [?|H]; [cbn; rewrite <- app_assoc; reflexivity|auto|right; exact H].
  - destruct pushed; [discriminate|]. injection E as <-. destruct (IH _ s' a b R ND' eq_refl) as [?|H]; [auto|right; exact H].
  - destruct won; [discriminate|]. injection E as <-. destruct (IH _ s' a b R ND' eq_refl) as [?|H]; [auto|right; exact H].
  - injection E as <-. destruct (IH _ s' a b R ND' eq_refl) as [?|H]; [auto|right; exact H].
  - destruct pc; try discriminate. destruct nfd; [|discriminate]. injection E as <-.
    destruct (IH _ s' a b R ND' eq_refl) as [?|H]; [auto|right]. cbn in *. lia.
  - destruct pc; try discriminate. injection E as <-.
    destruct (IH _ s' a b R ND' eq_refl) as [?|H]; [auto|right]. cbn in *. lia.
  - destruct pc as [| |cnt|]; try discriminate. destruct a as [|x a].
    + left. cbn [app] in E. rewrite SY in E. injection E as <-. apply (answers_mono burst evs _ s' R). cbn. rewrite map_app. apply in_or_app. right. left. reflexivity.
    + cbn [app] in E. injection E as <-. destruct (IH _ s' a b R ND' eq_refl) as [?|H]; [auto|right]. revert H. cbn [k_pc length lpcw].
      match goal with |- context [if ?b then LMore else _] => destruct b; cbn; lia end.
  - destruct pc; try discriminate. injection E as <-.
    destruct (IH _ s' a b R ND' eq_refl) as [?|H]; [auto|right]. cbn in *. lia.
  - exfalso. apply ND. left. reflexivity.
Qed.

(** However many further tasks are posted, a call is answered after a number
    of steps of the event loop that depends only on the tasks queued before
    it. *)
Theorem C43_bounded_wait_partial : forall burst evs1 evs2 s1 s2 t, t_sync t = true ->
  trun burst evs1 tc_new = Some s1 -> trun burst (TPost t :: evs2) s1 = Some s2 -> ~ destroyed evs2 ->
  In (t_id t) (map fst (k_answers s2)) \/ loop_steps evs2 <= 4 * length (k_q s1) + 8.
Proof.
  intros burst evs1 evs2 s1 s2 t SY R1 R2 ND. cbn [trun] in R2. destruct (tstep burst (TPost t) s1) as [s|] eqn:E; [|discriminate].
  assert (Q : k_q s = k_q s1 ++ t :: [] /\ k_pc s = k_pc s1).
  { destruct s1 as [q pushed won sig nfd pc st done ans gone]. cbn in E. destruct gone; [discriminate|]. injection E as <-. auto. }
  destruct Q as (Q & P). destruct (wait_bound burst t SY evs2 s s2 (k_q s1) [] R2 ND Q) as [H|H]; [auto|]. right.
  assert (lpcw (k_pc s) <= 4) by (destruct (k_pc s); cbn; lia). lia.
Qed.
Print Assumptions C43_bounded_wait_partial.

Example C43_bounded_nonvacuous : exists s1 s2,
  trun 2 [TPost (mkTask 1 false (OVal None))] tc_new = Some s1
  /\ trun 2 (TPost (mkTask 2 true (OVal (Some 7))) :: [TExch; TNotify; TExch; TReset; TSig; TDeq; TPost (mkTask 3 false (OVal None)); TDeq]) s1 = Some s2
  /\ k_answers s2 = [(2, AVal (Some 7))].
Proof. eexists. eexists. split; [vm_compute; reflexivity|]. split; vm_compute; reflexivity. Qed.

(** The full claim fails: destroying the ThreadCall deletes the queued
    handles without notifying; no later event can answer the caller. *)
Theorem C43_answered_refuted : exists burst evs s t, trun burst evs tc_new = Some s /\ call_pending evs s t
  /\ forall ev, tstep burst ev s = None.
Proof.
  exists 128, [TPost (mkTask 1 true (OVal (Some 7))); TExch; TNotify; TDestroy]. eexists. exists (mkTask 1 true (OVal (Some 7))).
  split; [vm_compute; reflexivity|]. split.
  - split; [left; reflexivity|]. split; [reflexivity|]. intros (a & []).
  - intros ev. reflexivity.
Qed.
Print Assumptions C43_answered_refuted.

(** Property C66: dispatch of incoming messages. *)
From Coq Require Import Arith NArith List Bool Lia.
From Verif Require Import DispModel.
Import ListNotations.

(** ** Specification *)

(** The messages the workers enqueued, in queue order; those taken off the
    queue, in order. *)
Definition pushed (evs : list dev) : list msg := flat_map (fun e => match e with DPush m => [m] | _ => [] end) evs.
Definition taken (t : list tr) : list msg := flat_map (fun x => match x with TCall _ m | TSkip m | TLost m => [m] | TReg _ _ => [] end) t.

(** The handler last registered for op in a history. *)
Definition handler_of (op : N) (t : list tr) : option nat :=
  fold_left (fun a x => match x with TReg o h => if (o =? op)%N then Some h else a | _ => a end) t None.

(** A history is right if every message went to the handler registered for its
    opcode at that time, or was skipped because there was none. *)
Definition right_handlers (t : list tr) : Prop := forall t1 x t2, t = t1 ++ x :: t2 ->
  match x with
  | TCall h m => handler_of (m_op m) t1 = Some h
  | TSkip m => handler_of (m_op m) t1 = None
  | _ => True
  end.

(** Steps of the loop and of workers inside enqueue. *)
Definition internal (ev : dev) : bool := match ev with DExch | DNotify | DReset | DSigs | DDeq | DRenotify => true | _ => false end.

(** ** Proofs *)

Lemma handler_snoc op t x : handler_of op (t ++ [x]) = match x with TReg o h => if (o =? op)%N then Some h else handler_of op t | _ => handler_of op t end.
Proof. unfold handler_of. rewrite fold_left_app. reflexivity. Qed.

Lemma right_snoc t x : right_handlers t ->
  match x with TCall h m => handler_of (m_op m) t = Some h | TSkip m => handler_of (m_op m) t = None | _ => True end -> right_handlers (t ++ [x]).
Proof.
  intros H K t1 y t2 E. destruct t2 as [|z t2].
  - apply app_inj_tail in E. destruct E as (<- & <-). exact K.
  - assert (exists t2', t = t1 ++ y :: t2').
    { destruct (exists_last (l := z :: t2)) as (l & u & EL); [discriminate|]. rewrite EL in E. change (t1 ++ y :: l ++ [u]) with (t1 ++ (y :: l) ++ [u]) in E. rewrite app_assoc in E. apply app_inj_tail in E. destruct E as (-> & _). eauto. }
    destruct H0 as (t2' & ->). exact (H t1 y t2' eq_refl).
Qed.

Lemma taken_app a b : taken (a ++ b) = taken a ++ taken b.
Proof. unfold taken. apply flat_map_app. Qed.

Record DInv (es : list dev) (s : disp) : Prop := mkDInv {
  i_order : pushed es = taken (d_tr s) ++ d_q s;
  i_map : forall op, find_handler op (d_map s) = handler_of op (d_tr s);
  i_right : right_handlers (d_tr s);
  i_sig : d_sig s = false -> 0 < d_won s \/ d_nfd s = true \/ d_pc s = DSig;
  i_q : d_q s <> [] -> 0 < d_pushed s \/ 0 < d_won s \/ d_nfd s = true \/ d_pc s <> DIdle \/ exists m, In (TLost m) (d_tr s) }.

Ltac fl := cbn [d_q d_pushed d_won d_sig d_nfd d_pc d_sys d_map d_tr].
Lemma dinv_step burst es ev s s' : dstep burst ev s = Some s' -> DInv es s -> DInv (es ++ [ev]) s'.
Proof.
  intros E [H1 H2 H3 H4 H5]. destruct s as [q p w sg n pc sys mp t]. cbn [d_q d_pushed d_won d_sig d_nfd d_pc d_sys d_map d_tr] in *.
  assert (P : forall x, pushed (es ++ [x]) = pushed es ++ match x with DPush m => [m] | _ => [] end).
  { intros x. unfold pushed. rewrite flat_map_app. cbn. rewrite app_nil_r. reflexivity. }
  destruct ev; cbn in E.
  - destruct pc; try discriminate. injection E as <-. constructor; fl.
    + rewrite P, taken_app, app_nil_r. cbn [taken flat_map app]. rewrite app_nil_r. exact H1.
    + intros op'. rewrite handler_snoc. unfold find_handler. cbn [find fst]. destruct (op =? op')%N; [reflexivity|exact (H2 op')].
    + apply right_snoc; auto.
    + exact H4.
    + intros Q. destruct (H5 Q) as [K|[K|[K|[K|(m & K)]]]]; auto. do 4 right. exists m. apply in_or_app. auto.
  - injection E as <-. constructor; fl; auto. rewrite P, app_nil_r. exact H1.
  - injection E as <-. constructor; fl; auto. rewrite P, app_nil_r. exact H1.
  - injection E as <-. constructor; fl; auto; [rewrite P, H1, app_assoc; reflexivity|]. intros _. left. lia.
  - destruct p as [|p]; [discriminate|]. injection E as <-. constructor; fl; auto.
    + rewrite P, app_nil_r. exact H1.
    + intros _. destruct sg; [left; lia|auto].
    + intros Q. destruct sg; [right; left; lia|]. destruct (H4 eq_refl) as [K|[K|K]]; [auto..|]. right. right. right. left. rewrite K. discriminate.
  - destruct w as [|w]; [discriminate|]. injection E as <-. constructor; fl; auto. rewrite P, app_nil_r. exact H1.
  - destruct pc; try discriminate. destruct n; [|discriminate]. injection E as <-. constructor; fl; auto.
    + rewrite P, app_nil_r. exact H1.
    + intros _. right. right. right. left. discriminate.
  - destruct pc; try discriminate. injection E as <-. constructor; fl; auto.
    + rewrite P, app_nil_r. exact H1.
    + discriminate.
    + intros _. right. right. right. left. discriminate.
  - destruct pc as [| |cnt|]; try discriminate. destruct q as [|m q].
    + injection E as <-. constructor; fl; auto.
      * rewrite P, app_nil_r. exact H1.
      * intros S. destruct (H4 S) as [K|[K|K]]; auto. discriminate.
      * congruence.
    + destruct (sys =? 1).
      * injection E as <-. constructor; fl.
        -- rewrite P, app_nil_r, H1, taken_app. destruct (find_handler (m_op m) mp); cbn; rewrite <- app_assoc; reflexivity.
        -- intros op. rewrite handler_snoc. rewrite H2. destruct (find_handler (m_op m) mp); reflexivity.
        -- apply right_snoc; [exact H3|]. rewrite H2. destruct (handler_of (m_op m) t) eqn:E; cbn; auto.
        -- intros S. destruct (H4 S) as [K|[K|K]]; auto. discriminate.
        -- intros _. right. right. right. left. destruct (match burst with 0 => _ | S _ => _ end); discriminate.
      * injection E as <-. constructor; fl.
        -- rewrite P, app_nil_r, H1, taken_app. cbn. rewrite <- app_assoc. reflexivity.
        -- intros op. rewrite handler_snoc. exact (H2 op).
        -- apply right_snoc; auto.
        -- intros S. destruct (H4 S) as [K|[K|K]]; auto. discriminate.
        -- intros _. right. right. right. right. exists m. apply in_or_app. cbn. auto.
  - destruct pc; try discriminate. injection E as <-. constructor; fl; auto. rewrite P, app_nil_r. exact H1.
Qed.

Lemma dinv_new : DInv [] d_new.
Proof. constructor; cbn; auto; try congruence. intros t1 x t2 E. destruct t1; discriminate. Qed.

Lemma dinv_run burst evs : forall es s s', drun burst evs s = Some s' -> DInv es s -> DInv (es ++ evs) s'.
Proof.
  induction evs as [|ev evs IH]; intros es s s' R I; cbn in R; [injection R as <-; rewrite app_nil_r; exact I|].
  destruct (dstep burst ev s) as [s1|] eqn:E; [|discriminate]. change (ev :: evs) with ([ev] ++ evs). rewrite app_assoc. apply (IH _ s1); auto. apply (dinv_step burst es ev s); auto.
Qed.

(** Once started and not stopped, nothing is dropped. *)
Lemma running_step burst ev s s' : dstep burst ev s = Some s' -> ev <> DStop -> d_sys s = 1 -> (forall m, ~ In (TLost m) (d_tr s)) -> d_sys s' = 1 /\ forall m, ~ In (TLost m) (d_tr s').
Proof.
  intros E N S L. destruct s as [q p w sg n pc sys mp t]. cbn in *. subst sys.
  destruct ev; cbn in E; try congruence;
    repeat match type of E with context [match ?x with _ => _ end] => lazymatch x with context [match _ with _ => _ end] => fail | _ => destruct x; try discriminate end end;
    injection E as <-; cbn; split; auto; intros m' I; apply in_app_or in I; destruct I as [I|[I|[]]]; try discriminate; exact (L m' I).
Qed.
Lemma running_run burst evs : forall s s', drun burst evs s = Some s' -> ~ In DStop evs -> d_sys s = 1 -> (forall m, ~ In (TLost m) (d_tr s)) -> d_sys s' = 1 /\ forall m, ~ In (TLost m) (d_tr s').
Proof.
  induction evs as [|ev evs IH]; intros s s' R N S L; cbn in R; [injection R as <-; auto|].
  destruct (dstep burst ev s) as [s1|] eqn:E; [|discriminate]. destruct (running_step _ _ _ _ E) as (S1 & L1); auto; [intros ->; apply N; left; reflexivity|]. apply (IH s1 s' R); auto. intros I. apply N. right. exact I.
Qed.

(** ** C66 *)

(** In every run: the messages taken off the queue are the first ones enqueued,
    in order, each once; every one was passed to the handler registered for
    its opcode, or skipped because there was none, or dropped.  Nothing is
    dropped if the network was started before and is not stopped. *)
Theorem C66_dispatch : forall burst evs s, drun burst evs d_new = Some s ->
  pushed evs = taken (d_tr s) ++ d_q s /\ right_handlers (d_tr s)
  /\ (forall evs', evs = DStart :: evs' -> ~ In DStop evs' -> forall m, ~ In (TLost m) (d_tr s)).
Proof.
  intros burst evs s R. destruct (dinv_run burst evs [] d_new s R dinv_new) as [H1 _ H3 _ _]. split; [exact H1|]. split; [exact H3|].
  intros evs' -> N. cbn in R. apply (running_run burst evs' _ s R); auto.
Qed.
Print Assumptions C66_dispatch.

(** Work left. *)
Definition todo (s : disp) : nat :=
  4 * length (d_q s) + 5 * d_pushed s + 4 * d_won s + (if d_nfd s then 3 else 0) + match d_pc s with DIdle => 0 | DSig => 2 | DFunc _ => 1 | DMore => 4 end.
Lemma todo_step burst ev s s' : dstep burst ev s = Some s' -> internal ev = true -> todo s' < todo s.
Proof.
  intros E I. destruct s as [q p w sg n pc sys mp t]. unfold todo. destruct ev; try discriminate; cbn in E.
  - destruct p; [discriminate|]. injection E as <-. cbn. destruct sg; lia.
  - destruct w; [discriminate|]. injection E as <-. cbn. destruct n; lia.
  - destruct pc; try discriminate. destruct n; [|discriminate]. injection E as <-. cbn. lia.
  - destruct pc; try discriminate. injection E as <-. cbn. lia.
  - destruct pc as [| |cnt|]; try discriminate. destruct q as [|m q]; [injection E as <-; cbn; lia|]. destruct (sys =? 1); injection E as <-; cbn; [match goal with |- context [if ?b then DMore else _] => destruct b end|]; cbn; lia.
  - destruct pc; try discriminate. injection E as <-. cbn. destruct n; lia.
Qed.

(** While running, the burst limit and the interleaving only delay: as long as
    a message is queued, the loop or a worker inside enqueue has a step to take,
    and they can take only finitely many without new messages; so they end
    with all messages dispatched. *)
Theorem C66_progress : forall burst evs s, drun burst (DStart :: evs) d_new = Some s -> ~ In DStop evs ->
  (d_q s <> [] -> exists ev s', internal ev = true /\ dstep burst ev s = Some s')
  /\ (exists n, forall evs' s', Forall (fun ev => internal ev = true) evs' -> drun burst evs' s = Some s' -> length evs' <= n)
  /\ (exists evs' s', Forall (fun ev => internal ev = true) evs' /\ drun burst evs' s = Some s' /\ d_q s' = [] /\ taken (d_tr s') = pushed evs).
Proof.
  assert (K : forall burst evs s, drun burst (DStart :: evs) d_new = Some s -> ~ In DStop evs -> d_q s <> [] -> exists ev s', internal ev = true /\ dstep burst ev s = Some s').
  { intros burst evs s R N Q. pose proof (dinv_run burst (DStart :: evs) [] d_new s R dinv_new) as H. destruct (C66_dispatch _ _ _ R) as (_ & _ & L). specialize (L evs eq_refl N).
    destruct (i_q _ _ H Q) as [P|[P|[P|[P|(m & P)]]]]; [| | | |destruct (L m P)]; destruct s as [q p w sg n pc sys mp t]; cbn in *.
    - exists DExch. destruct p; [lia|]. eexists. split; reflexivity.
    - exists DNotify. destruct w; [lia|]. eexists. split; reflexivity.
    - subst n. destruct pc; [exists DReset|exists DSigs|exists DDeq|exists DRenotify]; try (eexists; split; reflexivity). destruct q; [congruence|]. cbn. destruct (sys =? 1); eexists; split; reflexivity.
    - destruct pc; [congruence|exists DSigs|exists DDeq|exists DRenotify]; try (eexists; split; reflexivity). destruct q; [congruence|]. cbn. destruct (sys =? 1); eexists; split; reflexivity. }
  assert (A : forall burst evs1 evs2 s s1 s2, drun burst evs1 s = Some s1 -> drun burst evs2 s1 = Some s2 -> drun burst (evs1 ++ evs2) s = Some s2).
  { intros burst evs1. induction evs1 as [|e evs1 IH]; intros evs2 s s1 s2 R1 R2; cbn in *; [congruence|]. destruct (dstep burst e s); [|discriminate]. eauto. }
  assert (PI : forall evs, Forall (fun ev => internal ev = true) evs -> pushed evs = [] /\ ~ In DStop evs).
  { induction 1 as [|e es He Hs IH]; [split; [reflexivity|intros []]|]. destruct IH as (IH1 & IH2). split; [destruct e; try discriminate; exact IH1|]. intros [->|I]; [discriminate|auto]. }
  intros burst evs s R N. split; [exact (K burst evs s R N)|]. split.
  - exists (todo s). intros evs' s' F. revert s R N s'. assert (B : forall s s', drun burst evs' s = Some s' -> length evs' <= todo s).
    { induction F as [|e es He Hs IH]; intros s s' R; cbn [drun length] in *; [lia|]. destruct (dstep burst e s) as [s1|] eqn:E; [|discriminate]. pose proof (todo_step _ _ _ _ E He). specialize (IH s1 s' R). lia. }
    intros s _ _ s' R. eauto.
  - remember (todo s) as n eqn:En. revert evs s R N En. induction n as [n IH] using lt_wf_ind. intros evs s R N En.
    destruct (d_q s) as [|m q] eqn:Q.
    + exists [], s. split; [constructor|]. split; [reflexivity|]. split; [exact Q|]. destruct (C66_dispatch _ _ _ R) as (E & _). rewrite Q, app_nil_r in E. symmetry. exact E.
    + destruct (K burst evs s R N) as (ev & s1 & I1 & E1); [rewrite Q; discriminate|]. pose proof (todo_step _ _ _ _ E1 I1) as L.
      assert (R1 : drun burst (DStart :: evs ++ [ev]) d_new = Some s1). { change (DStart :: evs ++ [ev]) with ((DStart :: evs) ++ [ev]). apply (A _ _ _ _ s); [exact R|]. cbn. rewrite E1. reflexivity. }
      destruct (IH (todo s1) ltac:(lia) (evs ++ [ev]) s1 R1) as (evs' & s' & F & R' & Q' & T'); [|reflexivity|].
      * intros I. apply in_app_or in I. destruct I as [I|[->|[]]]; [exact (N I)|discriminate].
      * exists (ev :: evs'), s'. split; [constructor; auto|]. split; [cbn; rewrite E1; exact R'|]. split; [exact Q'|]. rewrite T'. unfold pushed. rewrite flat_map_app. destruct ev; try discriminate; cbn; rewrite app_nil_r; reflexivity.
Qed.
Print Assumptions C66_progress.

(** Two registered opcodes, an unknown one, a handler replaced, burst limit 2. *)
Example C66_nonvacuous :
  let evs := [DSet 1 10; DSet 2 20; DPush (mkMsg 1 0); DExch; DPush (mkMsg 9 1); DExch; DNotify; DPush (mkMsg 2 2); DReset; DSigs; DDeq; DDeq; DRenotify; DSet 2 21; DReset; DSigs; DDeq; DDeq; DExch; DNotify] in
  option_map (fun s => (d_tr s, d_q s)) (drun 2 (DStart :: evs) d_new) = Some ([TReg 1 10; TReg 2 20; TCall 10 (mkMsg 1 0); TSkip (mkMsg 9 1); TReg 2 21; TCall 21 (mkMsg 2 2)], []) /\ ~ In DStop evs.
Proof. split; [vm_compute; reflexivity|]. intros I. repeat destruct I as [I|I]; try discriminate. exact I. Qed.

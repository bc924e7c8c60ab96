(** After a fatal error. *)
From Coq Require Import Arith List Bool Lia.
From Verif Require Import FatalModel.
Import ListNotations.

(** ** What is claimed *)

(** The user's handler was called with a fatal error. *)
Definition told (o : list obs) : Prop := exists e, In (OReport e) o.
(** A fatal error occurred. *)
Definition failed (o : list obs) : Prop := exists i e, In (OFatal i e) o.
(** How often: an error was reported; occurred; occurred in the dispatcher; a connection was closed, was opened. *)
Definition is_report (e : nat) (x : obs) : bool := match x with OReport f => f =? e | _ => false end.
Definition is_fatal (e : nat) (x : obs) : bool := match x with OFatal _ f => f =? e | _ => false end.
Definition is_fatal0 (e : nat) (x : obs) : bool := match x with OFatal 0 f => f =? e | _ => false end.
Definition is_close (c : nat) (x : obs) : bool := match x with OClose d => d =? c | _ => false end.
Definition is_open (c : nat) (x : obs) : bool := match x with OOpen d => d =? c | _ => false end.
Definition times (f : obs -> bool) (o : list obs) : nat := length (filter f o).
(** Work is done: an operation, for a caller who waits or not, or the setup of a connection. *)
Definition work (x : obs) : bool := match x with ODone _ | OAns _ true | OServe _ => true | _ => false end.

(** Every fatal error is reported, once, when the queues are empty. *)
Definition C142_each_full : Prop := forall n es s o, 1 <= n -> run n es init = Some (s, o) -> s_q s 0 = [] -> s_uq s = [] ->
  forall e, times (is_report e) o = times (is_fatal e) o.
(** Nothing is opened after the report. *)
Definition C142_closed_full : Prop := forall n es s o1 e o2, 1 <= n -> run n es init = Some (s, o1 ++ OReport e :: o2) ->
  forall c, ~ In (OOpen c) o2.

(** ** Runs *)

Lemma run_app n a b s s2 o : run n (a ++ b) s = Some (s2, o) ->
  exists s1 o1 o2, run n a s = Some (s1, o1) /\ run n b s1 = Some (s2, o2) /\ o = o1 ++ o2.
Proof.
  revert s o. induction a as [|e a IH]; intros s o H; cbn [app run] in *.
  - exists s, [], o. auto.
  - destruct (step n e s) as [[sa oa]|]; [|discriminate].
    destruct (run n (a ++ b) sa) as [[sb ob]|] eqn:R; [|discriminate]. injection H as <- <-.
    destruct (IH _ _ R) as (s1 & o1 & o2 & A & B & C). exists s1, (oa ++ o1), o2. rewrite A. split; [reflexivity|].
    split; [exact B|]. rewrite C. apply app_assoc.
Qed.

Lemma run_ind n (P : st -> list obs -> Prop) : P init [] ->
  (forall e s o s' o', P s o -> step n e s = Some (s', o') -> P s' (o ++ o')) ->
  forall es s o, run n es init = Some (s, o) -> P s o.
Proof.
  intros H0 HS. induction es as [|e es IH] using rev_ind; intros s o R.
  - injection R as <- <-. exact H0.
  - destruct (run_app _ _ _ _ _ _ R) as (s1 & o1 & o2 & A & B & ->). cbn [run] in B.
    destruct (step n e s1) as [[sa oa]|] eqn:S; [|discriminate]. injection B as <- <-.
    rewrite app_nil_r. exact (HS e s1 o1 sa oa (IH _ _ A) S).
Qed.

Ltac flds := cbn [s_q s_stop s_exit s_uq s_thr s_conn s_work s_max s_pc s_off set_q set_uq set_thr set_conn set_pc set_stop set_exit set_work grow
                  post disp_error on_fatal tell_all exec refuse app] in *.
(** All cases of a step. *)
Ltac cases H :=
  repeat match type of H with
         | context [match ?x with _ => _ end] => destruct x eqn:?; try discriminate H
         end.
Ltac leaves e H :=
  destruct e as [id sync|bad|iw bad|bad|w| |c w|c|c| | | |]; cbn [step] in H; unfold go, exec, on_fatal, refuse in H;
  cases H; flds; try discriminate H; try (injection H as <- <-); flds.

(** ** Which tasks are in which queue *)

Definition own (t : task) : bool := match t with TFeed _ | TStop => true | _ => false end.
Definition queues (s : st) : Prop := (forall i t, 1 <= i -> In t (s_q s i) -> own t = true) /\ ~ In TStop (s_q s 0).

Lemma queues_post i t s : queues s -> (1 <= i -> own t = true) -> (i = 0 -> t <> TStop) -> queues (post i t s).
Proof.
  intros [A B] O Z. split; flds; unfold upd.
  - intros j u L H. destruct (Nat.eqb_spec j i) as [->|]; [|exact (A j u L H)].
    apply in_app_or in H. destruct H as [H|[<-|[]]]; [exact (A i u L H) | exact (O L)].
  - destruct (Nat.eqb_spec 0 i) as [<-|]; [|exact B]. intros H. apply in_app_or in H. destruct H as [H|[H|[]]]; [exact (B H) | exact (Z eq_refl H)].
Qed.
Lemma queues_same s s' : s_q s' = s_q s -> queues s -> queues s'.
Proof. intros E [A B]. split; rewrite E; assumption. Qed.
Lemma queues_pop i t q s : queues s -> s_q s i = t :: q -> queues (set_q (upd (s_q s) i q) s).
Proof.
  intros [A B] E. split; flds; unfold upd.
  - intros j u L H. destruct (Nat.eqb_spec j i) as [->|]; [|exact (A j u L H)]. apply (A i u L). rewrite E. right. exact H.
  - destruct (Nat.eqb_spec 0 i) as [<-|]; [|exact B]. intros H. apply B. rewrite E. right. exact H.
Qed.

Lemma queues_exec i bad t s : queues s -> (1 <= i -> own t = true) -> queues (fst (exec i bad t s)).
Proof.
  intros Q O. unfold exec, on_fatal, disp_error.
  destruct t as [id sync|e|c|c|c|]; cbn [fst];
    repeat match goal with
           | |- context [match ?x with _ => _ end] => destruct x; cbn [fst]
           end;
    try exact Q; try (apply (queues_same s); [reflexivity | exact Q]);
    try (apply queues_post; [first [exact Q | apply (queues_same s); [reflexivity | exact Q]] | lia | discriminate]).
Qed.

Lemma queues_step n e s s' o : queues s -> step n e s = Some (s', o) -> queues s'.
Proof.
  intros Q H. destruct e as [id sync|bad|i bad|bad|w| |c w|c|c| | | |]; cbn [step] in H.
  - injection H as <- <-. apply queues_post; [exact Q | lia | discriminate].
  - destruct (s_q s 0) as [|t q] eqn:E; [discriminate|]. destruct (runs s 0); [|discriminate].
    cbv zeta in H. flds. destruct (s_stop s); [injection H as <- <-; exact (queues_pop 0 t q s Q E)|].
    assert (E2 : exec 0 bad t (set_q (upd (s_q s) 0 q) s) = (s', o)) by congruence.
    replace s' with (fst (exec 0 bad t (set_q (upd (s_q s) 0 q) s))) by (rewrite E2; reflexivity).
    apply queues_exec; [exact (queues_pop 0 t q s Q E) | lia].
  - destruct i as [|i]; [discriminate|]. destruct (s_q s (S i)) as [|t q] eqn:E; [discriminate|].
    destruct (runs s (S i) && (S i <? n)); [|discriminate].
    assert (E2 : exec (S i) bad t (set_q (upd (s_q s) (S i) q) s) = (s', o)) by congruence.
    replace s' with (fst (exec (S i) bad t (set_q (upd (s_q s) (S i) q) s))) by (rewrite E2; reflexivity).
    apply queues_exec; [exact (queues_pop (S i) t q s Q E)|]. intros L. apply (proj1 Q (S i) t L). rewrite E. left. reflexivity.
  - cases H; injection H as <- <-; exact Q.
  - cases H; injection H as <- <-. apply queues_post; [apply (queues_same s); [reflexivity | exact Q] | reflexivity | discriminate].
  - cases H; injection H as <- <-. apply (queues_same s); [reflexivity | exact Q].
  - cases H; injection H as <- <-. apply queues_post; [apply (queues_same s); [reflexivity | exact Q] | reflexivity | discriminate].
  - cases H; injection H as <- <-. apply queues_post; [apply (queues_same s); [reflexivity | exact Q] | lia | discriminate].
  - cases H; injection H as <- <-; (apply queues_post; [apply (queues_same s); [reflexivity | exact Q] | lia | discriminate]).
  - cases H; injection H as <- <-. destruct Q as [A B]. split; flds.
    + intros j u L K. destruct ((1 <=? j) && (j <? n)); [|exact (A j u L K)].
      apply in_app_or in K. destruct K as [K|[<-|[]]]; [exact (A j u L K) | reflexivity].
    + exact B.
  - cases H; injection H as <- <-; try exact Q; (apply (queues_same s); [reflexivity | exact Q]).
  - unfold go in H. cases H; injection H as <- <-; try (apply (queues_same s); [reflexivity | exact Q]).
    all: try (match goal with |- queues (set_pc _ _ (post ?i ?t ?s)) => apply (queues_same (post i t s)); [reflexivity|] end;
              apply queues_post; [exact Q | reflexivity | discriminate]).
  - cases H; injection H as <- <-. apply (queues_same s); [reflexivity | exact Q].
Qed.

Lemma queues_run n es s o : run n es init = Some (s, o) -> queues s.
Proof.
  revert es s o. apply (run_ind n (fun s _ => queues s)).
  - split; [intros i t _ [] | intros []].
  - intros e s o s' o' Q S. exact (queues_step _ _ _ _ _ Q S).
Qed.

(** ** Errors are passed on *)

Definition is_fwd (e : nat) (t : task) : bool := match t with TFwd f => f =? e | _ => false end.
Definition fwd (e : nat) (l : list task) : nat := length (filter (is_fwd e) l).
Definition cnt (e : nat) (l : list nat) : nat := length (filter (fun f => f =? e) l).

Lemma times_app f a b : times f (a ++ b) = times f a + times f b.
Proof. unfold times. rewrite filter_app, app_length. reflexivity. Qed.
Lemma fwd_app e a b : fwd e (a ++ b) = fwd e a + fwd e b.
Proof. unfold fwd. rewrite filter_app, app_length. reflexivity. Qed.
Lemma cnt_app e a b : cnt e (a ++ b) = cnt e a + cnt e b.
Proof. unfold cnt. rewrite filter_app, app_length. reflexivity. Qed.

Record errs (s : st) (o : list obs) : Prop := mkErrs {
  e_most : forall e, times (is_report e) o + cnt e (s_uq s) + fwd e (s_q s 0) <= times (is_fatal e) o;
  e_disp : forall e, times (is_fatal0 e) o <= times (is_report e) o + cnt e (s_uq s);
  e_pass : failed o -> s_stop s = true \/ exists e, In (TFwd e) (s_q s 0);
  e_tell : s_stop s = true -> s_uq s <> [] \/ told o;
  e_stop : s_uq s <> [] \/ told o -> s_stop s = true }.

Lemma errs_init : errs init [].
Proof.
  constructor; cbn.
  - lia.
  - lia.
  - intros (i & e & []).
  - discriminate.
  - intros [H|(e & [])]. elim H. reflexivity.
Qed.

(** How a step changes what belongs to errors. *)
Inductive change (s : st) : st -> list obs -> Prop :=
| ch_same s' o : s_stop s' = s_stop s -> s_uq s' = s_uq s -> (forall e, fwd e (s_q s' 0) = fwd e (s_q s 0)) ->
    (forall e, In (TFwd e) (s_q s 0) -> In (TFwd e) (s_q s' 0)) ->
    (forall i e, ~ In (OFatal i e) o) -> (forall e, ~ In (OReport e) o) -> change s s' o
| ch_disp s' e : s_stop s' = true -> s_uq s' = s_uq s ++ [e] -> (forall f, fwd f (s_q s' 0) <= fwd f (s_q s 0)) -> change s s' [OFatal 0 e]
| ch_work s' i e : s_stop s' = s_stop s -> s_uq s' = s_uq s -> s_q s' 0 = s_q s 0 ++ [TFwd e] -> change s s' [OFatal (S i) e]
| ch_fwd s' e q : s_stop s' = true -> s_uq s' = s_uq s ++ [e] -> s_q s 0 = TFwd e :: q -> s_q s' 0 = q -> change s s' []
| ch_drop s' t q : s_stop s = true -> s_stop s' = true -> s_uq s' = s_uq s -> s_q s 0 = t :: q -> s_q s' 0 = q -> change s s' (refuse t)
| ch_tell s' e l : s_stop s' = s_stop s -> s_uq s = e :: l -> s_uq s' = l -> s_q s' 0 = s_q s 0 -> change s s' [OReport e].

Lemma app_one (l : list task) t (e : nat) : (forall e, t <> TFwd e) -> fwd e (l ++ [t]) = fwd e l.
Proof. intros H. rewrite fwd_app. destruct t; cbn; try lia. elim (H e0). reflexivity. Qed.

Lemma close_only l : (forall i e, ~ In (OFatal i e) (map OClose l ++ [ORet])) /\ (forall e, ~ In (OReport e) (map OClose l ++ [ORet])).
Proof.
  split; intros; intros K; apply in_app_or in K; destruct K as [K|[K|[]]]; try discriminate K;
    apply in_map_iff in K; destruct K as (x & K & _); discriminate K.
Qed.

Ltac noobs := intros; intros K; cbn in K; repeat (destruct K as [K|K]; try discriminate K); try contradiction.

Lemma change_step n e s s' o : queues s -> step n e s = Some (s', o) -> change s s' o.
Proof.
  intros Q H.
  assert (D : (exists bad, e = EDisp bad) /\ s_stop s = true \/ ~ ((exists bad, e = EDisp bad) /\ s_stop s = true)).
  { destruct e; try (right; intros [[b K] _]; discriminate K). destruct (s_stop s); [left | right; intros [_ K]; discriminate K]. eauto. }
  destruct D as [[[bad ->] ST]|D].
  { cbn [step] in H. destruct (s_q s 0) as [|t q] eqn:E; [discriminate|]. destruct (runs s 0); [|discriminate]. flds. rewrite ST in H.
    injection H as <- <-. apply (ch_drop s _ t q); flds; unfold upd; auto. }
  leaves e H; try (exfalso; apply D; eauto; fail).
  all: try (apply ch_same; flds; unfold upd; try rewrite Nat.eqb_refl; [reflexivity | reflexivity | | |noobs|noobs];
         [intros f; try reflexivity | intros f K; try exact K]).
  all: try (rewrite app_one; [reflexivity | discriminate]).
  all: try (apply in_or_app; left; exact K).
  all: try (match goal with E : s_q ?x 0 = _ |- fwd _ _ = _ => rewrite E; try rewrite app_one; [reflexivity | discriminate] end).
  all: try (match goal with E : s_q ?x 0 = _ |- fwd _ _ = _ => rewrite E; reflexivity end).
  all: try (match goal with E : s_q ?x 0 = _, K : In (TFwd _) (s_q ?x 0) |- _ => rewrite E in K; destruct K as [K|K]; [discriminate K|] end;
            try exact K; apply in_or_app; left; exact K).
  all: try (match goal with E : s_q ?x (S ?i) = TFwd ?e :: _ |- _ =>
              assert (X : own (TFwd e) = true) by (apply (proj1 Q (S i)); [lia | rewrite E; left; reflexivity]); discriminate X end).
  all: try (match goal with |- context [0 =? ?w] => destruct (Nat.eqb_spec 0 w) as [<-|] end;
            first [rewrite app_one; [reflexivity | discriminate] | reflexivity | apply in_or_app; left; exact K | exact K]).
  all: try (apply ch_disp; flds; unfold upd; try rewrite Nat.eqb_refl; auto;
            match goal with E : s_q ?x 0 = _ |- _ => rewrite E | _ => idtac end; cbn; auto; fail).
  all: try (apply ch_work; flds; unfold upd; cbn; reflexivity).
  all: try (match goal with E : s_q ?x 0 = TFwd ?e :: ?q |- _ => apply (ch_fwd x _ e q); flds; unfold upd; auto end).
  all: try (match goal with E : s_uq ?x = ?e :: ?l |- _ => apply (ch_tell x _ e l); flds; unfold upd; auto end).
  apply ch_same; flds; auto; apply close_only.
Qed.

Lemma times_none f o : (forall x, In x o -> f x = false) -> times f o = 0.
Proof.
  unfold times. induction o as [|x o IH]; intros H; [reflexivity|]. cbn [filter]. rewrite (H x (or_introl eq_refl)).
  apply IH. intros y K. apply H. right. exact K.
Qed.
Lemma told_app a b : told (a ++ b) <-> told a \/ told b.
Proof.
  unfold told. split.
  - intros (e & H). apply in_app_or in H. destruct H as [H|H]; [left | right]; exists e; exact H.
  - intros [(e & H)|(e & H)]; exists e; apply in_or_app; auto.
Qed.
Lemma failed_app a b : failed (a ++ b) <-> failed a \/ failed b.
Proof.
  unfold failed. split.
  - intros (i & e & H). apply in_app_or in H. destruct H as [H|H]; [left | right]; exists i, e; exact H.
  - intros [(i & e & H)|(i & e & H)]; exists i, e; apply in_or_app; auto.
Qed.

Lemma refuse_plain t : (forall i e, ~ In (OFatal i e) (refuse t)) /\ forall e, ~ In (OReport e) (refuse t).
Proof. destruct t; cbn; try destruct sync; cbn; intuition discriminate. Qed.

Lemma plain_times o : (forall i e, ~ In (OFatal i e) o) -> (forall e, ~ In (OReport e) o) ->
  forall e, times (is_report e) o = 0 /\ times (is_fatal e) o = 0 /\ times (is_fatal0 e) o = 0.
Proof.
  intros F R e. repeat split; apply times_none; intros x K.
  - destruct x; try reflexivity. elim (R e0 K).
  - destruct x; try reflexivity. elim (F i e0 K).
  - destruct x as [i x| | | | | | |]; try reflexivity. elim (F i x K).
Qed.

Lemma errs_change s o s' o' : errs s o -> change s s' o' -> errs s' (o ++ o').
Proof.
  intros [M D P T S] C.
  destruct C as [s' o' E1 E2 E3 E4 F R | s' e E1 E2 E3 | s' i e E1 E2 E3 | s' e q E1 E2 E3 E4 | s' t q E0 E1 E2 E3 E4 | s' e l E1 E2 E3 E4].
  - pose proof (plain_times o' F R) as PT.
    assert (NT : ~ told o') by (intros (e & K); exact (R e K)).
    assert (NF : ~ failed o') by (intros (i & e & K); exact (F i e K)).
    constructor; rewrite ?E1, ?E2.
    + intros f. rewrite !times_app, E3. specialize (M f). destruct (PT f) as (P1 & P2 & P3). rewrite ?P1, ?P2, ?P3. lia.
    + intros f. rewrite !times_app. specialize (D f). destruct (PT f) as (P1 & P2 & P3). rewrite ?P1, ?P2, ?P3. lia.
    + rewrite failed_app. intros [K|K]; [|contradiction]. destruct (P K) as [K1|(e & K1)]; [left; exact K1 | right; exists e; apply E4; exact K1].
    + rewrite told_app. intros K. destruct (T K); tauto.
    + rewrite told_app. intros [K|[K|K]]; [| |contradiction]; apply S; tauto.
  - constructor; rewrite ?E1, ?E2; auto.
    + intros f. rewrite !times_app, cnt_app. specialize (M f). specialize (E3 f). cbn. destruct (e =? f); cbn; lia.
    + intros f. rewrite !times_app, cnt_app. specialize (D f). cbn. destruct (e =? f); cbn; lia.
    + intros _. left. destruct (s_uq s); discriminate.
  - constructor; rewrite ?E1, ?E2.
    + intros f. rewrite !times_app, E3, fwd_app. specialize (M f). cbn. destruct (e =? f); cbn; lia.
    + intros f. rewrite !times_app. specialize (D f). cbn. lia.
    + intros _. right. exists e. rewrite E3. apply in_or_app. right. left. reflexivity.
    + rewrite told_app. intros K. destruct (T K); tauto.
    + rewrite told_app. intros [K|[K|(f & [K|[]])]]; [| |discriminate K]; apply S; tauto.
  - rewrite app_nil_r. constructor; rewrite ?E1, ?E2; auto.
    + intros f. rewrite cnt_app. specialize (M f). rewrite E3 in M. rewrite E4. unfold fwd in *. cbn in *. destruct (e =? f); cbn in *; lia.
    + intros f. rewrite cnt_app. specialize (D f). lia.
    + intros _. left. destruct (s_uq s); discriminate.
  - pose proof (plain_times (refuse t) (proj1 (refuse_plain t)) (proj2 (refuse_plain t))) as PT.
    constructor; rewrite ?E1, ?E2; auto.
    + intros f. rewrite !times_app, E4. specialize (M f). rewrite E3 in M. destruct (PT f) as (P1 & P2 & P3). rewrite ?P1, ?P2, ?P3.
      unfold fwd in *. cbn [filter] in M. destruct (is_fwd f t); cbn [length] in M; lia.
    + intros f. rewrite !times_app. specialize (D f). destruct (PT f) as (P1 & P2 & P3). rewrite ?P1, ?P2, ?P3. lia.
    + intros _. rewrite told_app. destruct (T E0); tauto.
  - constructor; rewrite ?E1, ?E3, ?E4.
    + intros f. rewrite !times_app. specialize (M f). rewrite E2 in M. unfold cnt in *. cbn in *. destruct (e =? f); cbn in *; lia.
    + intros f. rewrite !times_app. specialize (D f). rewrite E2 in D. unfold cnt in *. cbn in *. destruct (e =? f); cbn in *; lia.
    + rewrite failed_app. intros [K|(i & f & [K|[]])]; [|discriminate K]. exact (P K).
    + intros _. right. rewrite told_app. right. exists e. left. reflexivity.
    + intros _. apply S. left. rewrite E2. discriminate.
Qed.

Lemma errs_run n es s o : run n es init = Some (s, o) -> errs s o /\ queues s.
Proof.
  revert es s o. apply (run_ind n (fun s o => errs s o /\ queues s)).
  - split; [exact errs_init|]. split; [intros i t _ [] | intros []].
  - intros e s o s' o' [E Q] S. split; [exact (errs_change _ _ _ _ E (change_step _ _ _ _ _ Q S)) | exact (queues_step _ _ _ _ _ Q S)].
Qed.

(** If a fatal error occurred anywhere and the dispatcher and the user's loop have executed what was waiting, the
    handler has been called.  Every call of the handler is for an error that occurred, and none is reported more often than it
    occurred.  Errors of the dispatcher are all reported. *)
Theorem C142_reported n es s o : run n es init = Some (s, o) ->
  (failed o -> s_q s 0 = [] -> s_uq s = [] -> told o) /\
  (forall e, times (is_report e) o <= times (is_fatal e) o) /\
  (s_uq s = [] -> forall e, times (is_fatal0 e) o <= times (is_report e) o).
Proof.
  intros R. destruct (errs_run _ _ _ _ R) as [[M D P T S] _]. split; [|split].
  - intros F Q U. destruct (P F) as [K|(e & K)]; [|rewrite Q in K; destruct K]. destruct (T K) as [K1|K1]; [contradiction | exact K1].
  - intros e. specialize (M e). lia.
  - intros U e. specialize (D e). rewrite U in D. cbn in D. lia.
Qed.
Print Assumptions C142_reported.

(** Two workers fail: the second error is not reported. *)
Definition two_workers : list ev :=
  [EAccept 1; EAccept 2; EWork 1 (Some 7); EWork 2 (Some 8); EDisp None; EDisp None; EUser].
Theorem C142_each_refuted : exists es s o, run 3 es init = Some (s, o) /\ s_q s 0 = [] /\ s_uq s = [] /\
  times (is_fatal 8) o = 1 /\ times (is_report 8) o = 0.
Proof. exists two_workers. eexists. eexists. split; [vm_compute; reflexivity|]. vm_compute. auto. Qed.
Print Assumptions C142_each_refuted.
Theorem C142_each_full_refuted : ~ C142_each_full.
Proof.
  intros F. destruct C142_each_refuted as (es & s & o & R & Q & U & A & B). specialize (F 3 es s o ltac:(lia) R Q U 8). lia.
Qed.
Print Assumptions C142_each_full_refuted.

(** ** After the report *)

Lemma stopped_step n e s s' o : queues s -> s_stop s = true -> step n e s = Some (s', o) ->
  s_stop s' = true /\ forall x, In x o -> work x = false.
Proof.
  intros Q ST H.
  assert (G : forall l x, In x (map OClose l ++ [ORet]) -> work x = false).
  { intros l x K. apply in_app_or in K. destruct K as [K|[<-|[]]]; [|reflexivity]. apply in_map_iff in K. destruct K as (c & <- & _). reflexivity. }
  leaves e H; try congruence.
  all: try (match goal with E : s_q ?x (S ?i) = ?t :: _ |- _ =>
              assert (X : own t = true) by (apply (proj1 Q (S i)); [lia | rewrite E; left; reflexivity]); discriminate X end).
  all: (split; [first [exact ST | reflexivity]|]); try exact (G _);
       intros x K; cbn in K; repeat (destruct K as [<-|K]; [reflexivity|]); try destruct K.
Qed.

Lemma stopped_run n es : forall s s2 o, queues s -> s_stop s = true -> run n es s = Some (s2, o) -> forall x, In x o -> work x = false.
Proof.
  induction es as [|e es IH]; intros s s2 o Q ST R x K; cbn [run] in R.
  - injection R as <- <-. destruct K.
  - destruct (step n e s) as [[s1 o1]|] eqn:S; [|discriminate]. destruct (run n es s1) as [[s3 o3]|] eqn:R2; [|discriminate]. injection R as <- <-.
    destruct (stopped_step _ _ _ _ _ Q ST S) as [ST1 W]. apply in_app_or in K. destruct K as [K|K]; [exact (W x K)|].
    exact (IH _ _ _ (queues_step _ _ _ _ _ Q S) ST1 R2 x K).
Qed.

(** Once the dispatcher has had a fatal error, or the handler was called with one of any thread, no operation is
    executed: callers who wait get an exception, connections are not set up any more. *)
Theorem C142_over n es1 es2 s1 o1 s2 o2 : run n es1 init = Some (s1, o1) -> run n es2 s1 = Some (s2, o2) ->
  (exists e, In (OFatal 0 e) o1) \/ told o1 -> forall x, In x o2 -> work x = false.
Proof.
  intros R1 R2 F. destruct (errs_run _ _ _ _ R1) as [[M D P T S] Q]. apply (stopped_run n es2 s1 s2 o2 Q); [|exact R2].
  apply S. destruct F as [(e & F)|F]; [|right; exact F]. specialize (D e).
  assert (1 <= times (is_fatal0 e) o1).
  { unfold times. destruct (filter (is_fatal0 e) o1) as [|x l] eqn:E; [|cbn; lia].
    assert (K : In (OFatal 0 e) (filter (is_fatal0 e) o1)) by (apply filter_In; split; [exact F | cbn; apply Nat.eqb_refl]). rewrite E in K. destruct K. }
  assert (K : 1 <= times (is_report e) o1 \/ 1 <= cnt e (s_uq s1)) by lia. destruct K as [K|K].
  - right. exists e. unfold times in K. destruct (filter (is_report e) o1) as [|x l] eqn:E; [cbn in K; lia|].
    assert (X : In x (filter (is_report e) o1)) by (rewrite E; left; reflexivity). apply filter_In in X. destruct X as [X1 X2].
    destruct x; try discriminate X2. cbn in X2. apply Nat.eqb_eq in X2. subst. exact X1.
  - left. intros N. rewrite N in K. cbn in K. lia.
Qed.
Print Assumptions C142_over.

(** ** Callers who wait *)

(** Calls of an operation by callers who wait for it; answers. *)
Definition is_call (id : nat) (e : ev) : bool := match e with ECall i true => i =? id | _ => false end.
Definition is_ans (id : nat) (x : obs) : bool := match x with OAns i _ => i =? id | _ => false end.
Definition is_wait (id : nat) (t : task) : bool := match t with TCall i true => i =? id | _ => false end.
Definition waiting (id : nat) (l : list task) : nat := length (filter (is_wait id) l).

Lemma waiting_app id a b : waiting id (a ++ b) = waiting id a + waiting id b.
Proof. unfold waiting. rewrite filter_app, app_length. reflexivity. Qed.

Lemma wait_step n e s s' o k : queues s -> step n e s = Some (s', o) ->
  waiting k (s_q s 0) + (if is_call k e then 1 else 0) = waiting k (s_q s' 0) + times (is_ans k) o.
Proof.
  intros Q H.
  assert (TM : times (is_ans k) (map OClose (pooled s) ++ [ORet]) = 0).
  { apply times_none. intros x K. apply in_app_or in K. destruct K as [K|[<-|[]]]; [|reflexivity]. apply in_map_iff in K. destruct K as (c & <- & _). reflexivity. }
  leaves e H; cbn [is_call]; try (rewrite TM); unfold upd;
    try (match goal with |- context [0 =? ?w] => is_var w; destruct (Nat.eqb_spec 0 w) as [<-|] end); cbn [Nat.eqb].
  all: try (match goal with E : s_q ?x 0 = _ |- _ => rewrite E end).
  all: try (match goal with E : s_q ?x (S ?i) = TCall ?a ?b :: _ |- _ =>
              assert (X : own (TCall a b) = true) by (apply (proj1 Q (S i)); [lia | rewrite E; left; reflexivity]); discriminate X end).
  all: rewrite ?waiting_app; unfold waiting, times; cbn;
    repeat match goal with |- context [if ?b then _ else _] => destruct b; cbn end; try lia.
Qed.

(** Every caller who waits is answered, once: when the dispatcher has executed what was waiting, there are as many answers
    as calls.  After a fatal error the answer is an exception (C142_over). *)
Theorem C142_answered n es s o : run n es init = Some (s, o) ->
  forall id, length (filter (is_call id) es) = waiting id (s_q s 0) + times (is_ans id) o.
Proof.
  revert s o. induction es as [|e es IH] using rev_ind; intros s o R id.
  - injection R as <- <-. reflexivity.
  - destruct (run_app _ _ _ _ _ _ R) as (s1 & o1 & o2 & A & B & ->). cbn [run] in B.
    destruct (step n e s1) as [[sa oa]|] eqn:S; [|discriminate]. injection B as <- <-.
    rewrite filter_app, app_length, (IH _ _ A id), app_nil_r, times_app. cbn [filter].
    pose proof (wait_step _ _ _ _ _ id (queues_run _ _ _ _ A) S) as W. destruct (is_call id e); cbn [length]; lia.
Qed.
Print Assumptions C142_answered.

(** ** Threads *)

(** Steps other than those of stop(). *)
Definition calm (e : ev) : bool := match e with EGo | EStop | EExit => false | _ => true end.

Lemma calm_step n e s s' o : queues s -> calm e = true -> step n e s = Some (s', o) ->
  s_pc s' = s_pc s /\ s_off s' = s_off s /\ s_exit s' = s_exit s /\ s_thr s' 0 = s_thr s 0 /\
  (forall i, s_thr s' i = s_thr s i \/ s_thr s i = Run /\ s_thr s' i = Over) /\
  (forall i, 1 <= i -> s_thr s' i = Run -> In TStop (s_q s i) -> In TStop (s_q s' i)).
Proof.
  intros Q C H.
  assert (B0 : forall q, s_q s 0 = TStop :: q -> False) by (intros q E; apply (proj2 Q); rewrite E; left; reflexivity).
  leaves e H; try discriminate C; try (exfalso; eapply B0; first [eassumption | reflexivity]).
  all: (split; [reflexivity|]; split; [reflexivity|]; split; [reflexivity|]).
  all: try (split; [reflexivity|]; split; [intros j; left; reflexivity|]; intros j L TR K; unfold upd in *; cbn [Nat.eqb] in *;
    repeat match goal with |- context [?a =? ?b] => destruct (Nat.eqb_spec a b) as [EQ|]; [first [lia | subst]|] end;
    try exact K; try (apply in_or_app; left; exact K);
    try (match goal with E : s_q ?x ?i = ?t :: _, K : In TStop (s_q ?x ?i) |- _ => rewrite E in K; destruct K as [K|K]; [discriminate K | exact K] end);
    fail).
  - (* a worker is told to stop *)
    split; [reflexivity|]. split.
    + intros j. unfold upd. destruct (Nat.eqb_spec j (S n0)) as [->|]; [right | left; reflexivity].
      match goal with X : _ && _ = true |- _ => apply andb_true_iff in X; destruct X as [X _] end. unfold runs in *. destruct (s_thr s (S n0)); [auto | discriminate | discriminate].
    + intros j L TR K. unfold upd in *. destruct (Nat.eqb_spec j (S n0)) as [->|]; [discriminate TR | exact K].
  - split; [reflexivity|]. split; [intros j; left; reflexivity|]. intros j L TR K. destruct ((1 <=? j) && (j <? n)); [apply in_or_app; left|]; exact K.
Qed.

Record good (n : nat) (s : st) : Prop := mkGood {
  g_pc : match s_pc s with
         | None => if s_off s then forall i, i < n -> s_thr s i = Joined
                   else s_exit s = false /\ s_thr s 0 = Run /\ forall i, i < n -> s_thr s i <> Joined
         | Some (Tell 0) => s_exit s = false /\ s_thr s 0 = Run /\ forall i, i < n -> s_thr s i <> Joined
         | Some (Join 0) => (s_exit s = true /\ s_thr s 0 = Run \/ s_thr s 0 = Over) /\ forall i, i < n -> s_thr s i <> Joined
         | Some (Tell (S j)) => S j < n /\ s_thr s 0 = Joined /\ (forall i, 1 <= i < n -> s_thr s i <> Joined) /\
                                forall i, 1 <= i < S j -> s_thr s i = Run -> In TStop (s_q s i)
         | Some (Join (S j)) => S j < n /\ (forall i, i < S j -> s_thr s i = Joined) /\
                                forall i, S j <= i < n -> s_thr s i <> Joined /\ (s_thr s i = Run -> In TStop (s_q s i))
         | Some Tear => forall i, i < n -> s_thr s i = Joined
         end;
  g_off : s_pc s <> None -> s_off s = true }.

Lemma good_init n : good n init.
Proof. constructor; cbn; [|contradiction]. repeat split. intros i _. discriminate. Qed.

Lemma good_step n e s s' o : 1 <= n -> queues s -> good n s -> step n e s = Some (s', o) -> good n s'.
Proof.
  intros N Q [P O] H. destruct (calm e) eqn:C.
  - destruct (calm_step _ _ _ _ _ Q C H) as (E1 & E2 & E3 & E4 & T & K).
    assert (J : forall i, s_thr s i = Joined -> s_thr s' i = Joined) by (intros i X; destruct (T i) as [Y|[Y _]]; congruence).
    assert (NJ : forall i, s_thr s i <> Joined -> s_thr s' i <> Joined) by (intros i X; destruct (T i) as [Y|[_ Y]]; congruence).
    assert (RR : forall i, s_thr s' i = Run -> s_thr s i = Run) by (intros i X; destruct (T i) as [Y|[Y _]]; congruence).
    constructor; rewrite ?E1, ?E2, ?E3, ?E4; [|exact O].
    destruct (s_pc s) as [[[|j]|[|j]|]|].
    + destruct P as (P1 & P2 & P3). repeat split; auto.
    + destruct P as (P1 & P2 & P3 & P4). repeat split; auto. intros i L X. apply K; [lia | exact X|]. apply P4; auto.
    + destruct P as (P1 & P2). split; auto.
    + destruct P as (P1 & P2 & P3). split; [exact P1|]. split; [intros i L; apply J; auto|]. intros i L. destruct (P3 i L) as [X Y].
      split; [exact (NJ i X)|]. intros Z. apply K; [lia | exact Z|]. apply Y, RR, Z.
    + intros i L. apply J, P, L.
    + destruct (s_off s); [intros i L; apply J, P, L|]. destruct P as (P1 & P2 & P3). repeat split; auto.
  - destruct e; try discriminate C; cbn [step] in H.
    + (* EStop *)
      destruct (s_pc s) eqn:PC; [discriminate|]. destruct (s_off s) eqn:OF; injection H as <- <-.
      * constructor; rewrite ?PC, ?OF; auto.
      * constructor; flds; auto.
    + (* EGo *)
      unfold go in H. destruct (s_pc s) as [[[|j]|[|j]|]|] eqn:PC; [| | | | |discriminate].
      * injection H as <- <-. destruct P as (P1 & P2 & P3). constructor; flds; auto.
      * injection H as <- <-. destruct P as (P1 & P2 & P3 & P4). constructor; flds; auto.
        assert (A : forall i, 1 <= i < n -> i <= S j -> s_thr s i = Run -> In TStop (upd (s_q s) (S j) (s_q s (S j) ++ [TStop]) i)).
        { intros i L L2 X. unfold upd. destruct (Nat.eqb_spec i (S j)) as [->|]; [apply in_or_app; right; left; reflexivity | apply P4; [lia | exact X]]. }
        destruct (Nat.ltb_spec (S (S j)) n) as [L|L].
        -- repeat split; auto. intros i L2 X. apply A; [lia | lia | exact X].
        -- split; [lia|]. split; [intros i L2; replace i with 0 by lia; exact P2|]. intros i L2. split; [apply P3; lia|].
           intros X. apply A; [lia | lia | exact X].
      * destruct (s_thr s 0) eqn:T0; try discriminate H. injection H as <- <-. destruct P as (P1 & P2). constructor; flds; auto.
        destruct (Nat.ltb_spec 1 n) as [L|L].
        -- split; [exact L|]. split; [reflexivity|]. split; [|intros i X; lia]. intros i X. unfold upd. destruct (Nat.eqb_spec i 0); [lia | apply P2; lia].
        -- intros i X. replace i with 0 by lia. reflexivity.
      * destruct (s_thr s (S j)) eqn:TJ; try discriminate H. injection H as <- <-. destruct P as (P1 & P2 & P3). constructor; flds; auto.
        destruct (Nat.ltb_spec (S (S j)) n) as [L|L].
        -- split; [exact L|]. split.
           ++ intros i X. unfold upd. destruct (Nat.eqb_spec i (S j)); [reflexivity | apply P2; lia].
           ++ intros i X. unfold upd. destruct (Nat.eqb_spec i (S j)); [lia | apply P3; lia].
        -- intros i X. unfold upd. destruct (Nat.eqb_spec i (S j)); [reflexivity | apply P2; lia].
      * injection H as <- <-. constructor; flds; auto.
    + (* EExit *)
      destruct (s_exit s) eqn:EX; [|discriminate]. unfold runs in H. destruct (s_thr s 0) eqn:T0; try discriminate H. injection H as <- <-.
      constructor; flds; [|exact O].
      destruct (s_pc s) as [[[|j]|[|j]|]|].
      * destruct P as (P1 & _). discriminate.
      * destruct P as (_ & P2 & _). congruence.
      * destruct P as (P1 & P2). split; [right; reflexivity|]. intros i L. unfold upd. destruct (Nat.eqb_spec i 0); [discriminate | apply P2, L].
      * destruct P as (_ & P2 & _). rewrite P2 in T0; [discriminate | lia].
      * rewrite P in T0; [discriminate | lia].
      * destruct (s_off s); [rewrite P in T0; [discriminate | lia]|]. destruct P as (P1 & _). discriminate.
Qed.

Lemma good_run n es s o : 1 <= n -> run n es init = Some (s, o) -> good n s /\ queues s.
Proof.
  intros N. revert es s o. apply (run_ind n (fun s _ => good n s /\ queues s)).
  - split; [exact (good_init n)|]. split; [intros i t _ [] | intros []].
  - intros e s o s' o' [G Q] S. split; [exact (good_step _ _ _ _ _ N Q G S) | exact (queues_step _ _ _ _ _ Q S)].
Qed.

(** ** Workers end *)

(** Tasks of a worker up to the first that ends it. *)
Fixpoint ahead (l : list task) : nat := match l with [] => 0 | TStop :: _ => 1 | _ :: l => S (ahead l) end.
Definition of_worker (i : nat) (e : ev) : bool := match e with EWork j _ => j =? i | _ => false end.

Lemma ahead_app l m : In TStop l -> ahead (l ++ m) = ahead l.
Proof.
  induction l as [|t l IH]; intros H; [destruct H|]. destruct t; cbn; try reflexivity; f_equal; apply IH;
    destruct H as [H|H]; try discriminate H; exact H.
Qed.
Lemma ahead_le l : ahead l <= length l.
Proof. induction l as [|t l IH]; [cbn; lia|]. destruct t; cbn; lia. Qed.

Lemma other_q n e s s' o i : 1 <= i -> queues s -> of_worker i e = false -> step n e s = Some (s', o) -> exists m, s_q s' i = s_q s i ++ m.
Proof.
  intros L Q W H.
  assert (SM : forall l : list task, exists m, l = l ++ m) by (intros l; exists []; symmetry; apply app_nil_r).
  leaves e H; cbn [of_worker] in W.
  all: unfold upd; cbn [Nat.eqb];
    repeat match goal with |- context [?a =? ?b] => destruct (Nat.eqb_spec a b) as [EQ|]; [try (exfalso; lia); try subst a|] end;
    try rewrite Nat.eqb_refl in W; try discriminate W; try apply SM; try (eexists; reflexivity).
  destruct ((1 <=? i) && (i <? n)); [eexists; reflexivity | apply SM].
Qed.

Lemma thr_dead n e s s' o i : queues s -> step n e s = Some (s', o) -> s_thr s i <> Run -> s_thr s' i <> Run.
Proof.
  intros Q H R. destruct (calm e) eqn:C.
  - destruct (calm_step _ _ _ _ _ Q C H) as (_ & _ & _ & _ & T & _). destruct (T i) as [E|[E _]]; congruence.
  - destruct e; try discriminate C; cbn [step] in H; unfold go in H; cases H; injection H as <- <-; flds; try exact R;
      unfold upd; match goal with |- context [i =? ?b] => destruct (i =? b); [discriminate | exact R] end.
Qed.

Lemma worker_step n e s s' o i : 1 <= i -> queues s -> step n e s = Some (s', o) -> In TStop (s_q s i) ->
  s_thr s' i <> Run \/ In TStop (s_q s' i) /\ ahead (s_q s' i) + (if of_worker i e then 1 else 0) = ahead (s_q s i).
Proof.
  intros L Q H K. destruct (of_worker i e) eqn:W.
  - destruct e; try discriminate W. cbn [of_worker] in W. apply Nat.eqb_eq in W. subst i0.
    destruct i as [|i]; [lia|]. cbn [step] in H. destruct (s_q s (S i)) as [|t q] eqn:E; [destruct K|].
    destruct (runs s (S i) && (S i <? n)); [|discriminate].
    assert (OW : own t = true) by (apply (proj1 Q (S i)); [lia | rewrite E; left; reflexivity]).
    destruct t; try discriminate OW.
    + right. assert (K2 : In TStop q) by (destruct K as [K|K]; [discriminate K | exact K]).
      unfold exec in H. cases H; injection H as <- <-; flds; unfold upd; cbn [Nat.eqb]; rewrite Nat.eqb_refl; split; auto; cbn; lia.
    + left. cbn in H. injection H as <- <-. flds. unfold upd. rewrite Nat.eqb_refl. discriminate.
  - right. destruct (other_q _ _ _ _ _ _ L Q W H) as (m & ->). split; [apply in_or_app; left; exact K|]. rewrite ahead_app; [lia | exact K].
Qed.

Lemma worker_run n i es : 1 <= i -> forall s s2 o, queues s -> run n es s = Some (s2, o) -> (s_thr s i = Run -> In TStop (s_q s i)) ->
  ahead (s_q s i) <= length (filter (of_worker i) es) -> s_thr s2 i <> Run.
Proof.
  intros L. induction es as [|e es IH]; intros s s2 o Q R K A; cbn [run] in R.
  - injection R as <- <-. cbn in A. intros X. specialize (K X). destruct (s_q s i) as [|[| | | | |] q]; cbn in *; try lia.
  - destruct (step n e s) as [[s1 o1]|] eqn:S; [|discriminate]. destruct (run n es s1) as [[s3 o3]|] eqn:R2; [|discriminate]. injection R as <- <-.
    pose proof (queues_step _ _ _ _ _ Q S) as Q1.
    assert (D : s_thr s1 i <> Run -> s_thr s3 i <> Run).
    { clear - Q1 R2. revert s1 s3 o3 Q1 R2. induction es as [|f es IH]; intros s1 s3 o3 Q1 R2 X; cbn [run] in R2.
      - injection R2 as <- <-. exact X.
      - destruct (step n f s1) as [[sa oa]|] eqn:S; [|discriminate]. destruct (run n es sa) as [[sb ob]|] eqn:R3; [|discriminate]. injection R2 as <- <-.
        exact (IH _ _ _ (queues_step _ _ _ _ _ Q1 S) R3 (thr_dead _ _ _ _ _ _ Q1 S X)). }
    destruct (s_thr s i) eqn:T; try (apply D, (thr_dead _ _ _ _ _ _ Q S); rewrite T; discriminate).
    destruct (worker_step _ _ _ _ _ i L Q S (K eq_refl)) as [X|[X Y]]; [exact (D X)|].
    apply (IH _ _ _ Q1 R2); [intros _; exact X|]. cbn [filter] in A. destruct (of_worker i e); cbn [length] in A; lia.
Qed.

Lemma tell_only n e s s' o : step n e s = Some (s', o) -> told o -> e = EUser.
Proof.
  intros H (f & K). leaves e H; try reflexivity; exfalso; cbn in K;
    repeat (destruct K as [K|K]; try discriminate K); try contradiction; exact (proj2 (close_only _) f K).
Qed.

Lemma told_workers n es s o : run n es init = Some (s, o) ->
  (told o -> forall i, 1 <= i < n -> s_thr s i = Run -> In TStop (s_q s i)) /\ queues s.
Proof.
  revert es s o. apply (run_ind n (fun s o => (told o -> forall i, 1 <= i < n -> s_thr s i = Run -> In TStop (s_q s i)) /\ queues s)).
  - split; [intros (e & [])|]. split; [intros i t _ [] | intros []].
  - intros e s o s' o' [T Q] S. split; [|exact (queues_step _ _ _ _ _ Q S)].
    rewrite told_app. intros [C|C] i L R.
    + assert (R0 : s_thr s i = Run) by (destruct (s_thr s i) eqn:X; [reflexivity| |]; elim (thr_dead _ _ _ _ _ i Q S); congruence).
      destruct (worker_step _ _ _ _ _ i (proj1 L) Q S (T C i L R0)) as [X|[X _]]; [contradiction | exact X].
    + rewrite (tell_only _ _ _ _ _ S C) in S. cbn [step] in S. destruct (s_uq s); [discriminate|]. injection S as <- <-.
      flds. replace ((1 <=? i) && (i <? n)) with true; [apply in_or_app; right; left; reflexivity|].
      symmetry. apply andb_true_iff. split; [apply Nat.leb_le | apply Nat.ltb_lt]; lia.
Qed.

(** Once the handler was called, each worker's thread ends: it is over when it has executed the tasks that were
    waiting, whatever else happens. *)
Theorem C142_workers_end n es1 es2 s1 o1 s2 o2 i : run n es1 init = Some (s1, o1) -> run n es2 s1 = Some (s2, o2) -> told o1 -> 1 <= i < n ->
  (s_thr s1 i = Run -> s_q s1 i <> []) /\
  (length (s_q s1 i) <= length (filter (of_worker i) es2) -> s_thr s2 i <> Run).
Proof.
  intros R1 R2 T L. destruct (told_workers _ _ _ _ R1) as [K Q]. split.
  - intros X E. specialize (K T i L X). rewrite E in K. destruct K.
  - intros A. apply (worker_run n i es2 (proj1 L) s1 s2 o2 Q R2 (K T i L)). pose proof (ahead_le (s_q s1 i)). lia.
Qed.
Print Assumptions C142_workers_end.

(** ** Connections *)

Definition opened1 (x : phase) : nat := match x with Fresh => 0 | _ => 1 end.
Definition closed1 (x : phase) : nat := match x with Closed => 1 | _ => 0 end.
Definition fresh (s : st) : Prop := forall c, s_conn s c = Fresh <-> s_max s <= c.

Lemma times_map c l : NoDup l -> times (is_close c) (map OClose l ++ [ORet]) = if existsb (Nat.eqb c) l then 1 else 0.
Proof.
  intros ND. rewrite times_app. replace (times (is_close c) [ORet]) with 0 by reflexivity. rewrite Nat.add_0_r.
  induction ND as [|x l NI ND IH]; [reflexivity|]. unfold times in *. cbn [map filter is_close existsb].
  rewrite (Nat.eqb_sym c x). destruct (Nat.eqb_spec x c) as [->|]; cbn [orb length]; [|exact IH]. rewrite IH.
  destruct (existsb (Nat.eqb c) l) eqn:E; [|reflexivity]. apply existsb_exists in E. destruct E as (y & E1 & E2). apply Nat.eqb_eq in E2. subst. contradiction.
Qed.

Lemma pooled_in s c : fresh s -> existsb (Nat.eqb c) (pooled s) = in_pool (s_conn s c).
Proof.
  intros F. unfold pooled. destruct (in_pool (s_conn s c)) eqn:I.
  - apply existsb_exists. exists c. split; [|apply Nat.eqb_refl]. apply filter_In. split; [|exact I]. apply in_seq.
    destruct (le_lt_dec (s_max s) c) as [L|L]; [|lia]. apply F in L. rewrite L in I. discriminate.
  - destruct (existsb _ _) eqn:E; [|reflexivity]. apply existsb_exists in E. destruct E as (y & E1 & E2). apply Nat.eqb_eq in E2. subst y.
    apply filter_In in E1. destruct E1 as [_ E1]. congruence.
Qed.

Lemma conn_step n e s s' o : fresh s -> step n e s = Some (s', o) ->
  fresh s' /\ forall c, times (is_open c) o + opened1 (s_conn s c) = opened1 (s_conn s' c) /\
                        times (is_close c) o + closed1 (s_conn s c) = closed1 (s_conn s' c).
Proof.
  intros F H.
  assert (SM : forall s', s_conn s' = s_conn s -> s_max s' = s_max s -> fresh s') by (intros x E1 E2 c; rewrite E1, E2; apply F).
  assert (U : forall c x s', s_conn s c <> Fresh -> x <> Fresh -> s_conn s' = upd (s_conn s) c x -> s_max s' = s_max s -> fresh s').
  { intros c x s1 A B E1 E2 d. rewrite E1, E2. unfold upd. destruct (Nat.eqb_spec d c) as [->|]; [|apply F].
    split; [contradiction|]. intros L. apply F in L. contradiction. }
  assert (G : forall x s', x <> Fresh -> s_conn s' = upd (s_conn s) (s_max s) x -> s_max s' = S (s_max s) -> fresh s').
  { intros x s1 A E1 E2 d. rewrite E1, E2. unfold upd. destruct (Nat.eqb_spec d (s_max s)) as [->|].
    - split; [contradiction | lia].
    - rewrite (F d). lia. }
  assert (FM : s_conn s (s_max s) = Fresh) by (apply F; lia).
  leaves e H.
  all: try (split; [apply SM; reflexivity|]; intros x; split; reflexivity).
  all: try (split;
    [first [eapply U; [| |reflexivity|reflexivity]; [congruence | discriminate] | eapply G; [|reflexivity|reflexivity]; discriminate]|];
    intros x; unfold upd, times; cbn [filter is_open is_close];
    repeat match goal with |- context [?a =? ?b] => destruct (Nat.eqb_spec a b) as [EQ|]; [try subst a | ] end;
    try congruence; try (exfalso; congruence);
    repeat match goal with E : s_conn _ _ = _ |- _ => rewrite E end; cbn; auto; fail).
  1, 2: split; [eapply G; [|reflexivity|reflexivity]; discriminate|]; intros x; unfold upd, times; cbn [filter is_open is_close];
    rewrite (Nat.eqb_sym (s_max s) x); (destruct (Nat.eqb_spec x (s_max s)) as [->|]; [rewrite FM|]; split; reflexivity).
  - (* the end of stop() *)
    split.
    + intros c. flds. rewrite <- (F c). destruct (s_conn s c); cbn; split; congruence.
    + intros c. split.
      * replace (times (is_open c) _) with 0; [destruct (s_conn s c); reflexivity|]. symmetry. apply times_none. intros x K.
        apply in_app_or in K. destruct K as [K|[<-|[]]]; [|reflexivity]. apply in_map_iff in K. destruct K as (d & <- & _). reflexivity.
      * rewrite times_map, (pooled_in s c F) by (apply NoDup_filter, seq_NoDup). destruct (s_conn s c); reflexivity.
Qed.

Lemma conn_run n es s o : 1 <= n -> run n es init = Some (s, o) ->
  fresh s /\ (forall c, times (is_open c) o = opened1 (s_conn s c) /\ times (is_close c) o = closed1 (s_conn s c)) /\
  (s_off s = true -> s_pc s = None -> forall c, in_pool (s_conn s c) = false) /\ good n s /\ queues s.
Proof.
  intros N. revert es s o. apply (run_ind n (fun s o => fresh s /\ (forall c, times (is_open c) o = opened1 (s_conn s c) /\ times (is_close c) o = closed1 (s_conn s c)) /\
    (s_off s = true -> s_pc s = None -> forall c, in_pool (s_conn s c) = false) /\ good n s /\ queues s)).
  - split; [intros c; cbn; split; [lia | reflexivity]|]. split; [split; reflexivity|]. split; [discriminate|]. split; [exact (good_init n)|].
    split; [intros i t _ [] | intros []].
  - intros e s o s' o' (F & CN & D & G & Q) S. destruct (conn_step _ _ _ _ _ F S) as [F' CN'].
    split; [exact F'|]. split; [|split; [|split; [exact (good_step _ _ _ _ _ N Q G S) | exact (queues_step _ _ _ _ _ Q S)]]].
    + intros c. rewrite !times_app. destruct (CN c) as [-> ->]. specialize (CN' c). lia.
    + intros OF PC.
      destruct (s_pc s) as [p|] eqn:PP.
      * (* the last step of stop() *)
        destruct (calm e) eqn:CA; [destruct (calm_step _ _ _ _ _ Q CA S) as (X & _); congruence|].
        destruct e; try discriminate CA; cbn [step] in S; unfold go in S; rewrite ?PP in S; cases S; try discriminate S; injection S as <- <-; flds; try discriminate PC; try congruence.
        intros c. destruct (in_pool (s_conn s c)) eqn:I; [reflexivity | exact I].
      * destruct (s_off s) eqn:OO.
        -- (* nothing moves *)
           pose proof (g_pc _ _ G) as J. rewrite PP, OO in J. specialize (D eq_refl eq_refl).
           assert (R0 : forall i, i < n -> runs s i = false) by (intros i L; unfold runs; rewrite (J i L); reflexivity).
           assert (X : s_conn s' = s_conn s); [|rewrite X; exact D].
           destruct e; cbn [step] in S; try rewrite (R0 0 N) in S; unfold go, exec in S; rewrite ?PP, ?OO in S;
             cases S; try discriminate S; try (injection S as <- <-); try reflexivity; exfalso;
             try (match goal with E : runs _ _ && (?i <? n) = true |- _ => apply andb_true_iff in E; destruct E as [E1 E2]; apply Nat.ltb_lt in E2; rewrite (R0 _ E2) in E1; discriminate E1 end).
           all: try discriminate.
           all: match goal with E : s_conn ?x ?c = _ |- _ => specialize (D c); rewrite E in D; discriminate D end.
        -- exfalso. destruct (calm e) eqn:CA; [destruct (calm_step _ _ _ _ _ Q CA S) as (_ & X & _); congruence|].
           destruct e; try discriminate CA; cbn [step] in S; unfold go in S; rewrite ?PP, ?OO in S; cases S; try discriminate S; injection S as <- <-; flds; congruence.
Qed.

(** When stop() has returned, before or after a fatal error, no thread is left, every connection that was opened has
    been closed, once, and the network does nothing any more. *)
Theorem C142_nothing_left n es s o : 1 <= n -> run n es init = Some (s, o) -> s_off s = true -> s_pc s = None ->
  (forall i, i < n -> s_thr s i = Joined) /\
  (forall c, times (is_close c) o = times (is_open c) o /\ times (is_open c) o <= 1) /\
  (forall e, step n e s <> None -> match e with ECall _ _ | EUser | EStop => True | _ => False end).
Proof.
  intros N R OF PC. destruct (conn_run _ _ _ _ N R) as (F & CN & D & G & Q). specialize (D OF PC).
  pose proof (g_pc _ _ G) as J. rewrite PC, OF in J. split; [exact J|]. split.
  - intros c. destruct (CN c) as [-> ->]. specialize (D c). destruct (s_conn s c); try discriminate D; cbn; lia.
  - assert (R0 : forall i, i < n -> runs s i = false) by (intros i L; unfold runs; rewrite (J i L); reflexivity).
    intros e H. destruct e; try exact I; apply H; cbn [step]; try rewrite (R0 0 N); unfold go; rewrite ?PC; try reflexivity.
    + destruct (s_q s 0); reflexivity.
    + destruct i; [reflexivity|]. destruct (s_q s (S i)); [reflexivity|].
      destruct (Nat.ltb_spec (S i) n) as [L|L]; [rewrite (R0 _ L); reflexivity | rewrite andb_false_r; reflexivity].
    + destruct (s_conn s c); reflexivity.
    + destruct (s_conn s c); reflexivity.
    + specialize (D c). destruct (s_conn s c); try reflexivity; discriminate D.
    + rewrite andb_false_r. reflexivity.
Qed.
Print Assumptions C142_nothing_left.

(** ** stop() returns *)

Definition cost (n : nat) (p : option pos) : nat :=
  match p with
  | None => 0
  | Some Tear => 1
  | Some (Join 0) => 2 * n
  | Some (Join i) => 1 + (n - i)
  | Some (Tell 0) => 2 * n + 1
  | Some (Tell i) => n + (n - i)
  end.
Definition is_go (e : ev) : bool := match e with EGo => true | _ => false end.

Lemma cost_step n e s s' o : 1 <= n -> good n s -> queues s -> s_off s = true -> step n e s = Some (s', o) ->
  s_off s' = true /\ cost n (s_pc s') + (if is_go e then 1 else 0) <= cost n (s_pc s).
Proof.
  intros N G Q OF H. destruct (calm e) eqn:C.
  - destruct (calm_step _ _ _ _ _ Q C H) as (E1 & E2 & _). rewrite E1, E2. split; [exact OF|]. destruct e; try discriminate C; cbn [is_go]; lia.
  - destruct e; try discriminate C; cbn [step is_go] in *.
    + rewrite OF in H. destruct (s_pc s) eqn:PC; [discriminate|]. injection H as <- <-. rewrite PC. split; [exact OF | cbn; lia].
    + pose proof (g_pc _ _ G) as P. unfold go in H. destruct (s_pc s) as [[[|j]|[|j]|]|]; try discriminate H.
      * injection H as <- <-. flds. cbn [cost]. split; [reflexivity | lia].
      * injection H as <- <-. flds. split; [reflexivity|]. destruct (Nat.ltb_spec (S (S j)) n); cbn [cost]; lia.
      * destruct (s_thr s 0); try discriminate H. injection H as <- <-. flds. split; [reflexivity|]. destruct (Nat.ltb_spec 1 n); cbn [cost]; lia.
      * destruct (s_thr s (S j)); try discriminate H. injection H as <- <-. flds. split; [reflexivity|]. destruct P as [L _].
        destruct (Nat.ltb_spec (S (S j)) n); cbn [cost]; lia.
      * injection H as <- <-. flds. cbn [cost]. split; [reflexivity | lia].
    + destruct (s_exit s && runs s 0); [|discriminate]. injection H as <- <-. flds. split; [exact OF | lia].
Qed.

Lemma cost_run n es : 1 <= n -> forall s s2 o, good n s -> queues s -> s_off s = true -> run n es s = Some (s2, o) ->
  length (filter is_go es) + cost n (s_pc s2) <= cost n (s_pc s).
Proof.
  intros N. induction es as [|e es IH]; intros s s2 o G Q OF R; cbn [run] in R.
  - injection R as <- <-. cbn. lia.
  - destruct (step n e s) as [[s1 o1]|] eqn:S; [|discriminate]. destruct (run n es s1) as [[s3 o3]|] eqn:R2; [|discriminate]. injection R as <- <-.
    destruct (cost_step _ _ _ _ _ N G Q OF S) as [OF1 C].
    specialize (IH _ _ _ (good_step _ _ _ _ _ N Q G S) (queues_step _ _ _ _ _ Q S) OF1 R2).
    cbn [filter]. destruct (is_go e); cbn [length]; lia.
Qed.

Lemma worker_ends n i : 1 <= i < n -> forall k s, queues s -> ahead (s_q s i) = k -> s_thr s i = Run -> In TStop (s_q s i) ->
  exists s' o', run n (repeat (EWork i None) k) s = Some (s', o') /\ s_thr s' i = Over /\ s_pc s' = s_pc s.
Proof.
  intros L. induction k as [|k IH]; intros s Q A T K.
  - destruct (s_q s i) as [|[| | | | |] q]; cbn in *; try lia.
  - destruct i as [|i]; [lia|]. destruct (s_q s (S i)) as [|t q] eqn:E; [destruct K|].
    assert (SS : step n (EWork (S i) None) s = Some (exec (S i) None t (set_q (upd (s_q s) (S i) q) s))).
    { cbn [step]. rewrite E. unfold runs. rewrite T. replace (S i <? n) with true by (symmetry; apply Nat.ltb_lt; lia). reflexivity. }
    assert (OW : own t = true) by (apply (proj1 Q (S i)); [lia | rewrite E; left; reflexivity]).
    destruct t; try discriminate OW.
    + assert (K2 : In TStop q) by (destruct K as [K|K]; [discriminate K | exact K]).
      destruct (exec (S i) None (TFeed c) (set_q (upd (s_q s) (S i) q) s)) as [s1 o1] eqn:X.
      assert (Y : s_q s1 (S i) = q /\ s_thr s1 = s_thr s /\ s_pc s1 = s_pc s).
      { unfold exec in X. flds. destruct (s_conn s c); injection X as <- <-; flds; unfold upd; cbn [Nat.eqb]; rewrite Nat.eqb_refl; auto. }
      destruct Y as (Y1 & Y2 & Y3).
      destruct (IH s1) as (s' & o' & R & R1 & R2).
      * exact (queues_step _ _ _ _ _ Q SS).
      * rewrite Y1. cbn in A. lia.
      * rewrite Y2. exact T.
      * rewrite Y1. exact K2.
      * exists s', (o1 ++ o'). cbn [repeat run]. rewrite SS, R. split; [reflexivity|]. split; [exact R1 | congruence].
    + assert (k = 0) by (cbn in A; lia). subst k. cbn [repeat run]. rewrite SS. eexists. eexists. split; [reflexivity|]. flds. unfold upd.
      rewrite Nat.eqb_refl. auto.
Qed.

(** stop() returns, also after fatal errors: it makes at most [2 n + 1] steps ([n] threads), and where it waits for a
    thread, that thread ends: the dispatcher by its next step, a worker when it has executed its waiting tasks. *)
Theorem C142_stop_ends n es1 es2 s o : 1 <= n -> run n (es1 ++ EStop :: es2) init = Some (s, o) ->
  length (filter is_go es2) <= 2 * n + 1 /\
  (s_pc s <> None ->
     exists w s' o', run n w s = Some (s', o') /\ step n EGo s' <> None /\
       (w = [] \/ w = [EExit] \/ exists i, 1 <= i < n /\ w = repeat (EWork i None) (length w) /\ length w <= length (s_q s i))).
Proof.
  intros N R. split.
  - change (es1 ++ EStop :: es2) with (es1 ++ [EStop] ++ es2) in R. rewrite app_assoc in R.
    destruct (run_app _ _ _ _ _ _ R) as (s1 & o1 & o2 & A & B & _). destruct (good_run _ _ _ _ N A) as [G Q].
    assert (X : s_off s1 = true /\ cost n (s_pc s1) <= 2 * n + 1).
    { destruct (run_app _ _ _ _ _ _ A) as (s0 & o0 & o3 & _ & S & _). cbn [run] in S.
      destruct (step n EStop s0) as [[sa oa]|] eqn:S0; [|discriminate]. injection S as <- <-. cbn [step] in S0.
      destruct (s_pc s0) eqn:PC; [discriminate|]. destruct (s_off s0) eqn:OF; injection S0 as <- <-; flds; rewrite ?PC; split; auto; cbn; lia. }
    destruct X as [X1 X2]. pose proof (cost_run n es2 N s1 s o2 G Q X1 B). lia.
  - intros PC. destruct (good_run _ _ _ _ N R) as [G Q]. pose proof (g_pc _ _ G) as P.
    destruct (s_pc s) as [[[|j]|[|j]|]|] eqn:PP; [| | | | |contradiction].
    + exists [], s, []. split; [reflexivity|]. split; [|auto]. cbn. unfold go. rewrite PP. discriminate.
    + exists [], s, []. split; [reflexivity|]. split; [|auto]. cbn. unfold go. rewrite PP. discriminate.
    + destruct P as ([[P1 P2]|P1] & _).
      * exists [EExit]. eexists. eexists. cbn [run step]. unfold runs. rewrite P1, P2. cbn [andb]. split; [reflexivity|]. split; [|auto].
        unfold go. flds. rewrite PP. unfold upd. cbn. discriminate.
      * exists [], s, []. split; [reflexivity|]. split; [|auto]. cbn. unfold go. rewrite PP, P1. discriminate.
    + destruct P as (L & _ & P). destruct (P (S j)) as [P1 P2]; [lia|]. destruct (s_thr s (S j)) eqn:T.
      * destruct (worker_ends n (S j) ltac:(lia) _ s Q eq_refl T (P2 eq_refl)) as (s' & o' & R2 & T2 & PC2).
        exists (repeat (EWork (S j) None) (ahead (s_q s (S j)))), s', o'. split; [exact R2|]. split.
        -- cbn. unfold go. rewrite PC2, PP, T2. discriminate.
        -- right. right. exists (S j). rewrite repeat_length. split; [lia|]. split; [reflexivity | apply ahead_le].
      * exists [], s, []. split; [reflexivity|]. split; [|auto]. cbn. unfold go. rewrite PP, T. discriminate.
      * contradiction.
    + exists [], s, []. split; [reflexivity|]. split; [|auto]. cbn. unfold go. rewrite PP. discriminate.
Qed.
Print Assumptions C142_stop_ends.

(** ** What does not hold *)

(** After the report the dispatcher still accepts and dials; what it opened is neither set up nor closed while all
    queues are empty, and a connection that was lost is not closed either. *)
Definition still_open : list ev :=
  [EAccept 1; EWork 1 None; EDisp None; EEnd 0; ETimer (Some 5); EUser; EDisp None; EAccept 1; EDial; EWork 1 None].
Theorem C142_opens_refuted : exists es s o1 o2, run 2 es init = Some (s, o1 ++ OReport 5 :: o2) /\
  In (OOpen 1) o2 /\ In (OOpen 2) o2 /\ s_q s 0 = [] /\ s_uq s = [] /\ s_thr s 1 = Over /\
  times (is_close 0) (o1 ++ OReport 5 :: o2) = 0 /\ times (is_close 1) (o1 ++ OReport 5 :: o2) = 0.
Proof.
  exists still_open. eexists. exists [OOpen 0; OServe 0; OFatal 0 5], [OOpen 1; OOpen 2]. split; [vm_compute; reflexivity|]. vm_compute. auto 10.
Qed.
Print Assumptions C142_opens_refuted.
Theorem C142_closed_full_refuted : ~ C142_closed_full.
Proof.
  intros F. destruct C142_opens_refuted as (es & s & o1 & o2 & R & H & _). exact (F 2 es s o1 5 o2 ltac:(lia) R 1 H).
Qed.
Print Assumptions C142_closed_full_refuted.

(** The conditions are met: a worker fails, the handler is called, callers get exceptions, stop() returns. *)
Definition worker_fails : list ev :=
  [ECall 1 true; EDisp None; EAccept 1; EAccept 2; EWork 2 None; EDisp None; EWork 1 (Some 9); ECall 2 true; ECall 3 false; EDisp None; EDisp None; EDisp None;
   EUser; EWork 1 None; EAccept 1; EStop; EGo; EExit; EGo; EGo; EGo; EWork 2 None; EGo; EGo; EGo].
Example C142_nonvacuous : exists s o, run 3 worker_fails init = Some (s, o) /\ s_off s = true /\ s_pc s = None /\ failed o /\ told o /\
  In (ODone 1) o /\ In (OServe 1) o /\ In (OAns 2 false) o /\ times (is_open 2) o = 1 /\ s_q s 0 = [] /\ s_uq s = [].
Proof.
  eexists. eexists. split; [vm_compute; reflexivity|]. split; [reflexivity|]. split; [reflexivity|]. split; [exists 1, 9; cbn; tauto|].
  split; [exists 9; cbn; tauto|]. vm_compute. tauto.
Qed.

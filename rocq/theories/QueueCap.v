(** The MPSC queue: capacity (C34), draining (C37). *)
From Coq Require Import Arith List Bool Lia Permutation.
From Verif Require Import QueueModel FreeProps QueueSpec QueueProofs QueueProps QueueSeq.
Import ListNotations.

Section Cap.
Context {V : Type}.
Variable B : nat.
Hypothesis HB : 0 < B.
Notation prod := (prod V).
Notation cons := (cons V).
Notation qmem := (qmem V).
Notation sys := (sys V).

Lemma cstep_obs spur (c : cons) (m : qmem) c' m' o : cstep B spur c m = Some (c', m', o) ->
  o = [] \/ o = [OEmpty 0; ORetD 0 None] \/ (exists v, o = [ODeq 0 v]) \/ (exists v, o = [ORetD 0 (Some v)]) \/ exists v, o = [ORew v].
Proof.
  intros CS. destruct c as [f pc]. cbn [cstep] in CS.
  destruct f; try (match goal with X : match fstep ?s ?f ?g with _ => _ end = _ |- _ => destruct (fstep s f g) as [(f1, fl1)|]; [injection CS as <- <- <-; auto|discriminate] end);
  destruct pc; try discriminate; try match goal with r : option nat |- _ => destruct r end; repeat match type of CS with context [if ?b then _ else _] => destruct b | context [match ?b with Some _ => _ | None => _ end] => destruct b end;
  injection CS as <- <- <-; eauto 8.
Qed.

Lemma pstep_obs spur j (p : prod) (m : qmem) p' m' o : pstep B spur j p m = Some (p', m', o) -> o = [] \/ (exists v, o = [OEnq j v]) \/ exists b, o = [ORetE j b].
Proof.
  intros PS. destruct p as [f pc v unb]. cbn [pstep] in PS.
  destruct f; try (match goal with X : match fstep ?s ?f ?g with _ => _ end = _ |- _ => destruct (fstep s f g) as [(f1, fl1)|]; [injection PS as <- <- <-; auto|discriminate] end);
  destruct pc; try discriminate; repeat match goal with X : context [if ?b then _ else _] |- _ => destruct b | X : context [match ?b with Some _ => _ | None => _ end] |- _ => destruct b end; try (injection PS as <- <- <-; eauto).
Qed.

(** ** Calls with leave to allocate never fail *)
Definition leave (ev : qev V) : bool := match ev with QEnq _ _ unb => unb | _ => true end.
Definition nofail (p : prod) : Prop := (p_m p <> PReady -> p_unb p = true) /\ p_m p <> WFalse.

Lemma pstep_nofail spur i p m p' m' o : pstep B spur i p m = Some (p', m', o) -> nofail p -> nofail p' /\ forall j, ~ In (ORetE j false) o.
Proof.
  intros PS (N1 & N2). unfold nofail. destruct p as [f pc v unb]. cbn [p_m p_unb] in *. cbn [pstep] in PS.
  destruct f; try (match goal with X : match fstep ?s ?f ?g with _ => _ end = _ |- _ => destruct (fstep s f g) as [(f1, fl1)|]; [injection PS as <- <- <-; cbn; auto|discriminate] end);
  destruct pc; try discriminate; try (rewrite (N1 ltac:(discriminate)) in * );
  repeat match goal with X : context [if ?b then _ else _] |- _ => destruct b | X : context [match ?b with Some _ => _ | None => _ end] |- _ => destruct b end;
  injection PS as <- <- <-; cbn [p_m p_unb]; (split; [split; [intros X; auto; try (apply N1; discriminate); try contradiction|try discriminate; auto]|intros j X; cbn in X; try destruct X as [X|[]]; try congruence; try contradiction]).
Qed.

Lemma nofail_run evs : forall s s' o, qrun B evs s = Some (s', o) -> forallb leave evs = true -> (forall p, In p (s_ps s) -> nofail p) -> forall j, ~ In (ORetE j false) o.
Proof.
  induction evs as [|ev evs IH]; cbn [qrun forallb]; intros s s' o E LV NF j.
  - injection E as <- <-. cbn. auto.
  - apply andb_prop in LV as (LV1 & LV2). destruct (qstep B ev s) as [(s1 & o1)|] eqn:QS; [|discriminate]. destruct (qrun B evs s1) as [(s2 & o2)|] eqn:QR; [|discriminate]. injection E as <- <-.
    assert (K : (forall p, In p (s_ps s1) -> nofail p) /\ forall j, ~ In (ORetE j false) o1).
    { destruct s as [m ps c]. cbn [s_ps] in NF. destruct ev as [i v unb|i spur| |v|spur]; cbn [qstep] in QS.
      - destruct (nth_error ps i) as [[f pc v0 u0]|] eqn:N; [|discriminate]. destruct f; try discriminate. destruct pc; try discriminate. injection QS as <- <-. cbn [s_ps].
        destruct (pick i ps _ N) as (r & P1 & P2). split; [|intros j0 [X|[]]; discriminate]. intros p I. apply (Permutation_in _ (P2 _)) in I. destruct I as [<-|I].
        + cbn in *. subst unb. split; [auto|discriminate].
        + apply NF. apply (Permutation_in _ (Permutation_sym P1)). right. exact I.
      - destruct (nth_error ps i) as [p|] eqn:N; [|discriminate]. destruct (pstep B spur i p m) as [((p' & m') & o')|] eqn:PS; [|discriminate]. injection QS as <- <-. cbn [s_ps].
        destruct (pick i ps _ N) as (r & P1 & P2). destruct (pstep_nofail _ _ _ _ _ _ _ PS) as (K1 & K2); [apply NF, (nth_error_In _ _ N)|]. split; [|exact K2].
        intros q I. apply (Permutation_in _ (P2 _)) in I. destruct I as [<-|I]; [exact K1|]. apply NF. apply (Permutation_in _ (Permutation_sym P1)). right. exact I.
      - destruct c as [f pc]. destruct f; try discriminate. destruct pc; try discriminate. injection QS as <- <-. split; [exact NF|intros j0 []].
      - destruct c as [f pc]. destruct f; try discriminate. destruct pc; try discriminate. injection QS as <- <-. split; [exact NF|intros j0 []].
      - destruct (cstep B spur c m) as [((c' & m') & o')|] eqn:CS; [|discriminate]. injection QS as <- <-. split; [exact NF|]. intros j0 X.
        destruct (cstep_obs _ _ _ _ _ _ CS) as [->|[->|[(v & ->)|[(v & ->)|(v & ->)]]]]; cbn in X; repeat destruct X as [X|X]; try discriminate; contradiction. }
    destruct K as (K1 & K2). intros X. apply in_app_or in X. destruct X as [X|X]; [destruct (K2 _ X)|]. apply (IH _ _ _ QR LV2 K1 j X).
Qed.

(** ** A call fails only after having found the pool empty *)
Definition failing (p : prod) : Prop := p_m p = WFalse \/ exists t, p_m p = P6 t /\ p_f p = FRes None.

Lemma fstep_none spur f fl0 fl' : fstep spur f fl0 = Some (FRes None, fl') -> f_top fl0 = None.
Proof.
  intros E. destruct fl0 as [top nx rcf]. cbn [f_top]. destruct f; cbn [fstep] in E; try discriminate; try destruct k;
  repeat match type of E with context [if ?b then _ else _] => destruct b end; cbn [fin] in E; try discriminate; destruct top; [discriminate|reflexivity].
Qed.

Lemma pstep_failing spur i p m p' m' o : pstep B spur i p m = Some (p', m', o) -> failing p' -> (forall j v, ~ In (OCall j v) o) /\ (failing p \/ f_top (q_fl m) = None).
Proof.
  intros PS F. split. { intros j w X. destruct (pstep_obs _ _ _ _ _ _ _ PS) as [->|[(v & ->)|(b & ->)]]; cbn in X; [contradiction| |]; destruct X as [X|[]]; discriminate. }
  destruct p as [f pc v unb]. cbn [pstep] in PS. unfold failing in *. cbn [p_m p_f].
  assert (FL : forall f1 fl1, fstep spur f (q_fl m) = Some (f1, fl1) -> p_m p' = pc -> p_f p' = f1 -> (pc = WFalse \/ (exists t, pc = P6 t /\ f = FRes None)) \/ f_top (q_fl m) = None).
  { intros f1 fl1 FS X1 X2. rewrite X1, X2 in F. destruct F as [F|(t & F & ->)]; [auto|]. right. apply (fstep_none _ _ _ _ FS). }
  destruct f; try (match goal with X : match fstep ?s ?f ?g with _ => _ end = _ |- _ => destruct (fstep s f g) as [(f1, fl1)|] eqn:FS; [injection PS as <- <- <-; apply (FL f1 fl1); auto|discriminate] end);
  destruct pc; try discriminate; repeat match type of PS with context [if ?b then _ else _] => destruct b | context [match ?b with Some _ => _ | None => _ end] => destruct b end; injection PS as <- <- <-;
  cbn [p_m p_f] in F; destruct F as [F|(t0 & F & G)]; try discriminate F; try discriminate G; eauto.
Qed.

Lemma qrun_snoc evs ev (s s1 s2 : sys) o1 o2 : qrun B evs s = Some (s1, o1) -> qstep B ev s1 = Some (s2, o2) -> qrun B (evs ++ [ev]) s = Some (s2, o1 ++ o2).
Proof. intros E F. rewrite qrun_app, E. cbn [qrun]. rewrite F. rewrite app_nil_r. reflexivity. Qed.

Lemma failing_moment (s0 : sys) i : (forall p, nth_error (s_ps s0) i = Some p -> ~ failing p) -> forall e s o p, qrun B e s0 = Some (s, o) -> nth_error (s_ps s) i = Some p -> failing p ->
  exists ea eb sa oa ob, e = ea ++ eb /\ qrun B ea s0 = Some (sa, oa) /\ qrun B eb sa = Some (s, ob) /\ f_top (q_fl (s_m sa)) = None /\ forall v, ~ In (OCall i v) ob.
Proof.
  intros S0 e. induction e as [|ev e IH] using rev_ind; intros s o p E N F.
  - cbn in E. injection E as <- <-. destruct (S0 p N F).
  - rewrite qrun_app in E. destruct (qrun B e s0) as [(s1 & o1)|] eqn:E1; [|discriminate]. cbn [qrun] in E. destruct (qstep B ev s1) as [(s2 & o2)|] eqn:QS; [|discriminate]. injection E as <- <-.
    assert (K : exists p1, nth_error (s_ps s1) i = Some p1 /\ (forall v, ~ In (OCall i v) o2) /\ (failing p1 \/ f_top (q_fl (s_m s1)) = None)).
    { destruct s1 as [m ps c]. destruct ev as [j v unb|j spur| |v|spur]; cbn [qstep] in QS; cbn [s_ps s_m].
      - destruct (nth_error ps j) as [[f pc v0 u0]|] eqn:NJ; [|discriminate]. destruct f; try discriminate. destruct pc; try discriminate. injection QS as <- <-. cbn [s_ps] in N. rewrite nth_repl, NJ in N.
        destruct (Nat.eqb_spec i j) as [->|D]; [injection N as <-; destruct F as [F|(t & F & _)]; discriminate|]. exists p. split; [exact N|]. split; [intros w [X|[]]; congruence|auto].
      - destruct (nth_error ps j) as [q|] eqn:NJ; [|discriminate]. destruct (pstep B spur j q m) as [((p' & m') & o')|] eqn:PS; [|discriminate]. injection QS as <- <-. cbn [s_ps] in N. rewrite nth_repl, NJ in N.
        destruct (Nat.eqb_spec i j) as [->|D].
        + injection N as <-. destruct (pstep_failing _ _ _ _ _ _ _ PS F) as (K1 & K2). exists q. split; [exact NJ|]. split; [intros v; apply K1|exact K2].
        + exists p. split; [exact N|]. split; [|auto]. intros v X.
          pose proof (pstep_obs _ _ _ _ _ _ _ PS) as S.
          destruct S as [->|[(w & ->)|(b & ->)]]; [destruct X| |]; destruct X as [X|[]]; discriminate.
      - destruct c as [f pc]. destruct f; try discriminate. destruct pc; try discriminate. injection QS as <- <-. exists p. split; [exact N|]. split; [intros w []|auto].
      - destruct c as [f pc]. destruct f; try discriminate. destruct pc; try discriminate. injection QS as <- <-. exists p. split; [exact N|]. split; [intros w []|auto].
      - destruct (cstep B spur c m) as [((c' & m') & o')|] eqn:CS; [|discriminate]. injection QS as <- <-. exists p. split; [exact N|]. split; [|auto]. intros w X.
        destruct (cstep_obs _ _ _ _ _ _ CS) as [->|[->|[(v & ->)|[(v & ->)|(v & ->)]]]]; cbn in X; repeat destruct X as [X|X]; try discriminate; contradiction. }
    destruct K as (p1 & N1 & K1 & [K2|K2]).
    + destruct (IH s1 o1 p1 eq_refl N1 K2) as (ea & eb & sa & oa & ob & -> & A1 & A2 & A3 & A4). exists ea, (eb ++ [ev]), sa, oa, (ob ++ o2). rewrite app_assoc. split; [reflexivity|].
      split; [exact A1|]. split; [apply (qrun_snoc _ _ _ _ _ _ _ A2 QS)|]. split; [exact A3|]. intros v X. apply in_app_or in X. destruct X as [X|X]; [apply (A4 v X)|apply (K1 v X)].
    + exists e, [ev], s1, o1, o2. split; [reflexivity|]. split; [exact E1|]. split; [cbn [qrun]; rewrite QS, app_nil_r; reflexivity|]. split; [exact K2|exact K1].
Qed.

(** ** The pool does not grow *)

(** Rewind is called only after a try_dequeue that returned a value, and once
    per such call. *)
Definition took (fl : bool) (ev : qev V) (o : list (obs V)) : bool :=
  match ev with QRew _ | QDeq => false | _ => fl || existsb (fun x => match x with ORetD _ (Some _) => true | _ => false end) o end.
Fixpoint paired (fl : bool) (evs : list (qev V)) (s : sys) : Prop :=
  match evs with
  | [] => True
  | ev :: evs => (match ev with QRew _ => fl = true | _ => True end) /\ match qstep B ev s with Some (s', o) => paired (took fl ev o) evs s' | None => True end
  end.

Definition PI (fl : bool) (s : sys) : Prop :=
  (fl = true -> c_m (s_c s) = CReady /\ 0 < q_bh (s_m s) (q_hd (s_m s))) /\
  match c_m (s_c s) with W0 _ => 0 < q_bh (s_m s) (q_hd (s_m s)) | WP _ _ | W2a _ _ _ | W2b _ _ _ | W2c _ _ _ | W2d _ _ => False | _ => True end.

Lemma paired_step fl ev s s' o l : qstep B ev s = Some (s', o) -> SI B s l -> BI s -> bounded ev = true -> PI fl s -> (match ev with QRew _ => fl = true | _ => True end) ->
  PI (took fl ev o) s' /\ q_n (s_m s') = q_n (s_m s).
Proof.
  intros E (C & L & val & H & _) HBI BD (P1 & P2) PR. destruct s as [m ps c]. unfold PI in *. cbn [s_m s_ps s_c] in *. destruct ev as [i v unb|i spur| |v|spur]; cbn [qstep] in E.
  - destruct (nth_error ps i) as [[f pc v0 u0]|] eqn:N; [|discriminate]. destruct f; try discriminate. destruct pc; try discriminate. injection E as <- <-. cbn [s_ps s_m s_c took existsb orb].
    rewrite orb_false_r. auto.
  - destruct (nth_error ps i) as [p|] eqn:N; [|discriminate]. destruct (pstep B spur i p m) as [((p' & m') & o')|] eqn:PS; [|discriminate]. injection E as <- <-. cbn [s_ps s_m s_c].
    destruct (pick i ps _ N) as (r & PA & PB). pose proof (qi_perm B _ _ _ _ _ _ _ PA H) as H'. pose proof (place B HB _ _ _ _ _ _ H' (q_hd m)) as PL.
    pose proof (cnt_C1 B HB _ _ _ _ _ _ _ H (hd_in B _ _ _ _ _ _ H)) as C1. destruct (HBI p (nth_error_In _ _ N)) as (U & _).
    assert (K : q_hd m' = q_hd m /\ q_bh m' (q_hd m) = q_bh m (q_hd m) /\ q_n m' = q_n m /\ existsb (fun x => match x with ORetD _ (Some _) => true | _ => false end) o' = false).
    { destruct p as [f pc v unb]. cbn [p_unb] in U. subst unb. cbn [pstep] in PS. cbn [wsum] in PL. unfold ownp in PL at 1. cbn [p_m] in PL. rewrite C1 in PL.
      destruct f; try (match goal with X : match fstep ?s ?f ?g with _ => _ end = _ |- _ => destruct (fstep s f g) as [(f1, fl1)|]; [injection PS as <- <- <-; cbn; auto|discriminate] end);
      destruct pc; try discriminate; repeat match type of PS with context [if ?b then _ else _] => destruct b | context [match ?b with Some _ => _ | None => _ end] => destruct b end; injection PS as <- <- <-; auto.
      cbn. rewrite fset_other; [auto|]. intros X. rewrite X, is_same in PL. lia. }
    destruct K as (K1 & K2 & K3 & K4). unfold took. rewrite K4, orb_false_r, K1, K2. split; [auto|exact K3].
  - destruct c as [f pc]. destruct f; try discriminate. destruct pc; try discriminate. injection E as <- <-. cbn [s_ps s_m s_c c_m took] in *. split; [split; [discriminate|exact I]|reflexivity].
  - destruct c as [f pc]. destruct f; try discriminate. destruct pc; try discriminate. injection E as <- <-. cbn [s_ps s_m s_c c_m took] in *. split; [split; [discriminate|]|reflexivity]. apply (P1 PR).
  - destruct (cstep B spur c m) as [((c' & m') & o')|] eqn:CS; [|discriminate]. injection E as <- <-. cbn [s_ps s_m s_c]. pose proof (qi_cok _ _ _ _ _ _ _ H) as CK. unfold cok in CK.
    destruct c as [f pc]. cbn [cstep] in CS. cbn [c_m] in *.
    assert (FF : fl = true -> pc = CReady) by (intros X; apply (P1 X)).
    destruct f; try (match goal with X : match fstep ?s ?f ?g with _ => _ end = _ |- _ => destruct (fstep s f g) as [(f1, fl1)|]; [injection CS as <- <- <-; cbn [c_m set_fl q_bh q_hd q_n took existsb orb]; rewrite orb_false_r; auto|discriminate] end);
    destruct pc; try discriminate; try contradiction; destruct fl; try (specialize (FF eq_refl); discriminate); try match goal with r : option nat |- _ => destruct r end;
    repeat match type of CS with context [if ?b then _ else _] => destruct b eqn:? | context [match ?b with Some _ => _ | None => _ end] => destruct b end;
    injection CS as <- <- <-; cbn [c_m set_fl set_bh set_bt set_bnext set_hd set_av set_el set_freed q_bh q_hd q_n took existsb orb]; try (split; [split; [try discriminate; auto|auto]|auto]; fail).
    + split; [split; [intros _|exact I]|reflexivity]. destruct CK as (-> & CK & _). split; [reflexivity|]. lia.
    + apply Nat.eqb_eq in Heqb. lia.
Qed.

Lemma paired_run evs : forall fl s s' o l, qrun B evs s = Some (s', o) -> SI B s l -> BI s -> forallb bounded evs = true -> PI fl s -> paired fl evs s ->
  exists l', SI B s' l' /\ hist l o l' /\ q_n (s_m s') = q_n (s_m s).
Proof.
  induction evs as [|ev evs IH]; cbn [qrun paired forallb]; intros fl s s' o l E H HBI BD HP PR.
  - injection E as <- <-. exists l. split; [exact H|]. split; reflexivity.
  - apply andb_prop in BD as (BD1 & BD2). destruct PR as (PR1 & PR2). destruct (qstep B ev s) as [(s1 & o1)|] eqn:QS; [|discriminate]. destruct (qrun B evs s1) as [(s2 & o2)|] eqn:QR; [|discriminate]. injection E as <- <-.
    pose proof (bi_timely B HB s l H HBI) as NL. destruct (qstep_inv B HB ev s s1 o1 l QS H) as (l1 & H1 & X1); [auto|]. destruct (paired_step fl ev s s1 o1 l QS H HBI BD1 HP PR1) as (HP1 & N1).
    destruct (IH _ s1 s2 o2 l1 QR H1 (bi_step B HB ev s s1 o1 l QS H HBI BD1) BD2 HP1 PR2) as (l2 & H2 & X2 & N2). exists l2. split; [exact H2|]. split; [apply hist_app with l1; auto|congruence].
Qed.

Lemma content_le (m : qmem) ps c C L val : QI B m ps c C L val -> length (content m c C val) <= q_n m * B.
Proof.
  intros H. assert (ND : NoDup C). { apply (NoDup_count_occ Nat.eq_dec). intros u. pose proof (place B HB _ _ _ _ _ _ H u) as P. unfold cnt in P. lia. }
  assert (LT : forall u, In u C -> u < q_n m).
  { intros u I. destruct (le_lt_dec (q_n m) u) as [G|G]; [|exact G]. destruct (fi_own _ _ _ _ _ _ (qi_fl _ _ _ _ _ _ _ H) u G) as (X & _). unfold ownf in X. assert (0 < cnt C u) by (apply (count_occ_In Nat.eq_dec); exact I). lia. }
  assert (LC : length C <= q_n m). { rewrite <- (seq_length (q_n m) 0). apply NoDup_incl_length; [exact ND|]. intros u I. apply in_seq. specialize (LT u I). lia. }
  transitivity (length C * B); [|apply Nat.mul_le_mono_r; exact LC].
  assert (G : forall D, (forall u, In u D -> In u C) -> length (flat_map (bvals m val) D) <= length D * B).
  { induction D as [|u D IH]; intros S; [cbn; lia|]. cbn [flat_map length]. rewrite app_length. unfold bvals at 1. rewrite map_length, seq_length.
    pose proof (qi_bt _ _ _ _ _ _ _ H u (S u (or_introl eq_refl))). specialize (IH (fun x I => S x (or_intror I))). lia. }
  pose proof (qi_chain _ _ _ _ _ _ _ H) as Y. inversion Y as [|u l Z]; subst. unfold content. cbn [flat_map length]. rewrite !app_length. pose proof (G l (fun u I => or_intror I)) as GL.
  pose proof (qi_bt _ _ _ _ _ _ _ H (q_hd m) (or_introl eq_refl)) as BT. unfold bvals at 1. rewrite map_length, seq_length. pose proof (qi_cok _ _ _ _ _ _ _ H) as CK. unfold cok in CK.
  unfold pre. destruct (c_m c); cbn [length]; try lia.
  - destruct CK as (-> & CK). lia.
  - destruct CK as (-> & CK & _). lia.
Qed.
End Cap.

(** ** C34: the send buffer *)

(** Blocks in the pool after set_capacity(cap): queue.h 186-189, called by
    conn.cpp 323 and 405 with max_send_buff_size. [B] is MPMCQ_SIZE. *)
Definition blocks (B cap : nat) : nat := Nat.max (cap / B) 1.
(** Conn::write, conn.h 145-147: leave to allocate iff max_send_buff_size is 0. *)
Definition write {V} (cap i : nat) (d : V) : qev V := QEnq i d (cap =? 0).
Definition is_write {V} (cap : nat) (ev : qev V) : Prop := forall i d u, ev = QEnq i d u -> ev = write cap i d.

(** max_send_buff_size = 0: no write ever returns false. *)
Theorem C34_unlimited : forall V B (dflt : V) np evs s o, 0 < B -> (forall ev, In ev evs -> is_write 0 ev) ->
  qrun B evs (sys0 dflt (blocks B 0) np) = Some (s, o) -> forall i, ~ In (ORetE i false) o.
Proof.
  intros V B dflt np evs s o HB W E. apply (nofail_run B evs _ _ _ E).
  - apply forallb_forall. intros ev I. specialize (W ev I). destruct ev as [i v u| | | |]; try reflexivity. specialize (W i v u eq_refl). unfold write in W. cbn in *. congruence.
  - intros p I. apply repeat_spec in I. subst p. split; [intros X; contradiction|discriminate].
Qed.
Print Assumptions C34_unlimited.

(** Otherwise a write that returns false has found the pool empty at some
    moment since it was called ... *)
Theorem C34_fails_only_when_exhausted : forall V B (dflt : V) k np evs s1 o1 i spur s2 o2, 0 < B ->
  qrun B evs (sys0 dflt k np) = Some (s1, o1) -> qstep B (QProd i spur) s1 = Some (s2, o2) -> In (ORetE i false) o2 ->
  exists before after sm om oa, evs = before ++ after /\ qrun B before (sys0 dflt k np) = Some (sm, om) /\ qrun B after sm = Some (s1, oa)
    /\ f_top (q_fl (s_m sm)) = None /\ forall v, ~ In (OCall i v) oa.
Proof.
  intros V B dflt k np evs s1 o1 i spur s2 o2 HB E QS J.
  assert (F : exists p, nth_error (s_ps s1) i = Some p /\ failing p).
  { destruct s1 as [m ps c]. cbn [qstep s_ps] in *. destruct (nth_error ps i) as [p|] eqn:N; [|discriminate]. exists p. split; [reflexivity|]. destruct (pstep B spur i p m) as [((p' & m') & o')|] eqn:PS; [|discriminate].
    injection QS as <- <-. left. destruct p as [f pc v unb]. cbn [pstep p_m] in *.
    destruct f; try (match goal with X : match fstep ?s ?f ?g with _ => _ end = _ |- _ => destruct (fstep s f g) as [(f1, fl1)|]; [injection PS as <- <- <-; destruct J|discriminate] end);
    destruct pc; try discriminate; repeat match type of PS with context [if ?b then _ else _] => destruct b | context [match ?b with Some _ => _ | None => _ end] => destruct b end; try discriminate; injection PS as <- <- <-;
    cbn in J; try contradiction; destruct J as [J|[]]; try discriminate; reflexivity. }
  destruct F as (p & N & F). apply (failing_moment B (sys0 dflt k np) i) with (o := o1) (p := p); auto.
  intros q X [Y|(t & Y & _)]; cbn in X; apply nth_error_In, repeat_spec in X; subst q; discriminate.
Qed.
Print Assumptions C34_fails_only_when_exhausted.

(** ... and has no effect (whether the calls may allocate or not). *)
Theorem C34_failed_without_effect : forall V B (dflt : V) k np evs s o, qrun B evs (sys0 dflt k np) = Some (s, o) -> forall i, proto i PIdle o.
Proof. intros V B dflt k np evs s o E. apply (protocol0 B dflt k np evs s o E). Qed.
Print Assumptions C34_failed_without_effect.

(** With a limit, and the data put back by the sender being what it has just
    taken out, at most cap + 2B segments are queued: whatever is left by the
    effects so far has at most that length. *)
Theorem C34_bounded : forall V B (dflt : V) cap np evs s o, 0 < B -> 0 < cap -> (forall ev, In ev evs -> is_write cap ev) -> paired B false evs (sys0 dflt (blocks B cap) np) ->
  qrun B evs (sys0 dflt (blocks B cap) np) = Some (s, o) -> exists l, hist [] o l /\ length l <= cap + 2 * B.
Proof.
  intros V B dflt cap np evs s o HB CP W PR E.
  assert (BD : forallb bounded evs = true).
  { apply forallb_forall. intros ev I. specialize (W ev I). destruct ev as [i v u| | | |]; try reflexivity. specialize (W i v u eq_refl). unfold write in W. destruct (Nat.eqb_spec cap 0); [lia|]. injection W as ->. reflexivity. }
  destruct (paired_run B HB evs false _ _ _ [] E (si_init B HB dflt _ np) (bi_init dflt _ np) BD) as (l & (C & L & val & H & CO) & HI & QN); [split; [discriminate|exact I]|exact PR|].
  exists l. split; [exact HI|]. pose proof (content_le B HB _ _ _ _ _ _ H) as G. rewrite CO, QN in G. cbn in G.
  pose proof (Nat.mul_div_le cap B ltac:(lia)) as D. unfold blocks in G. destruct (Nat.max_spec (cap / B) 1) as [(M & E1)|(M & E1)]; rewrite E1 in G; nia.
Qed.
Print Assumptions C34_bounded.

(** Block size 2, cap 3 (one block in the pool): four writes fill the buffer,
    the fifth fails; after the sender has taken three segments and put the
    last one back a write goes through again; in unlimited mode the fifth
    goes through at once. *)
Definition C34_evs (u : bool) : list (qev nat) :=
  [QEnq 0 1 u] ++ st 0 10 ++ [QEnq 0 2 u] ++ st 0 10 ++ [QEnq 0 3 u] ++ st 0 31 ++ [QEnq 0 4 u] ++ st 0 10 ++ [QEnq 0 5 u] ++ st 0 10.
Definition C34_more : list (qev nat) := [QDeq] ++ cs 5 ++ [QDeq] ++ cs 5 ++ [QDeq] ++ cs 15 ++ [QRew 3] ++ cs 4 ++ [QEnq 0 6 false] ++ st 0 31.
Example C34_nonvacuous :
  option_map snd (qrun 2 (C34_evs false ++ C34_more) (sys0 0 (blocks 2 3) 1))
  = Some [OCall 0 1; OEnq 0 1; ORetE 0 true; OCall 0 2; OEnq 0 2; ORetE 0 true; OCall 0 3; OEnq 0 3; ORetE 0 true; OCall 0 4; OEnq 0 4; ORetE 0 true;
          OCall 0 5; ORetE 0 false; ODeq 0 1; ORetD 0 (Some 1); ODeq 0 2; ORetD 0 (Some 2); ODeq 0 3; ORetD 0 (Some 3); ORew 3; OCall 0 6; OEnq 0 6; ORetE 0 true]
  /\ paired 2 false (C34_evs false ++ C34_more) (sys0 0 (blocks 2 3) 1)
  /\ (forall ev, In ev (C34_evs false ++ C34_more) -> is_write 3 ev)
  /\ (exists o, option_map snd (qrun 2 (C34_evs true ++ st 0 16) (sys0 0 (blocks 2 0) 1)) = Some (o ++ [OEnq 0 5; ORetE 0 true])).
Proof.
  split; [vm_compute; reflexivity|]. split; [vm_compute; repeat (split; [auto; fail|]); auto 100|]. split.
  - apply Forall_forall. repeat (apply Forall_cons; [intros i d u X; (discriminate X || (injection X as <- <- <-; reflexivity))|]). apply Forall_nil.
  - eexists [_;_;_;_;_;_;_;_;_;_;_;_;_]. vm_compute. reflexivity.
Qed.

(** ** C37 *)

(** Without a late last store (see [timely]) every value enqueued and not yet
    dequeued comes out, in order, when the producers are done and try_dequeue
    is called again and again, whether blocks are allocated or not. *)
Theorem C37_drain_partial : forall V B (dflt : V) k np evs s o, 0 < B -> qrun B evs (sys0 dflt k np) = Some (s, o) -> timely B evs (sys0 dflt k np) -> quiet s ->
  exists evs' s' o', (forall ev, In ev evs' -> ev = QDeq \/ ev = QCons false) /\ qrun B evs' s = Some (s', o')
    /\ hist [] (o ++ o') [] /\ Permutation (enqueued (o ++ o') ++ rewound (o ++ o')) (dequeued (o ++ o')).
Proof.
  intros V B dflt k np evs s o HB E T (QC & QP). destruct (qrun_inv B HB evs _ _ _ [] E (si_init B HB dflt k np) T) as (l & H & HI). destruct s as [m ps c]. cbn [s_c s_ps] in *. subst c.
  destruct (drain B HB l m ps QP H) as (evs' & m' & o' & R & J & ->). exists evs', (mkSys m' ps (mkC FIdle CReady)), (flat_map (fun v => [ODeq 0 v; ORetD 0 (Some v)]) l ++ [OEmpty 0; ORetD 0 None]).
  assert (HH : hist [] (o ++ flat_map (fun v => [ODeq 0 v; ORetD 0 (Some v)]) l ++ [OEmpty 0; ORetD 0 None]) []).
  { apply hist_app with l; [exact HI|]. clear. induction l as [|v l IH]; cbn; [auto|]. exists l. split; [reflexivity|exact IH]. }
  split; [exact J|]. split; [exact R|]. split; [exact HH|]. pose proof (hist_multiset _ _ _ HH) as P. rewrite app_nil_r in P. exact P.
Qed.
Print Assumptions C37_drain_partial.

(** In particular for calls that never allocate, under every interleaving. *)
Corollary C37_bounded_partial : forall V B (dflt : V) k np evs s o, 0 < B -> forallb bounded evs = true -> qrun B evs (sys0 dflt k np) = Some (s, o) -> quiet s ->
  exists evs' s' o', (forall ev, In ev evs' -> ev = QDeq \/ ev = QCons false) /\ qrun B evs' s = Some (s', o')
    /\ hist [] (o ++ o') [] /\ Permutation (enqueued (o ++ o') ++ rewound (o ++ o')) (dequeued (o ++ o')).
Proof.
  intros V B dflt k np evs s o HB BD E Q. apply (C37_drain_partial V B dflt k np evs s o HB E); [|exact Q].
  apply (bounded_timely B HB evs _ _ _ [] E); [apply (si_init B HB)|apply bi_init|exact BD].
Qed.
Print Assumptions C37_bounded_partial.

(** Allocating calls can lose a value: block size 1, no pool, five producers.
    The value 99 is enqueued and the call returns true; every producer is
    done; however often try_dequeue is called, it reports an empty queue. *)
Lemma stuck {V} B (m : qmem V) ps : q_bt m (q_hd m) <= q_bh m (q_hd m) -> q_bnext m (q_hd m) = None -> forall evs c s' o,
  c = mkC FIdle CReady \/ c = mkC FIdle D0 \/ c = mkC FIdle (D2 (q_hd m)) ->
  (forall ev, In ev evs -> ev = QDeq \/ exists b, ev = QCons b) -> qrun B evs (mkSys m ps c) = Some (s', o) -> dequeued o = [].
Proof.
  intros H1 H2. induction evs as [|ev evs IH]; intros c s' o CC J E; cbn [qrun] in E; [injection E as <- <-; reflexivity|].
  destruct (qstep B ev (mkSys m ps c)) as [(s1 & o1)|] eqn:QS; [|discriminate]. destruct (qrun B evs s1) as [(s2 & o2)|] eqn:QR; [|discriminate]. injection E as <- <-.
  assert (K : exists c', s1 = mkSys m ps c' /\ (c' = mkC FIdle CReady \/ c' = mkC FIdle D0 \/ c' = mkC FIdle (D2 (q_hd m))) /\ dequeued o1 = []).
  { destruct (J ev (or_introl eq_refl)) as [->|(b & ->)]; cbn [qstep] in QS; destruct CC as [->|[->| ->]]; cbn [cstep] in QS; try discriminate.
    - injection QS as <- <-. (eexists; split; [reflexivity|]; split; [auto|reflexivity]).
    - destruct (Nat.leb_spec (q_bt m (q_hd m)) (q_bh m (q_hd m))); [|lia]. destruct (q_bt m (q_hd m) <? B); injection QS as <- <-; (eexists; split; [reflexivity|]; split; [auto|reflexivity]).
    - rewrite H2 in QS. injection QS as <- <-. (eexists; split; [reflexivity|]; split; [auto|reflexivity]). }
  destruct K as (c' & -> & CC' & D). unfold dequeued in *. rewrite flat_map_app, D. apply (IH c' s2 o2 CC'); [|exact QR]. intros x I. apply J. right. exact I.
Qed.

Definition C37_evs : list (qev nat) :=
  [QEnq 0 10 true] ++ st 0 10 ++ [QEnq 1 11 true] ++ st 1 13 ++ [QEnq 2 99 true] ++ st 2 1 ++ [QEnq 0 12 true] ++ st 0 10 ++ [QEnq 0 13 true] ++ st 0 26
  ++ [QDeq] ++ cs 5 ++ [QDeq] ++ cs 11 ++ [QDeq] ++ cs 15 ++ st 1 1 ++ st 2 3 ++ [QEnq 3 14 true] ++ st 3 16 ++ st 2 6 ++ [QEnq 4 15 true] ++ st 4 26 ++ st 3 41 ++ st 1 37
  ++ [QDeq] ++ cs 15 ++ [QDeq] ++ cs 15 ++ [QDeq] ++ cs 15 ++ [QDeq] ++ cs 2.

Theorem C37_refuted : exists s o, qrun 1 C37_evs (sys0 0 0 5) = Some (s, o) /\ quiet s /\ In (OEnq 2 99) o /\ In (ORetE 2 true) o /\ ~ In 99 (dequeued o)
  /\ forall evs' s' o', (forall ev, In ev evs' -> ev = QDeq \/ exists b, ev = QCons b) -> qrun 1 evs' s = Some (s', o') -> dequeued o' = [].
Proof.
  destruct (qrun 1 C37_evs (sys0 0 0 5)) as [(s & o)|] eqn:E; [|vm_compute in E; discriminate]. exists s, o. split; [reflexivity|].
  assert (EO : Some o = option_map snd (qrun 1 C37_evs (sys0 0 0 5))) by (rewrite E; reflexivity). vm_compute in EO. injection EO as EO.
  assert (ES : option_map (fun x => (map (fun p => (p_f p, p_m p)) (s_ps (fst x)), s_c (fst x), (q_bt (s_m (fst x)) (q_hd (s_m (fst x))), q_bh (s_m (fst x)) (q_hd (s_m (fst x))), q_bnext (s_m (fst x)) (q_hd (s_m (fst x))))))
     (qrun 1 C37_evs (sys0 0 0 5)) = Some ([(FIdle, PReady); (FIdle, PReady); (FIdle, PReady); (FIdle, PReady); (FIdle, PReady)], mkC FIdle CReady, (1, 1, None))) by (vm_compute; reflexivity).
  rewrite E in ES. cbn [option_map fst] in ES. injection ES as E1 E2 E3 E4 E5.
  split; [split; [exact E2|]|]. { intros p I. assert (X : In (p_f p, p_m p) (map (fun p => (p_f p, p_m p)) (s_ps s))) by (apply (in_map (fun p => (p_f p, p_m p))); exact I). rewrite E1 in X. cbn in X. assert (Y : (p_f p, p_m p) = (FIdle, PReady)) by (repeat destruct X as [X|X]; try (symmetry; exact X); contradiction). injection Y as Y1 Y2. split; assumption. }
  split; [subst o; cbn; tauto|]. split; [subst o; cbn; tauto|]. split. { subst o. vm_compute. intros X. repeat destruct X as [X|X]; try discriminate X. exact X. }
  intros evs' s' o' J R. destruct s as [m ps c]. cbn [s_m s_ps s_c] in *. apply (stuck 1 m ps) with (evs := evs') (c := c) (s' := s'); auto. rewrite E3, E4. auto.
Qed.
Print Assumptions C37_refuted.

Lemma timely_app {V} B (a b : list (qev V)) : forall s, timely B a s -> (forall s1 o1, qrun B a s = Some (s1, o1) -> timely B b s1) -> timely B (a ++ b) s.
Proof.
  induction a as [|ev a IH]; cbn [timely app qrun]; intros s H1 H2; [apply (H2 s []); reflexivity|]. destruct H1 as (H1 & H3). split; [exact H1|].
  destruct (qstep B ev s) as [(s1 & o1)|]; [|exact I]. apply IH; [exact H3|]. intros s2 o2 E. apply (H2 s2 (o1 ++ o2)). rewrite E. reflexivity.
Qed.
Lemma timely_prod {V} B (a : list (qev V)) : (forall ev, In ev a -> match ev with QCons _ => False | _ => True end) -> forall s, timely B a s.
Proof.
  induction a as [|ev a IH]; cbn [timely]; intros J s; [exact I|]. split; [destruct ev; auto; destruct (J _ (or_introl eq_refl))|]. destruct (qstep B ev s) as [(s1 & o1)|]; [|exact I]. apply IH. intros x X. apply J. right. exact X.
Qed.
Lemma timely_cons {V} B (a : list (qev V)) : (forall ev, In ev a -> match ev with QEnq _ _ _ | QProd _ _ => False | _ => True end) -> forall s, (forall p, In p (s_ps s) -> pidle p) -> timely B a s.
Proof.
  induction a as [|ev a IH]; cbn [timely]; intros J s Q; [exact I|]. split; [destruct ev; auto; intros h _ _ p t X Y; destruct (Q p X) as (_ & Z); congruence|].
  destruct (qstep B ev s) as [(s1 & o1)|] eqn:E; [|exact I]. apply IH; [intros x X; apply J; right; exact X|]. replace (s_ps s1) with (s_ps s); [exact Q|].
  pose proof (J ev (or_introl eq_refl)) as K. destruct s as [m ps c]. destruct ev; try contradiction; cbn [qstep] in E.
  - destruct c as [f pc]; destruct f; try discriminate; destruct pc; try discriminate. injection E as <- <-. reflexivity.
  - destruct c as [f pc]; destruct f; try discriminate; destruct pc; try discriminate. injection E as <- <-. reflexivity.
  - destruct (cstep B spur c m) as [((c' & m') & o')|]; [|discriminate]. injection E as <- <-. reflexivity.
Qed.

Definition C37_fine : list (qev nat) := C34_evs true ++ st 0 16.
Definition C37_then : list (qev nat) := [QDeq] ++ cs 5 ++ [QDeq] ++ cs 5 ++ [QDeq] ++ cs 15.
Example C37_nonvacuous : exists s o, qrun 2 (C37_fine ++ C37_then) (sys0 0 1 1) = Some (s, o) /\ quiet s /\ timely 2 (C37_fine ++ C37_then) (sys0 0 1 1) /\ enqueued o = [1; 2; 3; 4; 5] /\ dequeued o = [1; 2; 3].
Proof.
  eexists _, _. split; [vm_compute; reflexivity|]. split; [split; [reflexivity|]; intros p [<-|[]]; split; reflexivity|]. split; [|vm_compute; auto].
  apply timely_app; [apply timely_prod|intros s1 o1 E; apply timely_cons].
  - apply Forall_forall. repeat (apply Forall_cons; [exact I|]). apply Forall_nil.
  - apply Forall_forall. repeat (apply Forall_cons; [exact I|]). apply Forall_nil.
  - vm_compute in E. injection E as <- _. intros p [<-|[]]; split; reflexivity.
Qed.

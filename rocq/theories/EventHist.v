(** EventModel takes every step EventSpec allows; facts about the histories of
    EventSpec: which add a waiting registration goes back to. *)
From Coq Require Import Arith List Bool Lia.
From Verif Require Import EventModel EventSpec EventProofs.
Import ListNotations.

Lemma live_of s a o c r : R0 s a -> a_obj a o = Some (c, r) -> o <> 0 /\ exists q, live o s = Some q /\ o_cls q = c /\ conc_opt s o c r q.
Proof.
  intros (R & Z) O. assert (O0 : o <> 0) by congruence. split; [exact O0|]. pose proof (rel_obj _ _ R o) as K. rewrite O in K. destruct (obj_conc _ _ _ _ K) as (q & Q & C).
  exists q. split; [destruct o; [congruence|exact Q]|]. split; [exact (conc_cls _ _ _ _ _ C)|exact C].
Qed.
Lemma free_of s a o : R0 s a -> a_obj a o = None -> o <> 0 -> free o s = true.
Proof. intros (R & Z) O O0. pose proof (rel_obj _ _ R o) as K. rewrite O in K. cbn in K. destruct o; [congruence|]. cbn. rewrite K. reflexivity. Qed.

Lemma asked_b (rd wr err mr mw : bool) : asked rd wr err mr mw -> (if err then negb rd && negb wr else (rd || wr) && implb rd mr && implb wr mw) = true.
Proof. unfold asked. destruct err, rd, wr, mr, mw; cbn; intros H; try reflexivity; decompose [and or] H; try congruence; exfalso; intuition congruence. Qed.

Lemma call_not_off o x s : call o x s <> Off.
Proof. unfold call. destruct (s_obj s o) as [q|]; [destruct (o_cb q)|]; discriminate. Qed.

Lemma not_off s a e l a' : R0 s a -> astep a e l a' -> ~ internal e -> step e s <> Off.
Proof.
  intros RR A NI. pose proof RR as (R & Z). destruct A; cbn [step internal] in *; try (exfalso; apply NI; exact I).
  - rewrite (free_of _ _ _ RR H H0), (rel_user _ _ R), H2. destruct c; try congruence; discriminate.
  - rewrite (free_of _ _ _ RR H H0), (rel_user _ _ R), H2. destruct c; try congruence; discriminate.
  - rewrite (free_of _ _ _ RR H H0), (rel_user _ _ R), H1. cbn [andb]. rewrite <- (rel_user _ _ R) in H1. destruct (timed_rel s a o l fd f R H H1) as (s' & E & _). rewrite E. discriminate.
  - rewrite (free_of _ _ _ RR H H0), (rel_user _ _ R), H1. discriminate.
  - rewrite (free_of _ _ _ RR H H0), (rel_user _ _ R), H1. cbn [andb]. rewrite <- (rel_user _ _ R) in H1. destruct (closing_rel s a l o R H1) as (s' & E & _). rewrite E. discriminate.
  - rewrite (free_of _ _ _ RR H H0). discriminate.
  - rewrite (free_of _ _ _ RR H H0). destruct (live_of _ _ _ _ _ RR H1) as (P0 & q & L & C & K). rewrite L. destruct (touch_spec p s a R) as [(T & N)|(T & N)]; rewrite T; cbn [bind]; [|discriminate].
    destruct (move_rel s a o p c r R H1 H) as (s' & E & _). rewrite E. discriminate.
  - destruct (live_of _ _ _ _ _ RR H0) as (O0 & q & L & C & K). destruct (live_of _ _ _ _ _ RR H1) as (P0 & q' & L' & C' & K'). rewrite L, L', C, C'. replace (cls_eqb c c) with true by (destruct c; reflexivity). rewrite (proj2 (Nat.eqb_neq _ _) H).
    destruct (touch_spec o s a R) as [(T & N)|(T & N)]; rewrite T; cbn [bind]; [|discriminate]. destruct (touch_spec p s a R) as [(T' & N')|(T' & N')]; rewrite T'; cbn [bind app]; [|discriminate].
    destruct (assign_rel s a o p c r r' R Z H H0 H1) as (s' & E & _). rewrite E. discriminate.
  - destruct (live_of _ _ _ _ _ RR H) as (O0 & q & L & C & K). rewrite L, Nat.eqb_refl. destruct (o_cls q); discriminate.
  - destruct (live_of _ _ _ _ _ RR H) as (O0 & q & L & C & K). rewrite L. destruct (touch_spec o s a R) as [(T & N)|(T & N)]; rewrite T; cbn [bind]; [|discriminate]. destruct (clear_rel s a o c r R H) as (s' & E & _). rewrite E. discriminate.
  - destruct (live_of _ _ _ _ _ RR H) as (O0 & q & L & C & K). rewrite L. destruct (touch_spec o s a R) as [(T & N)|(T & N)]; rewrite T; discriminate.
  - destruct (live_of _ _ _ _ _ RR H) as (O0 & q & L & C & K). rewrite L, C. destruct (o_ev q); discriminate.
  - destruct (live_of _ _ _ _ _ RR H) as (O0 & q & L & C & K). rewrite L, C. destruct (o_ev q); discriminate.
  - destruct (live_of _ _ _ _ _ RR H) as (O0 & q & L & C & K). rewrite L, C. destruct (o_ev q); discriminate.
  - destruct (live_of _ _ _ _ _ RR H) as (O0 & q & L & C & K). rewrite L, C. destruct (o_ev q), (o_ev2 q); discriminate.
  - destruct (live_of _ _ _ _ _ RR H) as (O0 & q & L & C & K). rewrite L. discriminate.
  - destruct (live_of _ _ _ _ _ RR H) as (O0 & q & L & C & K). rewrite L. destruct (touch_spec o s a R) as [(T & N)|(T & N)]; rewrite T; cbn [bind]; [|discriminate]. destruct (destroy_rel s a o c r R H) as (s' & E & _). rewrite E. discriminate.
  - discriminate.
  - discriminate.
  - discriminate.
  - rewrite (rel_run _ _ R), H. destruct H1 as (CC & ->). pose proof (rel_obj _ _ R o) as K. rewrite H0 in K. destruct K as (_ & _ & K).
    assert (I : exists t, In (r_id r, Some (SPoll mr mw t)) (parts c r)) by (destruct CC as [-> | ->]; cbn [parts]; unfold on_poll; rewrite H2; eexists; left; reflexivity). destruct I as (t & I). destruct (K _ _ I) as (L & E). rewrite E. cbn [h_st h_on h_data].
    rewrite (proj2 (Nat.ltb_lt _ _) L). cbn [negb]. rewrite (asked_b _ _ _ _ _ H3). destruct (s_obj _ o) as [q|]; [|discriminate]. destruct t; [destruct (o_ev2 q); [|discriminate]|]; apply call_not_off.
  - rewrite (rel_run _ _ R), H. pose proof (rel_obj _ _ R o) as K. rewrite H0 in K. destruct K as (_ & _ & K).
    assert (I : exists t, In (h, Some (STimer due t)) (parts c r)) by (destruct H1 as [(-> & ->)|(-> & ->)]; cbn [parts]; unfold on_timer; rewrite H2; eexists; [left|right; left]; reflexivity). destruct I as (t & I). destruct (K _ _ I) as (L & E). rewrite E. cbn [h_st h_on h_data h_loop].
    rewrite (proj2 (Nat.ltb_lt _ _) L), (rel_lt _ _ R), (proj2 (Nat.leb_le _ _) H3). cbn [andb]. destruct (s_obj _ o) as [q|]; [|discriminate]. destruct t; apply call_not_off.
  - rewrite (rel_run _ _ R), H. pose proof (rel_obj _ _ R o) as K. rewrite H0 in K. destruct K as (_ & _ & K).
    assert (I : In (r_id r, Some (SSig once)) (parts CSig r)) by (cbn [parts]; unfold on_sig; rewrite H1; left; reflexivity). destruct (K _ _ I) as (L & E). rewrite E. cbn [h_st h_on h_data h_loop].
    rewrite (proj2 (Nat.ltb_lt _ _) L). apply call_not_off.
  - discriminate.
Qed.

(** A number is held by one object only. *)
Definition single (a : ast) : Prop := forall o o' c c' r r' h x x', a_obj a o = Some (c, Some r) -> a_obj a o' = Some (c', Some r') -> In (h, x) (parts c r) -> In (h, x') (parts c' r') -> o = o'.
Lemma rel_single s a : Rel s a -> single a.
Proof. intros R o o' c c' r r' h x x'. apply (apart s a o o' c c' r r' h x x' R). Qed.

Lemma polls_part c r h : polls c r h -> exists x, In (h, x) (parts c r).
Proof. intros ([-> | ->] & ->); cbn; eexists; left; reflexivity. Qed.
Lemma times_part c r h : times c r h -> exists x, In (h, x) (parts c r).
Proof. intros [(-> & ->)|(-> & ->)]; cbn; eexists; [left|right; left]; reflexivity. Qed.
Lemma times_id c r h : times c r h -> h <= S (r_id r).
Proof. intros [(_ & ->)|(_ & ->)]; lia. Qed.

(** What is observed is determined by the event. *)
Lemma label a e l l' x y : single a -> astep a e l x -> astep a e l' y -> l = l'.
Proof.
  intros S A B. destruct A; inversion B; subst; try reflexivity.
  - destruct (polls_part _ _ _ H1) as (z & P). match goal with Q : polls ?c' ?r' h |- _ => lazymatch r' with r => fail | _ => destruct (polls_part _ _ _ Q) as (z' & P') end end.
    assert (o = o0) by eauto. subst. congruence.
  - destruct (times_part _ _ _ H1) as (z & P). match goal with Q : times ?c' ?r' h |- _ => lazymatch r' with r => fail | _ => destruct (times_part _ _ _ Q) as (z' & P') end end.
    assert (o = o0) by eauto. subst. assert (c = c0) by congruence. assert (r = r0) by congruence. subst. reflexivity.
  - match goal with H : r_id ?x = r_id r, Q : a_obj a _ = Some (CSig, Some ?x) |- _ => lazymatch x with r => fail | _ => destruct (part1 CSig r) as (z & P); destruct (part1 CSig x) as (z' & P'); rewrite H in P'; pose proof (S _ _ _ _ _ _ _ _ _ H0 Q P P') end end. subst. congruence.
Qed.

(** ** Where a waiting timer comes from *)

Ltac noarm := intros; intros (?o & ?c & ?r & _ & _ & F); exact F.
Ltac old := let H := fresh in intros H; destruct H as (?o & ?c & ?r & ?P & ?T & ?F).

Lemma times_same a o o' c c' r r' h : single a -> a_obj a o = Some (c, Some r) -> a_obj a o' = Some (c', Some r') -> times c r h -> times c' r' h -> o = o'.
Proof. intros S P Q T T'. destruct (times_part _ _ _ T) as (x & I), (times_part _ _ _ T') as (x' & I'). exact (S _ _ _ _ _ _ _ _ _ P Q I I'). Qed.
Lemma polls_same a o o' c c' r r' h : single a -> a_obj a o = Some (c, Some r) -> a_obj a o' = Some (c', Some r') -> polls c r h -> polls c' r' h -> o = o'.
Proof. intros S P Q T T'. destruct (polls_part _ _ _ T) as (x & I), (polls_part _ _ _ T') as (x' & I'). exact (S _ _ _ _ _ _ _ _ _ P Q I I'). Qed.
Lemma times_eq c r r' h : r_id r' = r_id r -> times c r h -> times c r' h.
Proof. unfold times. intros ->. exact (fun x => x). Qed.
Lemma polls_eq c r r' h : r_id r' = r_id r -> polls c r h -> polls c r' h.
Proof. unfold polls. intros ->. exact (fun x => x). Qed.

Lemma origin a e l a' o c r h due : single a -> astep a e l a' -> a_obj a' o = Some (c, Some r) -> times c r h -> r_timer r = Some due ->
  (exists ms, arms a e h ms /\ due = a_lt a (r_loop r) + ms) \/
  (forall ms, ~ arms a e h ms) /\ ~ ends a e h /\ exists o1 r1, a_obj a o1 = Some (c, Some r1) /\ r_timer r1 = Some due /\ r_id r1 = r_id r /\ r_loop r1 = r_loop r.
Proof.
  intros S A. assert (SAME : forall o r1, a_obj a o = Some (c, Some r1) -> times c r h -> r_timer r1 = Some due -> r_id r1 = r_id r -> r_loop r1 = r_loop r ->
    (match e with EAddTimer o' _ | EAddTimed o' _ _ _ | EDel o' | EClear o' | EDestroy o' => o' <> o | EAssign o' p => o' <> o \/ o' = p | EFire h' _ _ _ => c = CTimed -> h' <> r_id r | EExpire h' => h' <> h | _ => True end) ->
    (forall ms, ~ arms a e h ms) /\ ~ ends a e h /\ exists o1 r1, a_obj a o1 = Some (c, Some r1) /\ r_timer r1 = Some due /\ r_id r1 = r_id r /\ r_loop r1 = r_loop r).
  { clear o. intros o r2 O T D I L N. apply (times_eq _ _ r2 _ I) in T. split; [|split; [|exists o, r2; auto]].
    - intros ms (o1 & c1 & r1 & O1 & T1 & F). pose proof (times_same _ _ _ _ _ _ _ _ S O1 O T1 T). subst o1. rewrite O in O1. injection O1 as <- <-. destruct e; try contradiction; try (destruct F; congruence). destruct F as (F1 & F2 & _). apply (N F1). congruence.
    - intros (o1 & c1 & r1 & O1 & T1 & F). pose proof (times_same _ _ _ _ _ _ _ _ S O1 O T1 T). subst o1. destruct e; try contradiction; try congruence; destruct F; destruct N; congruence. }
  destruct A; cbn [a_put a_bump a_calls a_obj]; unfold upd; repeat match goal with |- context [Nat.eqb o ?x] => let E := fresh "E" in destruct (Nat.eqb o x) eqn:E; [apply Nat.eqb_eq in E; subst o|apply Nat.eqb_neq in E] end; intros O T D;
    try discriminate O; try (injection O as -> <-; discriminate D); try (right; apply (SAME o r); auto; fail); try (right; apply (SAME o r); auto; congruence).
  - injection O as _ <-. discriminate D.
  - injection O as -> ->. right. apply (SAME p r); auto.
  - injection O as -> ->. right. apply (SAME p r); auto.
  - destruct r0 as [r0|]; [|discriminate O]. injection O as -> <-. right. apply (SAME o0 r0); auto.
  - injection O as <- <-. destruct T as [(F & _)|(F & _)]; discriminate F.
  - injection O as <- <-. cbn in D. injection D as <-. left. exists ms. split; [|reflexivity]. exists o0, CTimer, r0. auto.
  - injection O as <- <-. destruct T as [(F & _)|(F & _)]; discriminate F.
  - injection O as <- <-. cbn in D. injection D as <-. left. exists ms. split; [|reflexivity]. exists o0, CTimed, r0. auto.
  - destruct r0 as [r0|]; [|discriminate O]. injection O as -> <-. discriminate D.
  - injection O as -> <-. destruct (cls_eqb c CTimed) eqn:CT.
    + apply cls_eqb_eq in CT. subst c. destruct H1 as (_ & ->). left. exists (r_ms r0). split; [|destruct err; cbn in D |- *; congruence]. exists o0, CTimed, r0. split; [exact H0|]. split; [destruct err; exact T|auto].
    + right. apply (SAME o0 r0); auto; try (destruct err; auto; fail). intros ->. discriminate CT.
  - right. apply (SAME o r); auto. intros -> ->. destruct (polls_part _ _ _ H1) as (x & I). apply E. exact (eq_sym (S _ _ _ _ _ _ _ _ _ H0 O I (or_introl eq_refl))).
  - right. apply (SAME o r); auto. intros ->. apply E. exact (times_same _ _ _ _ _ _ _ _ S O H0 T H1).
  - injection O as <- <-. destruct T as [(F & _)|(F & _)]; discriminate F.
Qed.

Lemma origin_fd a e l a' o c r h mr mw : single a -> astep a e l a' -> a_obj a' o = Some (c, Some r) -> polls c r h -> r_poll r = Some (mr, mw) ->
  wishes a e h mr mw \/
  (forall rd wr, ~ wishes a e h rd wr) /\ ~ forgets a e h /\ exists o1 r1, a_obj a o1 = Some (c, Some r1) /\ r_poll r1 = Some (mr, mw) /\ r_id r1 = r_id r.
Proof.
  intros S A. assert (SAME : forall o r1, a_obj a o = Some (c, Some r1) -> polls c r h -> r_poll r1 = Some (mr, mw) -> r_id r1 = r_id r ->
    (match e with EAddPoll o' _ _ | EAddTimed o' _ _ _ | EDel o' | EClear o' | EDestroy o' => o' <> o | EAssign o' p => o' <> o \/ o' = p | EFire h' _ _ err => h' <> h \/ err = false | EExpire h' => c = CTimed -> h' <> Datatypes.S h | _ => True end) ->
    (forall rd wr, ~ wishes a e h rd wr) /\ ~ forgets a e h /\ exists o1 r1, a_obj a o1 = Some (c, Some r1) /\ r_poll r1 = Some (mr, mw) /\ r_id r1 = r_id r).
  { clear o. intros o r2 O T D I N. apply (polls_eq _ _ r2 _ I) in T. split; [|split; [|exists o, r2; auto]].
    - intros rd wr (o1 & c1 & r1 & O1 & T1 & F). pose proof (polls_same _ _ _ _ _ _ _ _ S O1 O T1 T). subst o1. destruct e; try contradiction; destruct F; congruence.
    - intros (o1 & c1 & r1 & O1 & T1 & F). pose proof (polls_same _ _ _ _ _ _ _ _ S O1 O T1 T). subst o1. rewrite O in O1. injection O1 as <- <-. destruct e; try contradiction; try congruence; destruct F; try (destruct N; congruence). }
  destruct A; cbn [a_put a_bump a_calls a_obj]; unfold upd; repeat match goal with |- context [Nat.eqb o ?x] => let E := fresh "E" in destruct (Nat.eqb o x) eqn:E; [apply Nat.eqb_eq in E; subst o|apply Nat.eqb_neq in E] end; intros O T D;
    try discriminate O; try (injection O as -> <-; discriminate D); try (right; apply (SAME o r); auto; fail); try (right; apply (SAME o r); auto; congruence).
  - injection O as _ <-. discriminate D.
  - injection O as -> ->. right. apply (SAME p r); auto.
  - injection O as -> ->. right. apply (SAME p r); auto.
  - destruct r0 as [r0|]; [|discriminate O]. injection O as -> <-. right. apply (SAME o0 r0); auto.
  - injection O as <- <-. left. exists o0, CFd, r0. split; [exact H|]. split; [exact T|]. cbn in D. unfold mask in D. destruct rd, wr; cbn in D; try discriminate D; injection D as <- <-; auto.
  - injection O as <- <-. destruct T as ([F|F] & _); discriminate F.
  - injection O as <- <-. destruct T as ([F|F] & _); discriminate F.
  - injection O as <- <-. left. exists o0, CTimed, r0. split; [exact H|]. split; [exact T|]. cbn in D. unfold mask in D. destruct rd, wr; cbn in D; try discriminate D; injection D as <- <-; auto.
  - destruct r0 as [r0|]; [|discriminate O]. injection O as -> <-. discriminate D.
  - injection O as -> <-. destruct err; [destruct (cls_eqb c CTimed); discriminate D|]. right. apply (SAME o0 r0); auto; destruct (cls_eqb c CTimed); auto.
  - right. apply (SAME o r); auto. left. intros ->. apply E. exact (polls_same _ _ _ _ _ _ _ _ S O H0 T H1).
  - right. apply (SAME o r); auto. intros -> ->. destruct (times_part _ _ _ H1) as (x & I). destruct T as (_ & ->). apply E. exact (eq_sym (S _ _ _ _ _ _ _ _ _ H0 O I (or_intror (or_introl eq_refl)))).
  - injection O as <- <-. destruct T as ([F|F] & _); discriminate F.
Qed.

(** ** Runs *)

Lemma arun_app a es os a' es' os' a'' : arun a es os a' -> arun a' es' os' a'' -> arun a (es ++ es') (os ++ os') a''.
Proof. induction 1; cbn [app]; [auto|]. intros A. rewrite <- app_assoc. econstructor; eauto. Qed.
Lemma arun_one a e l a' : astep a e l a' -> arun a [e] l a'.
Proof. intros A. rewrite <- (app_nil_r l). econstructor; [exact A|constructor]. Qed.
Lemma calm_snoc h a es a' e l a'' : calm h a es a' -> astep a' e l a'' -> ~ ends a' e h -> (forall ms, ~ arms a' e h ms) -> calm h a (es ++ [e]) a''.
Proof. induction 1; cbn [app]; intros; econstructor; eauto. constructor. Qed.
Lemma calm_fd_snoc h a es a' e l a'' : calm_fd h a es a' -> astep a' e l a'' -> ~ forgets a' e h -> (forall rd wr, ~ wishes a' e h rd wr) -> calm_fd h a (es ++ [e]) a''.
Proof. induction 1; cbn [app]; intros; econstructor; eauto. constructor. Qed.

Lemma bind_assoc r f g : bind (bind r f) g = bind r (fun s => bind (f s) g).
Proof. destruct r as [s l| |]; cbn [bind]; [|reflexivity..]. destruct (f s) as [s1 l1| |]; cbn [bind]; [|reflexivity..]. destruct (g s1); cbn [bind]; rewrite ?app_assoc; reflexivity. Qed.
Lemma run_app es es' s : run (es ++ es') s = bind (run es s) (run es').
Proof. revert s. induction es as [|e es IH]; intros s; cbn [run app]; [unfold ok1; cbn [bind]; destruct (run es' s); reflexivity|]. rewrite bind_assoc. destruct (step e s) as [s1 l1| |]; cbn [bind]; [|reflexivity..]. rewrite IH. reflexivity. Qed.
Lemma bind_ok1 r : bind r ok1 = r.
Proof. destruct r; cbn [bind ok1]; rewrite ?app_nil_r; reflexivity. Qed.
Lemma run_snoc es e s : run (es ++ [e]) s = bind (run es s) (step e).
Proof. rewrite run_app. cbn [run]. destruct (run es s); cbn [bind]; [|reflexivity..]. rewrite bind_ok1. reflexivity. Qed.

Lemma init_R0 : R0 init a0.
Proof. split; [|reflexivity]. constructor; cbn; try reflexivity; try (intros; lia); try (intros; congruence). Qed.

(** What is true of a reachable pair of states. *)
Record hist (es : list ev) (obs : list obs) (s : st) (a : ast) : Prop := mkHist {
  hi_run : arun a0 es obs a;
  hi_rel : R0 s a;
  hi_timer : forall o c r h due, a_obj a o = Some (c, Some r) -> times c r h -> r_timer r = Some due ->
    exists es1 e es2 obs1 a1 l a2 ms, es = es1 ++ e :: es2 /\ arun a0 es1 obs1 a1 /\ astep a1 e l a2 /\ calm h a2 es2 a /\ arms a1 e h ms /\ due = a_lt a1 (r_loop r) + ms;
  hi_poll : forall o c r h rd wr, a_obj a o = Some (c, Some r) -> polls c r h -> r_poll r = Some (rd, wr) ->
    exists es1 e es2 obs1 a1 l a2, es = es1 ++ e :: es2 /\ arun a0 es1 obs1 a1 /\ astep a1 e l a2 /\ calm_fd h a2 es2 a /\ wishes a1 e h rd wr
}.

Lemma run_hist es : forall s obs, run es init = Next s obs -> exists a, hist es obs s a.
Proof.
  induction es as [|e es IH] using rev_ind; intros s obs E.
  - injection E as <- <-. exists a0. constructor; [constructor|exact init_R0|intros; discriminate|intros; discriminate].
  - rewrite run_snoc in E. destruct (run es init) as [s1 os1| |] eqn:E1; cbn [bind] in E; try discriminate E. destruct (IH _ _ eq_refl) as (a1 & [A R T P]).
    pose proof (sim s1 a1 e R) as SI. destruct (step e s1) as [s2 l| |]; try discriminate E. injection E as <- <-. destruct SI as (a2 & ST & R2). exists a2.
    assert (SG : single a1) by (eapply rel_single; exact (proj1 R)). constructor; [exact (arun_app _ _ _ _ _ _ _ A (arun_one _ _ _ _ ST))|exact R2| |].
    + intros o c r h due O TM D. destruct (origin _ _ _ _ _ _ _ _ _ SG ST O TM D) as [(ms & AR & DU)|(NA & NE & o1 & r1 & O1 & D1 & I1 & L1)].
      * exists es, e, [], os1, a1, l, a2, ms. repeat (split; [first [reflexivity|assumption|constructor]|]). exact DU.
      * destruct (T o1 c r1 h due O1 (times_eq _ _ _ _ I1 TM) D1) as (es1 & e1 & es2 & ob & b1 & k & b2 & ms & EQ & AA & BB & CC & DD & EE).
        exists es1, e1, (es2 ++ [e]), ob, b1, k, b2, ms. split; [rewrite EQ, <- app_assoc; reflexivity|]. split; [exact AA|]. split; [exact BB|]. split; [exact (calm_snoc _ _ _ _ _ _ _ CC ST NE NA)|]. split; [exact DD|]. rewrite <- L1. exact EE.
    + intros o c r h rd wr O TM D. destruct (origin_fd _ _ _ _ _ _ _ _ _ _ SG ST O TM D) as [W|(NA & NE & o1 & r1 & O1 & D1 & I1)].
      * exists es, e, [], os1, a1, l, a2. repeat (split; [first [reflexivity|assumption|constructor]|]). exact W.
      * destruct (P o1 c r1 h rd wr O1 (polls_eq _ _ _ _ I1 TM) D1) as (es1 & e1 & es2 & ob & b1 & k & b2 & EQ & AA & BB & CC & DD).
        exists es1, e1, (es2 ++ [e]), ob, b1, k, b2. split; [rewrite EQ, <- app_assoc; reflexivity|]. split; [exact AA|]. split; [exact BB|]. split; [exact (calm_fd_snoc _ _ _ _ _ _ _ CC ST NE NA)|]. exact DD.
Qed.

Lemma run_ub es : run es init = Ub -> exists es1 e es2 s obs a, es = es1 ++ e :: es2 /\ run es1 init = Next s obs /\ hist es1 obs s a /\ misuse a e /\ step e s = Ub.
Proof.
  induction es as [|e es IH] using rev_ind; intros E; [discriminate E|]. rewrite run_snoc in E. destruct (run es init) as [s1 os1| |] eqn:E1; cbn [bind] in E; try discriminate E.
  - destruct (run_hist _ _ _ E1) as (a & HI). pose proof (sim s1 a e (hi_rel _ _ _ _ HI)) as SI. destruct (step e s1) as [s2 l| |] eqn:ST; try discriminate E. exists es, e, [], s1, os1, a. auto.
  - destruct (IH eq_refl) as (es1 & e1 & es2 & s & ob & a & EQ & R). exists es1, e1, (es2 ++ [e]), s, ob, a. split; [rewrite EQ, <- app_assoc; reflexivity|exact R].
Qed.

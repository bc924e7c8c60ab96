(** C84-C87: the event classes. *)
From Coq Require Import Arith List Bool Lia.
From Verif Require Import EventModel EventSpec EventProofs EventHist.
Import ListNotations.

(** ** C84: an occurrence is reported to the object that holds the registration now *)

(** Whatever was done - moves, assignments, clears, failing constructors - the history
    is one of EventSpec, where every occurrence is reported to the one object that
    holds the registration, with its callback and its descriptor; and whatever
    EventSpec allows next happens (unless it is misuse).  Undefined behaviour comes
    from misuse only. *)
Theorem C84_owner : forall es s obs, run es init = Next s obs ->
  exists a, arun a0 es obs a /\
    (forall o o' c c' r r' h, a_obj a o = Some (c, Some r) -> a_obj a o' = Some (c', Some r') -> numbered c r h -> numbered c' r' h -> o = o') /\
    (forall e s' l, step e s = Next s' l -> exists a', astep a e l a') /\
    (forall e l a', astep a e l a' -> ~ internal e -> ~ misuse a e -> exists s', step e s = Next s' l) /\
    (forall e, step e s = Ub -> misuse a e).
Proof.
  intros es s obs E. destruct (run_hist _ _ _ E) as (a & [A R T P]). exists a. split; [exact A|]. pose proof (rel_single _ _ (proj1 R)) as SG. repeat split.
  - intros o o' c c' r r' h O O' N N'. assert (PT : forall c r h, numbered c r h -> exists x, In (h, x) (parts c r)).
    { clear. intros c r h [-> |(-> & ->)]; [apply part1|cbn; eexists; right; left; reflexivity]. }
    destruct (PT _ _ _ N) as (x & I), (PT _ _ _ N') as (x' & I'). exact (SG _ _ _ _ _ _ _ _ _ O O' I I').
  - intros e s' l S. pose proof (sim s a e R) as SI. rewrite S in SI. destruct SI as (a' & X & _). exists a'. exact X.
  - intros e l a' X NI NM. pose proof (sim s a e R) as SI. pose proof (not_off s a e l a' R X NI) as NO. destruct (step e s) as [s' l'| |]; [|contradiction|congruence].
    destruct SI as (a2 & X2 & _). exists s'. rewrite (label _ _ _ _ _ _ SG X X2). reflexivity.
  - intros e S. pose proof (sim s a e R) as SI. rewrite S in SI. exact SI.
Qed.

Theorem C84_no_ub : forall es, run es init = Ub ->
  exists es1 e es2 s obs a, es = es1 ++ e :: es2 /\ run es1 init = Next s obs /\ arun a0 es1 obs a /\ misuse a e.
Proof.
  intros es E. destruct (run_ub _ E) as (es1 & e & es2 & s & obs & a & EQ & RU & HI & MI & _). exists es1, e, es2, s, obs, a. split; [exact EQ|]. split; [exact RU|]. split; [exact (hi_run _ _ _ _ HI)|exact MI].
Qed.

(** Events of a descriptor are reported only as long as an add asks for them: the last
    add, not ended by del, clear, an error or a timeout. *)
Theorem C84_asked : forall es s obs h rd wr err s' obs', run es init = Next s obs -> step (EFire h rd wr err) s = Next s' obs' ->
  exists es1 e es2 obs1 a1 l a2 a mr mw, es = es1 ++ e :: es2 /\ arun a0 es1 obs1 a1 /\ astep a1 e l a2 /\ wishes a1 e h mr mw /\ calm_fd h a2 es2 a /\ asked rd wr err mr mw.
Proof.
  intros es s obs h rd wr err s' obs' E S. destruct (run_hist _ _ _ E) as (a & [A R T P]). pose proof (sim s a (EFire h rd wr err) R) as SI. rewrite S in SI. destruct SI as (a' & X & _). inversion X; subst.
  match goal with O : a_obj a ?o = Some (?c, Some ?r), PL : polls ?c ?r h, RP : r_poll ?r = Some (?mr, ?mw), K : asked _ _ _ _ _ |- _ => destruct (P o c r h mr mw O PL RP) as (es1 & e & es2 & ob & a1 & l & a2 & EQ & B1 & B2 & B3 & B4); exists es1, e, es2, ob, a1, l, a2, a, mr, mw; auto 10 end.
Qed.

(** A TimedFdEvent moved into a container, and moved again by assignment over a second
    one, whose registration is closed; a FdEvent; the callback running when the next is
    reported must have returned. *)
Definition demo84 : list ev :=
  [ENewTimed 1 0 30 5 true true; EAddTimed 1 true false 10; EMove 2 1; ENewTimed 3 0 31 6 true true; EAddTimed 3 true true 5; EAssign 3 2;
   ENew 4 CFd 1 32 7 true; EAddPoll 4 false true; EFire 0 true false false; ERet; EFire 4 false true false; ERet;
   ETick 10; EUpdate 0; EExpire 1; ERet; ESetCb 3 9; EAddTimed 3 false true 20; EFire 0 false true false].
Example C84_nonvacuous :
  match run demo84 init with
  | Next s obs => obs = [OCall 3 5 (AFd 30 true false false); OCall 4 7 (AFd 32 false true false); OCall 3 5 (ATimeout 30); OCall 3 9 (AFd 30 false true false)] /\
      s_obj s 1 <> None /\ s_obj s 2 <> None /\ h_st (s_h s 2) = Closing /\ h_st (s_h s 3) = Closing
  | _ => False
  end /\
  (exists s obs, run (demo84 ++ [ERet; EClear 1; EDestroy 2; EDestroy 1]) init = Next s obs) /\
  run (demo84 ++ [EAddPoll 4 true false; ERet; EClear 4; EAddPoll 4 true false]) init = Ub.
Proof. split; [vm_compute; repeat split; discriminate|]. split; [eexists; eexists; vm_compute; reflexivity|vm_compute; reflexivity]. Qed.
Print Assumptions C84_owner.
Print Assumptions C84_no_ub.
Print Assumptions C84_asked.

(** ** C85: a timer does not fire early *)

(** Measured with the time of the event loop: the report goes back to the last add (for
    a TimedFdEvent, or the last event of its descriptor), which was not ended by del,
    clear or an earlier report, and the time asked for has passed since. *)
Theorem C85_not_early_partial : forall es s obs h s' obs', run es init = Next s obs -> step (EExpire h) s = Next s' obs' ->
  exists es1 e es2 obs1 a1 l a2 a ms o c r, es = es1 ++ e :: es2 /\ arun a0 es1 obs1 a1 /\ astep a1 e l a2 /\ arms a1 e h ms /\ calm h a2 es2 a /\
    a_obj a o = Some (c, Some r) /\ times c r h /\ a_lt a1 (r_loop r) + ms <= a_lt a (r_loop r) /\ (forall k, a_lt a k = s_lt s k).
Proof.
  intros es s obs h s' obs' E S. destruct (run_hist _ _ _ E) as (a & [A R T P]). pose proof (sim s a (EExpire h) R) as SI. rewrite S in SI. destruct SI as (a' & X & _). inversion X; subst.
  match goal with O : a_obj a ?o = Some (?c, Some ?r), PL : times ?c ?r h, RP : r_timer ?r = Some ?due |- _ => destruct (T o c r h due O PL RP) as (es1 & e & es2 & ob & a1 & l & a2 & ms & EQ & B1 & B2 & B3 & B4 & B5); exists es1, e, es2, ob, a1, l, a2, a, ms, o, c, r end.
  repeat (split; [first [assumption|lia]|]). intros k. symmetry. apply (rel_lt _ _ (proj1 R)).
Qed.

(** Measured with the clock it does: add counts from the time the loop looked at the
    clock last.  9 ms of work, a timer for 10 ms, and it fires 1 ms later. *)
Definition state (r : out) : st := match r with Next s _ => s | _ => init end.
Theorem C85_early_refuted : exists es1 es2 s1 s2 s3 obs1 obs2 obs3, run es1 init = Next s1 obs1 /\ step (EAddTimer 1 10) s1 = Next s2 obs2 /\ run es2 s2 = Next s3 (obs3 ++ [OCall 1 7 ATimer]) /\ s_now s3 < s_now s1 + 10.
Proof.
  pose (s1 := state (run [ENew 1 CTimer 0 0 7 true; ETick 9] init)). pose (s2 := state (step (EAddTimer 1 10) s1)). pose (s3 := state (run [ETick 1; EUpdate 0; EExpire 0] s2)).
  exists [ENew 1 CTimer 0 0 7 true; ETick 9], [ETick 1; EUpdate 0; EExpire 0], s1, s2, s3, [], [], []. split; [vm_compute; reflexivity|]. split; [vm_compute; reflexivity|]. split; [vm_compute; reflexivity|]. apply Nat.ltb_lt. vm_compute. reflexivity.
Qed.

Definition demo85 : list ev := [ENew 1 CTimer 0 0 7 true; EAddTimer 1 5; ETick 3; EUpdate 0; EAddTimer 1 5; ETick 2; EUpdate 0].
Example C85_nonvacuous :
  (exists s obs, run demo85 init = Next s obs /\ step (EExpire 0) s = Off) /\
  (exists s obs s' obs', run (demo85 ++ [ETick 3; EUpdate 0]) init = Next s obs /\ step (EExpire 0) s = Next s' obs' /\ step (EExpire 0) (w_run None s') = Off).
Proof. split; [eexists; eexists; split; vm_compute; reflexivity|]. do 4 eexists. split; [vm_compute; reflexivity|]. split; vm_compute; reflexivity. Qed.
Print Assumptions C85_not_early_partial.
Print Assumptions C85_early_refuted.

(** ** C86: handles are freed *)

Definition init_ok (e : ev) : bool :=
  match e with
  | ENew _ _ _ _ _ ok => ok
  | ENewTimed _ _ _ _ ok ok' => ok && ok'
  | _ => true
  end.

Definition nolost (s : st) : Prop := forall h, h_st (s_h s h) <> Lost.
Definition keeps (r : out) : Prop := match r with Next s _ => nolost s | _ => True end.

Lemma nl_set_h h x s : nolost s -> h_st x <> Lost -> nolost (set_h h x s).
Proof. intros N X k. cbn [set_h w_h s_h]. unfold upd. destruct (Nat.eqb k h); auto. Qed.
Lemma nl_set_data h p s : nolost s -> nolost (set_data h p s).
Proof. intros N. apply nl_set_h; auto. cbn. apply N. Qed.
Lemma nl_set_on h p s : nolost s -> nolost (set_on h p s).
Proof. intros N. apply nl_set_h; auto. cbn. apply N. Qed.
Lemma nl_put o q s : nolost s -> nolost (put o q s).
Proof. exact (fun N => N). Qed.
Lemma nl_bind r k : keeps r -> (forall s, nolost s -> keeps (k s)) -> keeps (bind r k).
Proof. destruct r as [s l| |]; cbn [bind keeps]; auto. intros N K. specialize (K s N). destruct (k s); exact K. Qed.
Lemma nl_close h s : nolost s -> keeps (close h s).
Proof. intros N. unfold close. destruct (h_st (s_h s h)); cbn; auto. apply nl_set_h; [exact N|discriminate]. Qed.
Lemma nl_clear1 o s : nolost s -> keeps (clear1 o s).
Proof. intros N. unfold clear1. destruct (s_obj s o) as [q|]; [|exact I]. destruct (o_ev q); [|exact N]. apply nl_bind; [apply nl_close; exact N|]. intros s' N'. exact N'. Qed.
Lemma nl_clear2 o s : nolost s -> keeps (clear2 o s).
Proof. intros N. unfold clear2. destruct (s_obj s o) as [q|]; [|exact I]. destruct (o_ev2 q); [|exact N]. apply nl_bind; [apply nl_close; exact N|]. intros s' N'. exact N'. Qed.
Lemma nl_clear o s : nolost s -> keeps (clear o s).
Proof. intros N. unfold clear. destruct (s_obj s o) as [q|]; [|exact I]. destruct (o_cls q); try (apply nl_clear1; exact N). apply nl_bind; [apply nl_clear2; exact N|]. intros s' N'. apply nl_clear1. exact N'. Qed.
Lemma nl_destroy o s : nolost s -> keeps (destroy o s).
Proof. intros N. apply nl_bind; [apply nl_clear; exact N|]. intros s' N'. exact N'. Qed.
Lemma nl_fix1 o s : nolost s -> nolost (fix1 o s).
Proof. intros N. unfold fix1. destruct (s_obj s o) as [q|]; [|exact N]. destruct (o_ev q); [apply nl_set_data|]; exact N. Qed.
Lemma nl_fix2 o s : nolost s -> nolost (fix2 o s).
Proof. intros N. unfold fix2. destruct (s_obj s o) as [q|]; [|exact N]. destruct (o_ev2 q); [apply nl_set_data|]; exact N. Qed.
Lemma nl_fix_timed o s : nolost s -> keeps (fix_timed o s).
Proof. intros N. unfold fix_timed. destruct (s_obj s o) as [q|]; [|exact N]. destruct (o_ev q); [|exact N]. destruct (o_ev2 q); [|exact I]. apply nl_set_data, nl_set_data, N. Qed.
Lemma nl_fix_all o s : nolost s -> keeps (fix_all o s).
Proof. intros N. unfold fix_all. destruct (s_obj s o) as [q|]; [|exact N]. destruct (o_cls q); try (apply nl_fix1; exact N). apply nl_fix_timed, nl_fix2, nl_fix1, N. Qed.
Lemma nl_move o p s : nolost s -> keeps (move_new o p s).
Proof. intros N. unfold move_new. destruct (s_obj s p); [|exact I]. apply nl_fix_all. exact N. Qed.
Lemma nl_swap o p s : nolost s -> keeps (swap o p s).
Proof. intros N. unfold swap. destruct (s_obj s o); [|exact I]. destruct (s_obj s p); [|exact I]. apply nl_bind; [apply nl_fix_all; exact N|]. intros s' N'. apply nl_fix_all. exact N'. Qed.
Lemma nl_assign o p s : nolost s -> keeps (assign o p s).
Proof. intros N. unfold assign. destruct (Nat.eqb o p); [exact N|]. apply nl_bind; [apply nl_bind; [apply nl_move; exact N|]; intros; apply nl_swap; assumption|]. intros; apply nl_destroy; assumption. Qed.
Lemma nl_touch o s : nolost s -> keeps (touch o s).
Proof. intros N. unfold touch. destruct (s_run s); [destruct (Nat.eqb n o)|]; cbn; auto. Qed.
Lemma nl_call o x s : nolost s -> keeps (call o x s).
Proof. intros N. unfold call. destruct (s_obj s o) as [q|]; [destruct (o_cb q)|]; cbn; auto. Qed.
Lemma nl_new l p s : nolost s -> nolost (new_h l p true s).
Proof. intros N. unfold new_h. intros k. cbn [w_hn s_h]. apply nl_set_h; [exact N|discriminate]. Qed.

Lemma nl_step e s : nolost s -> init_ok e = true -> keeps (step e s).
Proof.
  intros N K. destruct e; cbn [step init_ok] in *.
  - subst ok. destruct (_ && _); [|exact I]. cbn. intros h. apply nl_new. exact N.
  - apply andb_prop in K. destruct K as (-> & ->). destruct (_ && _); [|exact I]. apply nl_bind; [|intros; assumption]. apply nl_fix_timed, nl_put, nl_new, nl_new, N.
  - destruct (free o s); [exact N|exact I].
  - destruct (free o s); [|exact I]. destruct (live p s); [|exact I]. apply nl_bind; [apply nl_touch, N|]. intros; apply nl_move; assumption.
  - destruct (live o s) as [q|]; [|exact I]. destruct (live p s) as [q'|]; [|exact I]. destruct (cls_eqb _ _); [|exact I]. destruct (Nat.eqb o p); [exact N|]. apply nl_bind; [apply nl_bind; [apply nl_touch, N|]; intros; apply nl_touch; assumption|]. intros; apply nl_assign; assumption.
  - destruct (live o s); [|exact I]. apply nl_bind; [apply nl_touch, N|]. intros; apply nl_clear; assumption.
  - destruct (live o s); [|exact I]. apply nl_bind; [apply nl_touch, N|]. intros s' N'; exact N'.
  - destruct (live o s) as [q|]; [|exact I]. destruct (o_cls q); try exact I. destruct (o_ev q); [apply nl_set_on, N|exact I].
  - destruct (live o s) as [q|]; [|exact I]. destruct (o_cls q); try exact I. destruct (o_ev q); [apply nl_set_on, N|exact I].
  - destruct (live o s) as [q|]; [|exact I]. destruct (o_cls q); try exact I. destruct (o_ev q); [apply nl_set_on, N|exact I].
  - destruct (live o s) as [q|]; [|exact I]. destruct (o_cls q); try exact I. destruct (o_ev q); [|exact I]. destruct (o_ev2 q); [|exact I]. apply nl_set_on, nl_set_on, nl_put, N.
  - destruct (live o s) as [q|]; [|exact I]. cbn [ok1 keeps]. assert (N1 : nolost (match o_ev2 q with Some h => set_on h None s | None => s end)) by (destruct (o_ev2 q); [apply nl_set_on|]; exact N). destruct (o_ev q); [apply nl_set_on|]; exact N1.
  - destruct (live o s); [|exact I]. apply nl_bind; [apply nl_touch, N|]. intros; apply nl_destroy; assumption.
  - exact N.
  - destruct (_ && _); [|exact I]. intros h. cbn [w_dead w_h s_h]. destruct (_ && _); [|apply N]. specialize (N h). destruct (h_st (s_h s h)) eqn:E; cbn; congruence.
  - exact N.
  - exact N.
  - destruct (s_run s); [exact I|]. destruct (h_st (s_h s h)); try exact I. destruct (h_on (s_h s h)) as [[mr mw timed| |]|]; try exact I. destruct (negb _); [exact I|]. destruct (if err then _ else _); [|exact I].
    assert (N1 : nolost (if err then set_on h None s else s)) by (destruct err; [apply nl_set_on|]; exact N). destruct (h_data (s_h s h)); [|exact I]. destruct (s_obj _ o) as [q|]; [|exact I].
    destruct timed; [|apply nl_call, N1]. destruct (o_ev2 q); [|exact I]. apply nl_call, nl_set_on, N1.
  - destruct (s_run s); [exact I|]. destruct (h_st (s_h s h)); try exact I. destruct (h_on (s_h s h)) as [[|due timed|]|]; try exact I. destruct (_ && _); [|exact I]. destruct (h_data (s_h s h)); [|exact I]. destruct (s_obj _ o) as [q|]; [|exact I].
    destruct timed; apply nl_call; [|apply nl_set_on, N]. destruct (o_ev q); [apply nl_set_on|]; apply nl_set_on, N.
  - destruct (s_run s); [exact I|]. destruct (h_st (s_h s h)); try exact I. destruct (h_on (s_h s h)) as [[| |once]|]; try exact I. destruct (Nat.ltb _ _); [|exact I]. destruct (h_data (s_h s h)); [|exact I]. apply nl_call. destruct once; [apply nl_set_on|]; exact N.
  - destruct (h_st (s_h s h)); try exact I. destruct (Nat.ltb _ _); [|exact I]. apply nl_set_h; [exact N|discriminate].
  - exact N.
Qed.
Lemma nl_run es : forall s, nolost s -> forallb init_ok es = true -> keeps (run es s).
Proof.
  induction es as [|e es IH]; intros s N F; cbn [run forallb] in *; [exact N|]. apply andb_prop in F. destruct F as (F1 & F2). apply nl_bind; [apply nl_step; assumption|]. intros s' N'. apply IH; assumption.
Qed.

(** If libuv never refuses to initialise a handle, every handle is held by a live
    object of a live context, or has been closed; those of a context that is gone have
    all been freed.  And an object's handles are open and know it: no handle is closed
    twice or used after it was freed. *)
Theorem C86_reclaimed_partial : forall es s obs, run es init = Next s obs ->
  (forall h, h < s_hn s ->
     match h_st (s_h s h) with
     | Open => exists o q, s_obj s o = Some q /\ (o_ev q = Some h \/ o_ev2 q = Some h) /\ s_dead s (h_loop (s_h s h)) = false
     | Closing => s_dead s (h_loop (s_h s h)) = false /\ exists s', step (EClosed h) s = Next s' [] /\ h_st (s_h s' h) = Freed
     | Freed => True
     | Lost => forallb init_ok es = false
     end) /\
  (forall o q h, s_obj s o = Some q -> o_ev q = Some h \/ o_ev2 q = Some h -> h < s_hn s /\ h_st (s_h s h) = Open /\ h_data (s_h s h) = PObj o /\ o_ec q = Some (h_loop (s_h s h))).
Proof.
  intros es s obs E. destruct (run_hist _ _ _ E) as (a & [A (R & Z) T P]). split.
  - intros h L. destruct (h_st (s_h s h)) eqn:H; [..|].
    + destruct (rel_open _ _ R h L H) as (o & c & r & x & O & I). pose proof (rel_obj _ _ R o) as K. rewrite O in K. destruct K as (Q & D & K). destruct (K _ _ I) as (_ & X). exists o, (concrete c r). split; [exact Q|]. split; [|rewrite X; exact D].
      destruct (part_ids _ _ _ _ I) as [-> |(-> & ->)]; [left; destruct c; reflexivity|right; reflexivity].
    + split; [|cbn [step]; rewrite H, (proj2 (Nat.ltb_lt _ _) L); eexists; split; [reflexivity|cbn; unfold upd; rewrite Nat.eqb_refl; reflexivity]]. destruct (s_dead s (h_loop (s_h s h))) eqn:D; [|reflexivity]. exfalso. destruct (rel_dead _ _ R _ D) as (_ & K). destruct (K h L eq_refl); congruence.
    + exact I.
    + destruct (forallb init_ok es) eqn:F; [|reflexivity]. exfalso. assert (N0 : nolost init) by (intros k; discriminate). pose proof (nl_run es init N0 F) as N. rewrite E in N. exact (N h H).
  - intros o q h Q V. pose proof (rel_obj _ _ R o) as K. destruct (a_obj a o) as [[c [r|]]|]; cbn [obj_ok] in K.
    + destruct K as (Q' & _ & K). rewrite Q in Q'. injection Q' as ->. assert (I : exists x, In (h, x) (parts c r)).
      { destruct V as [V|V]; cbn [concrete o_ev o_ev2] in V; [injection V as <-; apply part1|]. destruct c; cbn in V; try discriminate V. injection V as <-. cbn. eexists. right. left. reflexivity. }
      destruct I as (x & I). destruct (K _ _ I) as (L & X). rewrite X. cbn. auto.
    + destruct K as (q' & Q' & _ & V1 & V2). rewrite Q in Q'. injection Q' as <-. destruct V; congruence.
    + congruence.
Qed.

(** A handle that libuv refuses to initialise (uv_poll_init does for an invalid
    descriptor) is never freed: the exception leaves the constructor, so no destructor
    runs, and the loop does not know the handle. *)
Theorem C86_failed_init_refuted : exists es s obs h, run es init = Next s obs /\ (forall o, s_obj s o = None) /\ s_dead s 0 = true /\ h < s_hn s /\ h_loop (s_h s h) = 0 /\ h_st (s_h s h) <> Freed.
Proof.
  exists [ENew 1 CFd 0 99 5 false; EDrop 0; EDie 0]. do 2 eexists. exists 0. split; [reflexivity|]. split; [reflexivity|]. split; [reflexivity|]. split; [apply Nat.ltb_lt; reflexivity|]. split; [reflexivity|discriminate].
Qed.

Example C86_nonvacuous :
  (exists s obs, run (demo84 ++ [ERet; EDestroy 3]) init = Next s obs /\ h_st (s_h s 0) = Closing /\ h_st (s_h s 1) = Closing /\ h_st (s_h s 4) = Open /\ s_hn s = 5) /\
  (exists s obs, run (demo84 ++ [ERet; EDestroy 1; EDestroy 2; EDestroy 3; EDrop 0; EClosed 0; EDie 0]) init = Next s obs /\ forallb (fun h => match h_st (s_h s h) with Freed => true | _ => false end) (List.seq 0 4) = true /\ s_dead s 0 = true).
Proof.
  split; [exists (state (run (demo84 ++ [ERet; EDestroy 3]) init))|exists (state (run (demo84 ++ [ERet; EDestroy 1; EDestroy 2; EDestroy 3; EDrop 0; EClosed 0; EDie 0]) init))]; eexists; (split; [vm_compute; reflexivity|]).
  - split; [vm_compute; reflexivity|]. split; [vm_compute; reflexivity|]. split; vm_compute; reflexivity.
  - split; vm_compute; reflexivity.
Qed.
Print Assumptions C86_reclaimed_partial.
Print Assumptions C86_failed_init_refuted.

(** ** C87: a callback may do to its own event what other code may *)

(** Removing and re-adding its own event, and anything done to other events, is
    defined. *)
Theorem C87_self_partial : forall es s obs o q, run es init = Next s obs -> s_run s = Some o -> s_obj s o = Some q ->
  (exists s', step (EDel o) s = Next s' []) /\
  (o_ev q <> None -> forall rd wr ms once, exists e s', In e [EAddPoll o rd wr; EAddTimer o ms; EAddSig o once; EAddTimed o rd wr ms] /\ step e s = Next s' []) /\
  (forall p q', p <> o -> p <> 0 -> s_obj s p = Some q' -> exists s' s'', step (EClear p) s = Next s' [] /\ step (EDestroy p) s = Next s'' []).
Proof.
  intros es s obs o q E RU Q. destruct (run_hist _ _ _ E) as (a & [A RR T P]). pose proof RR as (R & Z). pose proof (rel_single _ _ R) as SG.
  assert (GO : forall e l a', astep a e l a' -> ~ internal e -> ~ misuse a e -> exists s', step e s = Next s' l).
  { intros e l a' X NI NM. pose proof (sim s a e RR) as SI. pose proof (not_off s a e l a' RR X NI) as NO. destruct (step e s) as [s' l'| |]; [|contradiction|congruence].
    destruct SI as (a2 & X2 & _). exists s'. rewrite (label _ _ _ _ _ _ SG X X2). reflexivity. }
  assert (OB : forall p q', s_obj s p = Some q' -> exists c r, a_obj a p = Some (c, r)).
  { intros p q' Q'. pose proof (rel_obj _ _ R p) as K. destruct (a_obj a p) as [[c r]|]; [eauto|cbn in K; congruence]. }
  assert (AR : a_run a = Some o) by (rewrite <- (rel_run _ _ R); exact RU).
  split; [|split].
  - destruct (OB _ _ Q) as (c & r & O). eapply GO; [exact (A_del a o c r O)|exact (fun x => x)|exact (fun x => x)].
  - intros V rd wr ms once. destruct (OB _ _ Q) as (c & [r|] & O).
    2: { exfalso. pose proof (rel_obj _ _ R o) as K. rewrite O in K. destruct K as (q' & Q' & _ & V1 & _). congruence. }
    assert (NM : forall c', a_obj a o <> Some (c', None)) by (intros c'; congruence). destruct c.
    + exists (EAddPoll o rd wr). edestruct (GO (EAddPoll o rd wr)) as (s' & S); [exact (A_add_poll a o r rd wr O)|exact (fun x => x)|intros (c' & X); exact (NM c' X)|]. exists s'. split; [left; reflexivity|exact S].
    + exists (EAddTimer o ms). edestruct (GO (EAddTimer o ms)) as (s' & S); [exact (A_add_timer a o r ms O)|exact (fun x => x)|intros (c' & X); exact (NM c' X)|]. exists s'. split; [right; left; reflexivity|exact S].
    + exists (EAddSig o once). edestruct (GO (EAddSig o once)) as (s' & S); [exact (A_add_sig a o r once O)|exact (fun x => x)|intros (c' & X); exact (NM c' X)|]. exists s'. split; [right; right; left; reflexivity|exact S].
    + exists (EAddTimed o rd wr ms). edestruct (GO (EAddTimed o rd wr ms)) as (s' & S); [exact (A_add_timed a o r rd wr ms O)|exact (fun x => x)|intros (c' & X); exact (NM c' X)|]. exists s'. split; [right; right; right; left; reflexivity|exact S].
  - intros p q' N N0 Q'. destruct (OB _ _ Q') as (c & r & O). edestruct (GO (EClear p)) as (s' & S); [exact (A_clear a p c r O)|exact (fun x => x)|cbn; congruence|]. edestruct (GO (EDestroy p)) as (s'' & S'); [exact (A_destroy a p c r O)|exact (fun x => x)|cbn; congruence|]. exists s', s''. auto.
Qed.

(** Clearing, moving, replacing or destroying its own event, or giving it another
    callback, destroys the running function. *)
Theorem C87_self_clear_refuted : exists es s obs o, run es init = Next s obs /\ s_run s = Some o /\
  step (EClear o) s = Ub /\ step (EDestroy o) s = Ub /\ step (ESetCb o 6) s = Ub /\ step (EMove 9 o) s = Ub /\ step (EAssign 2 o) s = Ub /\ step (EAssign o 2) s = Ub.
Proof.
  pose (es := [ENew 1 CTimer 0 0 7 true; EDefault 2 CTimer; EAddTimer 1 2; ETick 2; EUpdate 0; EExpire 0]).
  exists es, (state (run es init)), [OCall 1 7 ATimer], 1. split; [vm_compute; reflexivity|]. split; [vm_compute; reflexivity|]. split; [vm_compute; reflexivity|]. split; [vm_compute; reflexivity|]. split; [vm_compute; reflexivity|]. split; [vm_compute; reflexivity|]. split; vm_compute; reflexivity.
Qed.

Example C87_nonvacuous : exists s obs q, run demo84 init = Next s obs /\ s_run s = Some 3 /\ s_obj s 3 = Some q /\ o_ev q <> None /\
  exists s' obs', run [EDel 3; EAddTimed 3 true false 5; EClear 4; ERet; EFire 0 true false false] s = Next s' obs' /\ obs' = [OCall 3 9 (AFd 30 true false false)].
Proof. do 3 eexists. split; [vm_compute; reflexivity|]. split; [vm_compute; reflexivity|]. split; [vm_compute; reflexivity|]. split; [discriminate|]. do 2 eexists. split; vm_compute; reflexivity. Qed.
Print Assumptions C87_self_partial.
Print Assumptions C87_self_clear_refuted.

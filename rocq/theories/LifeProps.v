(** Properties of the life of a pool and its descriptors (LifeModel). *)
From Coq Require Import Arith List Bool Lia Permutation.
From Verif Require Import LifeModel.
Import ListNotations.

(** ** Specification, over what can be seen: who holds a descriptor *)
Inductive who := Free | Pool | Rest.
Definition upd (h : nat -> who) (e : ev) : nat -> who :=
  match e with
  | EOpen fd => fun x => if x =? fd then Pool else h x
  | EOther fd => fun x => if x =? fd then Rest else h x
  | EClose fd | EOtherClose fd => fun x => if x =? fd then Free else h x
  | _ => h
  end.
Definition holder (tr : list ev) : nat -> who := fold_left upd tr (fun _ => Free).

(** Ports bound: by which descriptor. *)
Definition bupd (b : list (nat * nat)) (e : ev) : list (nat * nat) :=
  match e with
  | EBound fd p => (fd, p) :: b
  | EClose fd => filter (fun x => negb (fst x =? fd)) b
  | _ => b
  end.
Definition bound (tr : list ev) : list (nat * nat) := fold_left bupd tr [].

(** A socket was obtained, but one of the calls that prepare it failed. *)
Definition late (l : label) : bool :=
  match l with
  | LAccept a => match a_sock a with Some _ => negb (a_opt a && a_fcntl a && a_new a) | None => false end
  | LConnect a | LDial a => match c_sock a with Some _ => negb (c_opt a && c_fcntl a && c_new a) | None => false end
  | _ => false
  end.

(** Answers given to calls; calls made. *)
Definition answer (e : ev) : list call := match e with ERet c | EThrow c => [c] | _ => [] end.
Definition made (l : label) : list call := match l with LCall c => [c] | _ => [] end.
Definition listened (e : ev) : list nat := match e with ERet (CListen p) | EThrow (CListen p) => [p] | _ => [] end.

(** ** Runs *)
Lemma own_app a : forall o b, own o (a ++ b) = own (own o a) b.
Proof. induction a as [|e a IH]; intros o b; [reflexivity|]. destruct e; cbn [own app]; apply IH. Qed.

Lemma run_app l1 : forall l2 o s s2 tr, run (l1 ++ l2) o s = Some (s2, tr) ->
  exists s1 t1 t2, run l1 o s = Some (s1, t1) /\ run l2 (own o t1) s1 = Some (s2, t2) /\ tr = t1 ++ t2.
Proof.
  induction l1 as [|a l1 IH]; intros l2 o s s2 tr R.
  - exists s, [], tr. repeat split; assumption.
  - cbn [app run] in R |- *. destruct (step a o s) as [[s1 e]|] eqn:Q; [|discriminate].
    destruct (run (l1 ++ l2) (own o e) s1) as [[s3 f]|] eqn:R1; [|discriminate].
    injection R as <- <-.
    destruct (IH _ _ _ _ _ R1) as (sa & t1 & t2 & H1 & H2 & ->).
    exists sa, (e ++ t1), t2. rewrite H1. split; [reflexivity|]. rewrite own_app. split; [exact H2|]. apply app_assoc.
Qed.

(** ** Invariant *)
Record J (op o : list nat) (h : nat -> who) (L : list nat) : Prop := {
  J_nd : NoDup L; J_ndo : NoDup o;
  J_in : forall fd, In fd o <-> In fd L;
  J_h : forall fd, In fd o <-> h fd = Pool;
  J_op : forall fd, In fd op <-> h fd <> Free }.

Lemma in_drop fd l x : In x (drop fd l) <-> In x l /\ x <> fd.
Proof.
  unfold drop. rewrite filter_In. split; intros [A B]; split; auto.
  - destruct (Nat.eqb_spec x fd); [discriminate|assumption].
  - destruct (Nat.eqb_spec x fd); [contradiction|reflexivity].
Qed.

Lemma nodup_filter {A} (f : A -> bool) l : NoDup l -> NoDup (filter f l).
Proof. intros N. apply NoDup_filter. exact N. Qed.

Lemma J_perm op o h L L' : J op o h L -> Permutation L L' -> J op o h L'.
Proof.
  intros [A B C D E] P. constructor; auto.
  - eapply Permutation_NoDup; eauto.
  - intros fd. rewrite C. split; apply Permutation_in; [exact P|apply Permutation_sym, P].
Qed.

Lemma J_open op o h L L' fd : J op o h L -> ~ In fd op -> Permutation (fd :: L) L' ->
  h fd = Free /\ J (fd :: op) (fd :: o) (upd h (EOpen fd)) L'.
Proof.
  intros [A B C D E] N P.
  assert (F : h fd = Free) by (destruct (h fd) eqn:Q; auto; exfalso; apply N, E; rewrite Q; discriminate).
  assert (No : ~ In fd o) by (rewrite D, F; discriminate).
  split; [exact F|]. eapply J_perm; [|exact P]. constructor.
  - constructor; [|exact A]. rewrite <- C. exact No.
  - constructor; assumption.
  - intros x. cbn [In]. rewrite C. reflexivity.
  - intros x. cbn [In upd]. destruct (Nat.eqb_spec x fd) as [->|X]; [split; auto|]. rewrite <- D. split; [intros [Y|Y]; [congruence|exact Y]|auto].
  - intros x. cbn [In upd]. destruct (Nat.eqb_spec x fd) as [->|X]; [split; [discriminate|auto]|]. rewrite <- E. split; [intros [Y|Y]; [congruence|exact Y]|auto].
Qed.

Lemma J_close op o h L L' fd : J op o h L -> Permutation L (fd :: L') ->
  h fd = Pool /\ J (drop fd op) (drop fd o) (upd h (EClose fd)) L'.
Proof.
  intros HJ P. apply (J_perm _ _ _ _ _ HJ) in P as [A B C D E]. clear HJ L.
  apply NoDup_cons_iff in A as [A0 A].
  split; [apply D, C; left; reflexivity|]. constructor.
  - exact A.
  - apply nodup_filter, B.
  - intros x. rewrite in_drop, C. cbn [In]. split; [intros [[X|X] Y]; [congruence|exact X]|].
    intros X. split; [right; exact X|intros ->; contradiction].
  - intros x. rewrite in_drop, D. cbn [upd]. destruct (Nat.eqb_spec x fd) as [->|X]; [split; [intros [_ K]; congruence|discriminate]|]. split; [intros [K _]; exact K|auto].
  - intros x. rewrite in_drop, E. cbn [upd]. destruct (Nat.eqb_spec x fd) as [->|X]; [split; [intros [_ K]; congruence|congruence]|]. split; [intros [K _]; exact K|auto].
Qed.

Lemma J_other op o h L fd : J op o h L -> ~ In fd op -> h fd = Free /\ J (fd :: op) o (upd h (EOther fd)) L.
Proof.
  intros [A B C D E] N.
  assert (F : h fd = Free) by (destruct (h fd) eqn:Q; auto; exfalso; apply N, E; rewrite Q; discriminate).
  split; [exact F|]. constructor; auto.
  - intros x. cbn [upd]. destruct (Nat.eqb_spec x fd) as [->|X]; [|apply D]. rewrite D, F. split; discriminate.
  - intros x. cbn [In upd]. destruct (Nat.eqb_spec x fd) as [->|X]; [split; [discriminate|auto]|]. rewrite <- E. split; [intros [Y|Y]; [congruence|exact Y]|auto].
Qed.

Lemma J_otherclose op o h L fd : J op o h L -> ~ In fd o -> In fd op -> h fd = Rest /\ J (drop fd op) o (upd h (EOtherClose fd)) L.
Proof.
  intros [A B C D E] N M. rewrite D in N. rewrite E in M.
  assert (R : h fd = Rest) by (destruct (h fd); congruence).
  split; [exact R|]. constructor; auto.
  - intros x. cbn [upd]. destruct (Nat.eqb_spec x fd) as [->|X]; [|apply D]. rewrite D, R. split; discriminate.
  - intros x. rewrite in_drop, E. cbn [upd]. destruct (Nat.eqb_spec x fd) as [->|X]; [split; [intros [_ K]; congruence|congruence]|]. split; [intros [K _]; exact K|auto].
Qed.

(** Every event is allowed by who holds the descriptor. *)
Definition fits (h : nat -> who) (e : ev) : Prop :=
  match e with
  | EOpen fd | EOther fd => h fd = Free
  | EClose fd => h fd = Pool
  | EOtherClose fd => h fd = Rest
  | _ => True
  end.
Fixpoint good (h : nat -> who) (tr : list ev) : Prop :=
  match tr with [] => True | e :: tr => fits h e /\ good (upd h e) tr end.
Lemma good_app a : forall h b, good h (a ++ b) <-> good h a /\ good (fold_left upd a h) b.
Proof. induction a as [|e a IH]; intros h b; cbn [app good fold_left]; [tauto|]. rewrite IH. tauto. Qed.

Definition lfds (s : st) : list nat := match s_lfd s with Some fd => [fd] | None => [] end.
Definition cfds (s : st) : list nat := if running s then map fst (s_pool s) else [].

Record Inv (s : st) (o : list nat) (h : nat -> who) (b : list (nat * nat)) (p : option nat) (lk : list nat) : Prop := {
  I_j : J (s_open s) o h (lfds s ++ cfds s ++ lk);
  I_idle : s_sys s = Idle -> s_pool s = [];
  I_gone : s_sys s = Gone -> s_lfd s = None;
  I_b : b = [] \/ exists fd q, b = [(fd, q)] /\ s_lfd s = Some fd /\ p = Some q }.

Lemma is_open_false s fd : is_open s fd = false -> ~ In fd (s_open s).
Proof.
  intros E H. unfold is_open in E. assert (X : existsb (Nat.eqb fd) (s_open s) = true).
  { apply existsb_exists. exists fd. split; [exact H|apply Nat.eqb_refl]. }
  congruence.
Qed.

Definition pupd (p : option nat) (e : ev) : option nat := match listened e with q :: _ => Some q | [] => p end.

Definition After (s' : st) (o : list nat) h b p (lk : list nat) (e : list ev) (n : nat) : Prop :=
  good h e /\ exists lk', Inv s' (own o e) (fold_left upd e h) (fold_left bupd e b) (fold_left pupd e p) lk' /\ length lk' = n + length lk.

Lemma filter_id {A} (f : A -> bool) l : (forall x, In x l -> f x = true) -> filter f l = l.
Proof.
  induction l as [|a l IH]; intros H; [reflexivity|]. cbn [filter]. rewrite (H a (or_introl eq_refl)).
  f_equal. apply IH. intros x X. apply H. right. exact X.
Qed.

Lemma unlisten_ok s o h b p lk s' e : Inv s o h b p lk -> unlisten s = (s', e) ->
  good h e /\ Inv s' (own o e) (fold_left upd e h) [] (fold_left pupd e p) lk /\ s_lfd s' = None /\ fold_left bupd e b = []
  /\ s_sys s' = s_sys s /\ s_pool s' = s_pool s /\ s_wait s' = s_wait s.
Proof.
  intros [HJ H1 H2 HB] U. unfold unlisten in U. destruct (s_lfd s) as [fd|] eqn:F.
  - injection U as <- <-. unfold lfds in HJ. rewrite F in HJ.
    destruct (J_close _ _ _ _ (cfds s ++ lk) fd HJ) as [P JJ]; [reflexivity|].
    cbn [good fits fold_left own]. split; [auto|]. split; [|split; [reflexivity|]].
    + constructor; cbn; auto.
    + split; [|auto]. destruct HB as [->|(x & q & -> & E & _)]; [reflexivity|]. injection E as ->. cbn [bupd filter fst].
      rewrite Nat.eqb_refl. reflexivity.
  - injection U as <- <-. assert (B0 : b = []) by (destruct HB as [->|(x & q & _ & E & _)]; [reflexivity|discriminate E]).
    subst b. split; [exact I|]. split; [|auto]. constructor; cbn [own fold_left]; auto.
Qed.

Lemma listen_ok s o h b p lk q a s' e : s_sys s = Running -> Inv s o h b p lk -> do_listen q a s = Some (s', e) -> After s' o h b p lk e 0.
Proof.
  intros RU HI D. unfold do_listen in D. destruct (unlisten s) as [s1 e1] eqn:U.
  destruct (unlisten_ok _ _ _ _ _ _ _ _ HI U) as (G & HI1 & L0 & B0 & S0 & P0 & W0).
  destruct HI1 as [HJ H1 H2 HB]. unfold lfds in HJ. rewrite L0 in HJ. cbn [app] in HJ.
  destruct (l_sock a) as [fd|].
  2:{ injection D as <- <-. split.
      - rewrite good_app. split; [exact G|cbn [good fits]; auto].
      - exists lk. split; [|reflexivity]. rewrite own_app, !fold_left_app, B0. cbn [own fold_left upd bupd]. constructor; cbn; auto. }
  destruct (is_open s1 fd) eqn:O; [discriminate|]. apply is_open_false in O.
  destruct (J_open _ _ _ _ (fd :: cfds s1 ++ lk) fd HJ O) as [F JJ]; [reflexivity|].
  assert (N1 : s_sys s1 <> Idle) by congruence. assert (N2 : s_sys s1 <> Gone) by congruence.
  assert (K : forall c b', s' = set_listen (Some fd) b' (kopen fd s1) -> forall f, e = e1 ++ EOpen fd :: f ->
     (f = [EThrow c] \/ f = [EBound fd q; EThrow c] \/ f = [EBound fd q; EReady fd q; ERet c]) -> c = CListen q -> After s' o h b p lk e 0).
  { intros c b' -> f -> Hf ->. split.
    - rewrite good_app. split; [exact G|]. cbn [good fits]. split; [exact F|]. destruct Hf as [->|[->| ->]]; cbn [good fits]; auto.
    - exists lk. split; [|reflexivity]. rewrite own_app, !fold_left_app, B0.
      constructor; [|cbn; congruence|cbn; congruence|].
      + destruct Hf as [->|[->| ->]]; exact JJ.
      + destruct Hf as [->|[->| ->]]; cbn; [auto|right; eauto|right; eauto]. }
  destruct (negb (l_opt a) || negb (l_fcntl a)).
  { injection D as <- <-. eapply K; [reflexivity| |left; reflexivity|reflexivity]. rewrite <- app_assoc. reflexivity. }
  destruct (negb (l_bind a)).
  { injection D as <- <-. eapply K; [reflexivity| |left; reflexivity|reflexivity]. rewrite <- app_assoc. reflexivity. }
  destruct (negb (l_listen a) || negb (l_ev a)); injection D as <- <-.
  - eapply K; [reflexivity| |right; left; reflexivity|reflexivity]. rewrite <- !app_assoc. reflexivity.
  - eapply K; [reflexivity| |right; right; reflexivity|reflexivity]. rewrite <- !app_assoc. reflexivity.
Qed.

Lemma leak_ok s o h b p lk fd e : Inv s o h b p lk -> ~ In fd (s_open s) -> (e = EErr \/ e = EThrow CConnect) -> After (kopen fd s) o h b p lk [EOpen fd; e] 1.
Proof.
  intros [HJ H1 H2 HB] O He.
  destruct (J_open _ _ _ _ (lfds s ++ cfds s ++ fd :: lk) fd HJ O) as [F JJ].
  { rewrite !app_assoc. apply Permutation_middle. }
  split; [destruct He as [-> | ->]; cbn [good fits]; auto|].
  exists (fd :: lk). split; [|reflexivity]. destruct He as [-> | ->]; constructor; cbn; auto.
Qed.

Lemma add_ok s o h b p lk fd k f : s_sys s = Running -> Inv s o h b p lk -> ~ In fd (s_open s) ->
  (f = [] \/ f = [EErr] \/ f = [EThrow CConnect] \/ f = [ERet CConnect]) ->
  After (set_pool (s_pool s ++ [(fd, k)]) (kopen fd s)) o h b p lk (EOpen fd :: f) 0.
Proof.
  intros R [HJ H1 H2 HB] O Hf.
  destruct (J_open _ _ _ _ (lfds s ++ map fst (s_pool s ++ [(fd, k)]) ++ lk) fd HJ O) as [F JJ].
  { unfold cfds, running. rewrite R, map_app. cbn [map fst]. rewrite <- !app_assoc. cbn [app]. rewrite !app_assoc. apply Permutation_middle. }
  split; [destruct Hf as [->|[->|[->| ->]]]; cbn [good fits]; auto|].
  exists lk. split; [|reflexivity].
  assert (X : Inv (set_pool (s_pool s ++ [(fd, k)]) (kopen fd s)) (fd :: o) (upd h (EOpen fd)) b p lk).
  { constructor; [|cbn; congruence|cbn; congruence|exact HB]. unfold cfds, lfds, running. cbn. rewrite R. exact JJ. }
  destruct Hf as [->|[->|[->| ->]]]; exact X.
Qed.

Lemma connect_ok s o h b p lk a s' e : s_sys s = Running -> Inv s o h b p lk -> do_connect a s = Some (s', e) ->
  After s' o h b p lk e (if late (LConnect a) then 1 else 0) /\
  After s' o h b p lk (map (fun x => match x with EThrow _ => EErr | _ => x end) (filter (fun x => match x with ERet _ => false | _ => true end) e)) (if late (LDial a) then 1 else 0).
Proof.
  intros R HI D. unfold do_connect in D. cbn [late]. destruct (c_sock a) as [fd|].
  2:{ injection D as <- <-. split; (split; [cbn; auto|]; exists lk; split; [|reflexivity]; destruct HI as [HJ H1 H2 HB]; constructor; cbn; auto). }
  destruct (is_open s fd) eqn:O; [discriminate|]. apply is_open_false in O.
  destruct (c_opt a), (c_fcntl a), (c_new a); cbn [negb orb andb] in D |- *;
    try (injection D as <- <-; cbn [filter map]; split; apply leak_ok; auto).
  destruct (c_conn a && negb (c_ev a)); injection D as <- <-; cbn [filter map]; split; apply (add_ok s); auto.
Qed.

Lemma accept_ok s o h b p lk a s' e : s_sys s = Running -> Inv s o h b p lk -> do_accept a s = Some (s', e) -> After s' o h b p lk e (if late (LAccept a) then 1 else 0).
Proof.
  intros R HI D. unfold do_accept in D. cbn [late]. destruct (a_sock a) as [fd|].
  2:{ injection D as <- <-. split; [cbn; auto|]. exists lk. split; [|reflexivity]. destruct HI as [HJ H1 H2 HB]. constructor; cbn; auto. }
  destruct (is_open s fd) eqn:O; [discriminate|]. apply is_open_false in O.
  destruct (a_opt a), (a_fcntl a), (a_new a); cbn [negb orb andb] in D |- *;
    try (injection D as <- <-; apply leak_ok; auto).
  injection D as <- <-. apply (add_ok s); auto.
Qed.

Lemma close_all_ok l : forall s o h b p lk s' e, s_sys s <> Idle -> s_sys s <> Gone ->
  J (s_open s) o h (lfds s ++ l ++ lk) -> running s = false ->
  (b = [] \/ exists fd q, b = [(fd, q)] /\ s_lfd s = Some fd /\ p = Some q) ->
  close_all l s = (s', e) -> After s' o h b p lk e 0 /\ s_sys s' = s_sys s /\ s_lfd s' = s_lfd s /\ s_wait s' = s_wait s.
Proof.
  induction l as [|fd l IH]; intros s o h b p lk s' e N1 N2 HJ RU HB C.
  - injection C as <- <-. split; [|auto]. split; [exact I|]. exists lk. split; [|reflexivity].
    constructor; [|congruence|congruence|exact HB]. unfold cfds. rewrite RU. exact HJ.
  - cbn [close_all] in C. destruct (close_all l (kclose fd s)) as [s1 f] eqn:C1. injection C as <- <-.
    destruct (J_close _ _ _ _ (lfds s ++ l ++ lk) fd HJ) as [P JJ].
    { symmetry. apply Permutation_middle. }
    assert (HB' : bupd b (EClose fd) = [] \/ exists x q, bupd b (EClose fd) = [(x, q)] /\ s_lfd (kclose fd s) = Some x /\ p = Some q).
    { destruct HB as [->|(x & q & -> & E & Q)]; [left; reflexivity|]. cbn [bupd filter fst]. destruct (x =? fd); cbn; [auto|right; eauto]. }
    destruct (IH (kclose fd s) _ _ _ p lk _ _ N1 N2 JJ RU HB' C1) as [[G (lk' & HI & Le)] (S1 & S2 & S3)].
    split; [|auto]. split; [cbn [good fits]; auto|]. exists lk'. split; [exact HI|exact Le].
Qed.

Lemma stop_ok s o h b p lk s' e : Inv s o h b p lk -> stop_workers s = (s', e) -> After s' o h b p lk e 0 /\ s_lfd s' = s_lfd s /\ s_wait s' = s_wait s /\ running s' = false /\ (s_sys s' = Idle <-> s_sys s = Idle) /\ (s_sys s' = Gone <-> s_sys s = Gone).
Proof.
  intros HI C. unfold stop_workers in C. destruct (s_sys s) eqn:R.
  2:{ destruct HI as [HJ H1 H2 HB]. unfold cfds, running in HJ. rewrite R in HJ.
      destruct (close_all_ok (map fst (s_pool s)) (set_sys Stopped s) o h b p lk s' e) as [A (S1 & S2 & S3)]; try (cbn; discriminate); auto.
      split; [exact A|]. split; [exact S2|]. split; [exact S3|]. unfold running. rewrite S1. cbn. repeat split; congruence. }
  all: injection C as <- <-; split; [split; [exact I|]; exists lk; split; [exact HI|reflexivity]|];
    repeat split; auto; unfold running; rewrite ?R; auto.
Qed.

Lemma after_app s1 s2 o h b p lk e f n m :
  After s1 o h b p lk e n ->
  (forall lk1, Inv s1 (own o e) (fold_left upd e h) (fold_left bupd e b) (fold_left pupd e p) lk1 -> After s2 (own o e) (fold_left upd e h) (fold_left bupd e b) (fold_left pupd e p) lk1 f m) ->
  After s2 o h b p lk (e ++ f) (m + n).
Proof.
  intros [G (lk1 & HI & L1)] K. destruct (K lk1 HI) as [G2 (lk2 & HI2 & L2)].
  split; [rewrite good_app; split; assumption|]. exists lk2. rewrite own_app, !fold_left_app. split; [exact HI2|]. lia.
Qed.

Lemma pool_stop_ok s o h b p lk s' e : Inv s o h b p lk -> pool_stop s = (s', e) -> After s' o h b p lk e 0 /\ s_lfd s' = None /\ s_wait s' = s_wait s /\ running s' = false /\ (s_sys s' = Idle <-> s_sys s = Idle).
Proof.
  intros HI C. unfold pool_stop in C. destruct (stop_workers s) as [s1 e1] eqn:S.
  destruct (stop_ok _ _ _ _ _ _ _ _ HI S) as (A & L & W & R & Y & Y2).
  destruct (s_lfd s1) as [fd|] eqn:F.
  2:{ injection C as <- <-. auto. }
  injection C as <- <-. split; [|cbn; auto].
  change 0 with (0 + 0). eapply after_app; [exact A|]. intros lk1 [HJ H1 H2 HB].
  unfold lfds in HJ. rewrite F in HJ.
  destruct (J_close _ _ _ _ (cfds s1 ++ lk1) fd HJ) as [P JJ]; [reflexivity|].
  split; [cbn [good fits]; auto|]. exists lk1. split; [|reflexivity]. constructor; cbn [own fold_left s_sys s_lfd set_listen]; auto.
  destruct HB as [->|(x & q & -> & E & _)]; [left; reflexivity|]. rewrite E in F. injection F as <-. cbn [bupd filter fst]. rewrite Nat.eqb_refl. left. reflexivity.
Qed.

Lemma filter_map_fst fd (l : list conn) : map fst (filter (fun c => negb (fst c =? fd)) l) = drop fd (map fst l).
Proof. induction l as [|c l IH]; [reflexivity|]. cbn [filter map drop]. destruct (fst c =? fd); cbn [negb map]; [exact IH|f_equal; exact IH]. Qed.

Lemma nd_r {A} (a b : list A) : NoDup (a ++ b) -> NoDup b.
Proof. induction a as [|x a IH]; [auto|]. cbn [app]. intros H. apply NoDup_cons_iff in H as [_ H]. auto. Qed.
Lemma nd_l {A} (a b : list A) : NoDup (a ++ b) -> NoDup a.
Proof. intros H. apply (nd_r b a). eapply Permutation_NoDup; [apply Permutation_app_comm|exact H]. Qed.

Lemma perm_drop fd l : NoDup l -> In fd l -> Permutation l (fd :: drop fd l).
Proof.
  intros N H. apply NoDup_Permutation; [exact N| |].
  - constructor; [rewrite in_drop; tauto|apply nodup_filter, N].
  - intros x. cbn [In]. rewrite in_drop. destruct (Nat.eq_dec x fd) as [->|X]; [tauto|]. split; [auto|]. intros [Y|[Y _]]; [congruence|exact Y].
Qed.

Theorem step_ok s o h b p lk l s' e : Inv s o h b p lk -> step l o s = Some (s', e) -> After s' o h b p lk e (if late l then 1 else 0).
Proof.
  intros HI S.
  assert (NOP : forall q, After (set_wait s q) o h b p lk [] 0).
  { intros q. split; [exact I|]. exists lk. split; [|reflexivity]. destruct HI as [HJ H1 H2 HB]. constructor; cbn; auto. }
  assert (W : forall q, Inv (set_wait s q) o h b p lk).
  { intros q. destruct HI as [HJ H1 H2 HB]. constructor; cbn; auto. }
  assert (S2 : forall sx ex, stop_workers s = (sx, ex) -> After sx o h b p lk ex 0).
  { intros sx ex C. apply (stop_ok _ _ _ _ _ _ _ _ HI C). }
  assert (S3 : forall sx ex, pool_stop s = (sx, ex) -> After sx o h b p lk ex 0).
  { intros sx ex C. apply (pool_stop_ok _ _ _ _ _ _ _ _ HI C). }
  assert (OT : forall fd, (if is_open s fd then None else Some (kopen fd s, [EOther fd])) = Some (s', e) -> After s' o h b p lk e 0).
  { intros fd C. destruct (is_open s fd) eqn:O; [discriminate|]. injection C as <- <-. apply is_open_false in O.
    destruct HI as [HJ H1 H2 HB]. destruct (J_other _ _ _ _ _ HJ O) as [F JJ].
    split; [cbn [good fits]; auto|]. exists lk. split; [|reflexivity]. constructor; cbn; auto. }
  assert (OC : forall fd, (if existsb (Nat.eqb fd) o || negb (is_open s fd) then None else Some (kclose fd s, [EOtherClose fd])) = Some (s', e) -> After s' o h b p lk e 0).
  { intros fd C. destruct (existsb (Nat.eqb fd) o) eqn:O; [discriminate|]. destruct (is_open s fd) eqn:O2; [|discriminate]. injection C as <- <-.
    assert (N : ~ In fd o) by (intros X; assert (existsb (Nat.eqb fd) o = true) by (apply existsb_exists; exists fd; split; [exact X|apply Nat.eqb_refl]); congruence).
    assert (M : In fd (s_open s)) by (unfold is_open in O2; apply existsb_exists in O2 as (x & X & E); apply Nat.eqb_eq in E; subst x; exact X).
    destruct HI as [HJ H1 H2 HB]. destruct (J_otherclose _ _ _ _ _ HJ N M) as [F JJ].
    split; [cbn [good fits]; auto|]. exists lk. split; [|reflexivity]. constructor; cbn; auto. }
  assert (DE : forall sx ex sy fx, stop_workers s = (sx, ex) -> pool_stop sx = (sy, fx) -> After (set_sys Gone sy) o h b p lk (ex ++ fx) 0).
  { intros sx ex sy fx C1 C2. destruct (stop_ok _ _ _ _ _ _ _ _ HI C1) as (A & _).
    change 0 with (0 + 0). eapply after_app; [exact A|]. intros lk1 HI1.
    destruct (pool_stop_ok _ _ _ _ _ _ _ _ HI1 C2) as ([G (lk2 & [HJ H1 H2 HB] & Le)] & L0 & _ & R & _).
    split; [exact G|]. exists lk2. split; [|exact Le]. constructor; cbn; auto; [|congruence].
    unfold cfds in HJ. rewrite R in HJ. exact HJ. }
  assert (ST : forall sx, s_sys s = Idle -> sx = set_sys Running s -> After sx o h b p lk [EStarted] 0).
  { intros sx R ->. split; [cbn; auto|]. exists lk. split; [|reflexivity]. destruct HI as [HJ H1 H2 HB]. constructor; cbn; auto; try congruence.
    unfold cfds, running in *. rewrite R in HJ. cbn [s_sys set_sys]. rewrite (H1 R) in *. exact HJ. }
  unfold step in S.
  destruct (s_sys s) eqn:R; destruct l; cbn [late] in *; try discriminate S; try (injection S as <- <-); try exact (NOP _); try (apply (NOP (s_wait s)));
    try (eapply OT; exact S); try (eapply OC; exact S); try (apply S2; congruence); try (apply S3; congruence); try (apply ST; auto).
  all: try (destruct (stop_workers s) as [sx ex] eqn:C1; destruct (pool_stop sx) as [sy fx] eqn:C2; injection S as <- <-; eapply DE; eauto; fail).
  all: try (split; [exact I|]; exists lk; split; [exact HI|reflexivity]).
  all: try (apply S2; destruct (stop_workers s) as [x y]; reflexivity).
  all: try (apply S3; destruct (pool_stop s) as [x y]; reflexivity).
  - (* listen *) destruct (s_wait s) as [|[pt|] q]; try discriminate. eapply listen_ok; [|apply W|exact S]. exact R.
  - destruct (s_wait s) as [|[pt|] q]; try discriminate. eapply (connect_ok (set_wait s q)); [exact R|apply W|exact S].
  - destruct (do_connect a s) as [[sx ex]|] eqn:C; [|discriminate]. injection S as <- <-. eapply (connect_ok s); [exact R|exact HI|exact C].
  - destruct (s_acc s); [|discriminate]. eapply accept_ok; eauto.
  - (* terminate *) match type of S with (if ?c then _ else _) = _ => destruct c; [|discriminate] end. injection S as <- <-.
    split; [exact I|]. exists lk. split; [|reflexivity]. destruct HI as [HJ H1 H2 HB]. constructor; cbn; auto; try congruence.
    assert (M : map fst (map (fun c : conn => if fst c =? fd then (fd, Dying) else c) (s_pool s)) = map fst (s_pool s)).
    { rewrite map_map. apply map_ext. intros c. destruct (Nat.eqb_spec (fst c) fd); cbn; congruence. }
    unfold cfds, running in *. cbn. rewrite R in *. exact (eq_ind_r (fun L => J (s_open s) o h (lfds s ++ L ++ lk)) HJ M).
  - (* delete *) match type of S with (if ?c then _ else _) = _ => destruct c eqn:X; [|discriminate] end. injection S as <- <-.
    apply existsb_exists in X as (c & Hc & E). apply andb_true_iff in E as [E _]. apply Nat.eqb_eq in E.
    destruct HI as [HJ H1 H2 HB]. unfold cfds, running in HJ. rewrite R in HJ.
    assert (IN : In fd (map fst (s_pool s))) by (rewrite <- E; apply in_map, Hc).
    assert (ND : NoDup (map fst (s_pool s))).
    { destruct HJ as [A _ _ _ _]. apply nd_r, nd_l in A. exact A. }
    destruct (J_close _ _ _ _ (lfds s ++ drop fd (map fst (s_pool s)) ++ lk) fd HJ) as [P JJ].
    { rewrite (perm_drop fd _ ND IN) at 1. cbn [app]. symmetry. apply Permutation_middle. }
    split; [cbn [good fits]; auto|]. exists lk. split; [|reflexivity]. constructor; cbn [own fold_left do_del fst snd]; cbn; auto; try congruence.
    + unfold cfds, running. cbn. rewrite R, filter_map_fst. exact JJ.
    + destruct HB as [->|(x & q & -> & E2 & Q)]; [left; reflexivity|]. cbn [filter fst]. destruct (x =? fd); cbn; [left; reflexivity|right; eauto].
Qed.

Definition lates (l : list label) : nat := length (filter late l).
Definition last_port (tr : list ev) : option nat := fold_left pupd tr None.

Lemma run_inv l : forall s o h b p lk s' tr, Inv s o h b p lk -> run l o s = Some (s', tr) -> After s' o h b p lk tr (lates l).
Proof.
  induction l as [|a l IH]; intros s o h b p lk s' tr HI R.
  - injection R as <- <-. split; [exact I|]. exists lk. split; [exact HI|reflexivity].
  - cbn [run] in R. destruct (step a o s) as [[s1 e]|] eqn:S; [|discriminate].
    destruct (run l (own o e) s1) as [[s2 f]|] eqn:R1; [|discriminate]. injection R as <- <-.
    replace (lates (a :: l)) with (lates l + (if late a then 1 else 0)) by (unfold lates; cbn [filter]; destruct (late a); cbn [length]; lia).
    eapply after_app; [exact (step_ok _ _ _ _ _ _ _ _ _ HI S)|]. intros lk1 HI1. eapply IH; eauto.
Qed.

Lemma init_inv : Inv init [] (fun _ => Free) [] None [].
Proof.
  constructor; cbn; auto; try discriminate. constructor; cbn; try constructor; try tauto; try discriminate.
Qed.

Lemma run_ok l s tr : run l [] init = Some (s, tr) ->
  good (fun _ => Free) tr /\ exists lk, Inv s (own [] tr) (holder tr) (bound tr) (last_port tr) lk /\ length lk = lates l.
Proof.
  intros R. destruct (run_inv _ _ _ _ _ _ _ _ _ init_inv R) as [G (lk & HI & Le)].
  split; [exact G|]. exists lk. split; [exact HI|]. rewrite Le. cbn [length]. lia.
Qed.

(** ** C108: the pool closes only what it holds *)
Theorem C108_closes_its_own : forall l s tr a fd b,
  run l [] init = Some (s, tr) -> tr = a ++ EClose fd :: b -> holder a fd = Pool.
Proof.
  intros l s tr a fd b R ->. destruct (run_ok _ _ _ R) as [G _]. apply good_app in G as [_ G]. cbn [good fits] in G. apply G.
Qed.
Print Assumptions C108_closes_its_own.

Definition lgood (fd : nat) := mkL (Some fd) true true true true true.
Definition cgood (fd : nat) := mkC (Some fd) true true true true true.
Definition agood (fd : nat) := mkA (Some fd) true true true.

(** A descriptor is closed, reused by the rest of the process, and reused by
    the pool; the pool closes it twice, each time rightly. *)
Definition reuse : list label :=
  [LStart; LCall (CListen 80); LListen (lgood 3); LAccept (agood 4); LTerm 4; LDel 4; LOther 4; LDial (cgood 5); LOtherClose 4;
   LAccept (agood 4); LTerm 5; LStop; LDestroy].
Example C108_nonvacuous : exists s tr a b c, run reuse [] init = Some (s, tr) /\ tr = a ++ EClose 4 :: b ++ EClose 4 :: c /\
  holder (a ++ EClose 4 :: b) 4 = Pool /\ In (EOther 4) b.
Proof.
  eexists _, _, [EStarted; EOpen 3; EBound 3 80; EReady 3 80; ERet (CListen 80); EOpen 4], [EOther 4; EOpen 5; EOtherClose 4; EOpen 4; EClose 5], _.
  split; [vm_compute; reflexivity|]. split; [reflexivity|]. split; [reflexivity|]. left. reflexivity.
Qed.

(** ** C109: when the pool is gone it holds no descriptor *)
Definition C109_nothing_left_full : Prop :=
  forall l s tr fd, run (l ++ [LDestroy]) [] init = Some (s, tr) -> holder tr fd <> Pool.

(** An accepted socket whose connection object cannot be created. *)
Theorem C109_nothing_left_refuted : exists l s tr fd,
  run (l ++ [LDestroy]) [] init = Some (s, tr) /\ holder tr fd = Pool.
Proof.
  exists [LStart; LCall (CListen 80); LListen (lgood 3); LAccept (mkA (Some 4) true true false)].
  eexists _, _, 4. split; [vm_compute; reflexivity|]. reflexivity.
Qed.
Print Assumptions C109_nothing_left_refuted.

(** What is left is exactly one descriptor for each socket whose preparation
    failed. *)
Theorem C109_nothing_left_partial : forall l s tr, run (l ++ [LDestroy]) [] init = Some (s, tr) ->
  exists L, NoDup L /\ (forall fd, In fd L <-> holder tr fd = Pool) /\ length L = length (filter late l).
Proof.
  intros l s tr R.
  assert (G : s_sys s = Gone).
  { destruct (run_app _ _ _ _ _ _ R) as (s1 & t1 & t2 & _ & R2 & _). cbn [run] in R2.
    destruct (step LDestroy (own [] t1) s1) as [[s2 e]|] eqn:S; [|discriminate]. injection R2 as <- _.
    unfold step in S. destruct (stop_workers s1) as [sx ex]. destruct (pool_stop sx) as [sy fx].
    destruct (s_sys s1); try discriminate S; injection S as <- _; reflexivity. }
  destruct (run_ok _ _ _ R) as [_ (lk & [HJ _ H2 _] & Le)]. unfold lfds, cfds, running in HJ. rewrite G, (H2 G) in HJ. cbn [app] in HJ.
  exists lk. destruct HJ as [A B C D E]. split; [exact A|]. split.
  - intros fd. rewrite <- C. apply D.
  - rewrite Le. unfold lates. rewrite filter_app. cbn [filter late]. rewrite app_nil_r. reflexivity.
Qed.
Print Assumptions C109_nothing_left_partial.

(** Connections live, dying, refused, a failed and a good listen: nothing is left. *)
Example C109_nonvacuous : exists s tr,
  run ([LStart; LCall (CListen 80); LListen (mkL (Some 3) true true false true true); LCall (CListen 81); LListen (lgood 3); LCall CConnect;
        LConnect (mkC (Some 4) true true true false true); LAccept (agood 5); LAccept (agood 6); LTerm 5; LDel 4; LTerm 6] ++ [LDestroy]) [] init = Some (s, tr)
  /\ In (EClose 3) tr /\ In (EClose 4) tr /\ In (EClose 5) tr /\ In (EClose 6) tr.
Proof. eexists _, _. split; [vm_compute; reflexivity|]. cbn. intuition auto 20. Qed.

(** ** C110: stop gives the port back *)
Definition C110_port_free_full : Prop :=
  forall l s tr, run (l ++ [LStop]) [] init = Some (s, tr) -> bound tr = [].

Theorem C110_port_free_refuted : exists l s tr fd,
  run (l ++ [LStop]) [] init = Some (s, tr) /\ bound tr = [(fd, 80)].
Proof.
  exists [LStart; LCall (CListen 80); LListen (lgood 3); LAccept (agood 4)].
  eexists _, _, 3. split; [vm_compute; reflexivity|]. reflexivity.
Qed.
Print Assumptions C110_port_free_refuted.

(** The stop() of the pool itself and the destructor give it back; the
    network's stop() at least closes every connection. *)
Theorem C110_port_free_partial : forall l x s tr, run (l ++ [x]) [] init = Some (s, tr) ->
  (x = LPoolStop \/ x = LDestroy -> bound tr = []) /\
  (x = LStop \/ x = LPoolStop \/ x = LDestroy -> filter late l = [] ->
   forall fd fd', holder tr fd = Pool -> holder tr fd' = Pool -> fd = fd').
Proof.
  intros l x s tr R.
  destruct (run_app _ _ _ _ _ _ R) as (s1 & t1 & t2 & R1 & R2 & E).
  destruct (run_ok _ _ _ R1) as [_ (lk1 & HI1 & Le1)].
  destruct (run_ok _ _ _ R) as [_ (lk & HI & Le)].
  cbn [run] in R2. destruct (step x (own [] t1) s1) as [[s2 e]|] eqn:S; [|discriminate]. injection R2 as -> <-.
  assert (L0 : x = LPoolStop \/ x = LDestroy -> s_lfd s = None).
  { intros [-> | ->]; unfold step in S.
    - assert (S' : pool_stop s1 = (s, e)) by (destruct (s_sys s1); try discriminate S; injection S as S; exact S).
      apply (pool_stop_ok _ _ _ _ _ _ _ _ HI1 S').
    - destruct (stop_workers s1) as [sx ex] eqn:C1. destruct (pool_stop sx) as [sy fx] eqn:C2.
      destruct (stop_ok _ _ _ _ _ _ _ _ HI1 C1) as [[_ (lk2 & HI2 & _)] _].
      destruct (pool_stop_ok _ _ _ _ _ _ _ _ HI2 C2) as (_ & Z & _).
      destruct (s_sys s1); try discriminate S; injection S as <- _; exact Z. }
  assert (NR : x = LStop \/ x = LPoolStop \/ x = LDestroy -> running s = false).
  { intros [->|[->| ->]]; unfold step in S.
    - assert (S' : stop_workers s1 = (s, e)) by (destruct (s_sys s1); try discriminate S; injection S as S; exact S).
      apply (stop_ok _ _ _ _ _ _ _ _ HI1 S').
    - assert (S' : pool_stop s1 = (s, e)) by (destruct (s_sys s1); try discriminate S; injection S as S; exact S).
      apply (pool_stop_ok _ _ _ _ _ _ _ _ HI1 S').
    - destruct (stop_workers s1) as [sx ex] eqn:C1. destruct (pool_stop sx) as [sy fx] eqn:C2.
      destruct (s_sys s1); try discriminate S; injection S as <- _; reflexivity. }
  destruct HI as [HJ H1 H2 HB]. split.
  - intros X. destruct HB as [B|(fd & q & _ & Z & _)]; [exact B|]. rewrite (L0 X) in Z. discriminate.
  - intros X N fd fd' F F'. unfold cfds in HJ. rewrite (NR X) in HJ. cbn [app] in HJ.
    assert (lk = []).
    { apply length_zero_iff_nil. rewrite Le. unfold lates. rewrite filter_app, N. destruct X as [->|[->| ->]]; reflexivity. }
    subst lk. rewrite app_nil_r in HJ. destruct HJ as [A B C D E0].
    apply D, C in F. apply D, C in F'. unfold lfds in *. destruct (s_lfd s); cbn in F, F'; [|contradiction].
    destruct F as [F|[]], F' as [F'|[]]. congruence.
Qed.
Print Assumptions C110_port_free_partial.

Example C110_nonvacuous : exists s tr,
  run ([LStart; LCall (CListen 80); LListen (lgood 3); LAccept (agood 4); LStop] ++ [LPoolStop]) [] init = Some (s, tr) /\
  In (EBound 3 80) tr /\ bound tr = [] /\ holder tr 3 = Free /\ holder tr 4 = Free.
Proof. eexists _, _. split; [vm_compute; reflexivity|]. cbn. intuition auto 20. Qed.

(** ** C111: at most one port is bound, that of the last listen *)
Theorem C111_one_port : forall l s tr, run l [] init = Some (s, tr) ->
  bound tr = [] \/ exists fd p, bound tr = [(fd, p)] /\ last_port tr = Some p /\ holder tr fd = Pool.
Proof.
  intros l s tr R. destruct (run_ok _ _ _ R) as [_ (lk & [HJ _ _ HB] & _)].
  destruct HB as [B|(fd & q & B & L & Q)]; [left; exact B|]. right. exists fd, q. split; [exact B|]. split; [exact Q|].
  destruct HJ as [_ _ C D _]. apply D, C. unfold lfds. rewrite L. left. reflexivity.
Qed.
Print Assumptions C111_one_port.

Example C111_nonvacuous : exists s tr,
  run [LStart; LCall (CListen 80); LListen (lgood 3); LCall (CListen 81); LListen (lgood 3)] [] init = Some (s, tr) /\
  In (EBound 3 80) tr /\ bound tr = [(3, 81)].
Proof. eexists _, _. split; [vm_compute; reflexivity|]. cbn. intuition auto 20. Qed.

(** ** C112: a listen that throws leaves no port bound *)
Definition C112_failed_listen_full : Prop :=
  forall l s tr t p, run l [] init = Some (s, tr) -> tr = t ++ [EThrow (CListen p)] -> bound tr = [].

Theorem C112_failed_listen_refuted : exists l s tr t p fd,
  run l [] init = Some (s, tr) /\ tr = t ++ [EThrow (CListen p)] /\ bound tr = [(fd, p)].
Proof.
  exists [LStart; LCall (CListen 80); LListen (mkL (Some 3) true true true false true)].
  eexists _, _, [EStarted; EOpen 3; EBound 3 80], 80, 3. split; [vm_compute; reflexivity|]. split; reflexivity.
Qed.
Print Assumptions C112_failed_listen_refuted.

(** If the port could not be bound, none is: also not the one bound before,
    to which no connection is accepted any more. *)
Theorem C112_failed_listen_partial : forall l a s tr,
  run (l ++ [LListen a]) [] init = Some (s, tr) -> l_bind a = false \/ l_sock a = None ->
  bound tr = [] /\ s_acc s = false /\ exists t p, tr = t ++ [EThrow (CListen p)].
Proof.
  intros l a s tr R N.
  destruct (run_app _ _ _ _ _ _ R) as (s1 & t1 & t2 & R1 & R2 & ->).
  destruct (run_ok _ _ _ R1) as [_ (lk1 & HI1 & Le1)].
  cbn [run] in R2. destruct (step (LListen a) (own [] t1) s1) as [[s2 e]|] eqn:S; [|discriminate].
  injection R2 as -> <-. rewrite app_nil_r.
  unfold step in S. destruct (s_sys s1) eqn:RU; try discriminate. destruct (s_wait s1) as [|[p|] q]; try discriminate.
  assert (HI2 : Inv (set_wait s1 q) (own [] t1) (holder t1) (bound t1) (last_port t1) lk1).
  { destruct HI1 as [HJ H1 H2 HB]. constructor; cbn; auto. }
  unfold do_listen in S. destruct (unlisten (set_wait s1 q)) as [s3 e1] eqn:U.
  destruct (unlisten_ok _ _ _ _ _ _ _ _ HI2 U) as (_ & _ & L0 & B0 & _).
  assert (BB : forall f, bound (t1 ++ e1 ++ f) = fold_left bupd f []).
  { intros f. unfold bound. rewrite !fold_left_app. fold (bound t1). rewrite B0. reflexivity. }
  destruct (l_sock a) as [fd|].
  - destruct (is_open s3 fd); [discriminate|]. destruct N as [N|N]; [|discriminate]. rewrite N in S. cbn [negb] in S.
    destruct (negb (l_opt a) || negb (l_fcntl a)); injection S as <- <-; rewrite <- app_assoc, BB;
      (split; [reflexivity|]; split; [reflexivity|]; exists (t1 ++ e1 ++ [EOpen fd]), p; rewrite <- !app_assoc; reflexivity).
  - injection S as <- <-. rewrite BB. split; [reflexivity|]. split; [reflexivity|]. exists (t1 ++ e1), p. rewrite <- !app_assoc. reflexivity.
Qed.
Print Assumptions C112_failed_listen_partial.

Example C112_nonvacuous : exists s tr,
  run ([LStart; LCall (CListen 80); LListen (lgood 3); LCall (CListen 81)] ++ [LListen (mkL (Some 3) true true false true true)]) [] init = Some (s, tr) /\
  In (EReady 3 80) tr /\ bound tr = [].
Proof. eexists _, _. split; [vm_compute; reflexivity|]. cbn. intuition auto 20. Qed.

(** ** C113: every call is answered *)
Definition answers (tr : list ev) : list call := flat_map answer tr.
Definition calls (l : list label) : list call := flat_map made l.

Definition C113_answered_full : Prop :=
  forall l s tr, run (l ++ [LDestroy]) [] init = Some (s, tr) -> answers tr = calls l.

(** A call made after stop() - or when start() was never called - waits for ever. *)
Theorem C113_answered_refuted : exists l s tr,
  run (l ++ [LDestroy]) [] init = Some (s, tr) /\ calls l = [CListen 80; CConnect] /\ answers tr = [CListen 80].
Proof.
  exists [LStart; LCall (CListen 80); LListen (lgood 3); LStop; LCall CConnect; LStart].
  eexists _, _. split; [vm_compute; reflexivity|]. split; reflexivity.
Qed.
Print Assumptions C113_answered_refuted.

Lemma answers_app a b : answers (a ++ b) = answers a ++ answers b.
Proof. apply flat_map_app. Qed.
Lemma close_all_quiet l : forall s s' e, close_all l s = (s', e) -> answers e = [] /\ s_wait s' = s_wait s /\ s_sys s' = s_sys s.
Proof.
  induction l as [|fd l IH]; intros s s' e C; cbn [close_all] in C; [injection C as <- <-; auto|].
  destruct (close_all l (kclose fd s)) as [s1 f] eqn:C1. injection C as <- <-. destruct (IH _ _ _ C1) as (A & B & C). auto.
Qed.
Lemma stop_quiet s s' e : stop_workers s = (s', e) -> answers e = [] /\ s_wait s' = s_wait s.
Proof.
  unfold stop_workers. destruct (s_sys s); intros C; try (injection C as <- <-; auto).
  apply close_all_quiet in C as (A & B & _). auto.
Qed.
Lemma pool_stop_quiet s s' e : pool_stop s = (s', e) -> answers e = [] /\ s_wait s' = s_wait s.
Proof.
  unfold pool_stop. destruct (stop_workers s) as [s1 e1] eqn:S. apply stop_quiet in S as [A B].
  destruct (s_lfd s1); intros C; injection C as <- <-; auto. rewrite answers_app, A. auto.
Qed.

Lemma listen_answer p a s s' e : do_listen p a s = Some (s', e) -> answers e = [CListen p] /\ s_wait s' = s_wait s.
Proof.
  unfold do_listen. destruct (unlisten s) as [s1 e1] eqn:U.
  assert (X : answers e1 = [] /\ s_wait s1 = s_wait s) by (unfold unlisten in U; destruct (s_lfd s); injection U as <- <-; auto).
  destruct X as [X Y]. intros D.
  destruct (l_sock a) as [fd|]; [|injection D as <- <-; rewrite answers_app, X; auto].
  destruct (is_open s1 fd); [discriminate|].
  destruct (negb (l_opt a) || negb (l_fcntl a)); [injection D as <- <-; rewrite !answers_app, X; auto|].
  destruct (negb (l_bind a)); [injection D as <- <-; rewrite !answers_app, X; auto|].
  destruct (negb (l_listen a) || negb (l_ev a)); injection D as <- <-; rewrite !answers_app, X; auto.
Qed.

Lemma connect_answer a s s' e : do_connect a s = Some (s', e) -> answers e = [CConnect] /\ s_wait s' = s_wait s.
Proof.
  unfold do_connect. intros D. destruct (c_sock a) as [fd|]; [|injection D as <- <-; auto].
  destruct (is_open s fd); [discriminate|].
  destruct (negb (c_opt a) || negb (c_fcntl a) || negb (c_new a)); [injection D as <- <-; auto|].
  destruct (c_conn a && negb (c_ev a)); injection D as <- <-; auto.
Qed.

Lemma dial_quiet e : answers (map (fun x => match x with EThrow _ => EErr | _ => x end) (filter (fun x => match x with ERet _ => false | _ => true end) e)) = [].
Proof. induction e as [|x e IH]; [reflexivity|]. destruct x; cbn [filter map]; try exact IH; unfold answers; cbn [flat_map answer app]; exact IH. Qed.

Lemma step_answers l o s s' e : step l o s = Some (s', e) -> answers e ++ s_wait s' = s_wait s ++ made l.
Proof.
  unfold step. intros S.
  assert (S1 : forall sx ex, stop_workers s = (sx, ex) -> answers ex ++ s_wait sx = s_wait s ++ []).
  { intros sx ex C. apply stop_quiet in C as [-> ->]. rewrite app_nil_r. reflexivity. }
  assert (S2 : forall sx ex, pool_stop s = (sx, ex) -> answers ex ++ s_wait sx = s_wait s ++ []).
  { intros sx ex C. apply pool_stop_quiet in C as [-> ->]. rewrite app_nil_r. reflexivity. }
  destruct (s_sys s) eqn:R; destruct l; cbn [made]; try discriminate S;
    try (injection S as <- <-; cbn; rewrite ?app_nil_r; reflexivity);
    try (injection S as S; apply S1; exact S); try (injection S as S; apply S2; exact S);
    try (destruct (is_open s fd); [discriminate|]; injection S as <- <-; cbn; rewrite app_nil_r; reflexivity);
    try (destruct (existsb (Nat.eqb fd) o || negb (is_open s fd)); [discriminate|]; injection S as <- <-; cbn; rewrite app_nil_r; reflexivity);
    try (destruct (stop_workers s) as [sx ex] eqn:C1; destruct (pool_stop sx) as [sy fx] eqn:C2; injection S as <- <-;
         apply stop_quiet in C1 as [A1 B1]; apply pool_stop_quiet in C2 as [A2 B2]; cbn [set_sys s_wait]; rewrite answers_app, A1, A2, B2, B1, !app_nil_r; reflexivity).
  - destruct (s_wait s) as [|[p|] q] eqn:W; try discriminate. apply listen_answer in S as [-> ->]. cbn. rewrite app_nil_r. reflexivity.
  - destruct (s_wait s) as [|[p|] q] eqn:W; try discriminate. apply connect_answer in S as [-> ->]. cbn. rewrite app_nil_r. reflexivity.
  - destruct (do_connect a s) as [[sx ex]|] eqn:C; [|discriminate]. injection S as <- <-. apply connect_answer in C as [_ ->].
    rewrite dial_quiet, app_nil_r. reflexivity.
  - destruct (s_acc s); [|discriminate]. unfold do_accept in S. rewrite app_nil_r. destruct (a_sock a) as [fd|]; [|injection S as <- <-; reflexivity].
    destruct (is_open s fd); [discriminate|]. destruct (negb (a_opt a) || negb (a_fcntl a) || negb (a_new a)); injection S as <- <-; reflexivity.
  - match type of S with (if ?c then _ else _) = _ => destruct c; [|discriminate] end. injection S as <- <-. cbn. rewrite app_nil_r. reflexivity.
  - match type of S with (if ?c then _ else _) = _ => destruct c; [|discriminate] end. injection S as <- <-. cbn. rewrite app_nil_r. reflexivity.
Qed.

Lemma run_answers l : forall o s s' tr, run l o s = Some (s', tr) -> answers tr ++ s_wait s' = s_wait s ++ calls l.
Proof.
  induction l as [|a l IH]; intros o s s' tr R; cbn [run] in R.
  - injection R as <- <-. cbn. rewrite app_nil_r. reflexivity.
  - destruct (step a o s) as [[s1 e]|] eqn:S; [|discriminate]. destruct (run l (own o e) s1) as [[s2 f]|] eqn:R1; [|discriminate].
    injection R as <- <-. rewrite answers_app, <- app_assoc, (IH _ _ _ _ R1), app_assoc, (step_answers _ _ _ _ _ S), <- app_assoc. reflexivity.
Qed.

(** Calls are answered in the order in which they are made, each once; while
    the threads run, the first one waiting can be served whatever the kernel
    answers. *)
Theorem C113_answered_partial : forall l s tr, run l [] init = Some (s, tr) ->
  exists w, calls l = answers tr ++ w /\
  forall c w', w = c :: w' -> In EStarted tr -> ~ In LStop l -> ~ In LPoolStop l -> ~ In LDestroy l ->
  (forall p a, c = CListen p -> (forall fd, l_sock a = Some fd -> holder tr fd = Free) ->
     exists s' e, run (l ++ [LListen a]) [] init = Some (s', tr ++ e) /\ answers e = [c]) /\
  (forall a, c = CConnect -> (forall fd, c_sock a = Some fd -> holder tr fd = Free) ->
     exists s' e, run (l ++ [LConnect a]) [] init = Some (s', tr ++ e) /\ answers e = [c]).
Proof.
  intros l s tr R. exists (s_wait s). pose proof (run_answers _ _ _ _ _ R) as E. cbn [init s_wait app] in E. split; [symmetry; exact E|].
  intros c w' W ST N1 N2 N3.
  assert (RU : s_sys s = Running).
  { assert (G : forall l o s0 s tr, run l o s0 = Some (s, tr) -> ~ In LStop l -> ~ In LPoolStop l -> ~ In LDestroy l ->
        (s_sys s0 = Running \/ (s_sys s0 = Idle /\ In EStarted tr)) -> s_sys s = Running).
    { clear. induction l as [|a l IH]; intros o s0 s tr R N1 N2 N3 H; cbn [run] in R.
      - injection R as <- <-. destruct H as [H|[_ []]]. exact H.
      - destruct (step a o s0) as [[s1 e]|] eqn:S; [|discriminate]. destruct (run l (own o e) s1) as [[s2 f]|] eqn:R1; [|discriminate].
        injection R as <- <-. refine (IH _ _ _ _ R1 (fun X => N1 (or_intror X)) (fun X => N2 (or_intror X)) (fun X => N3 (or_intror X)) _).
        assert (A1 : a <> LStop) by (intros ->; apply N1; left; reflexivity).
        assert (A2 : a <> LPoolStop) by (intros ->; apply N2; left; reflexivity).
        assert (A3 : a <> LDestroy) by (intros ->; apply N3; left; reflexivity).
        destruct H as [H|[H ST]].
        + left. unfold step in S. rewrite H in S. destruct a; try congruence; try (injection S as <- <-; cbn; exact H).
          * destruct (s_wait s0) as [|[p|] q]; try discriminate. unfold do_listen in S. destruct (unlisten (set_wait s0 q)) as [s3 e3] eqn:U.
            assert (X : s_sys s3 = Running) by (unfold unlisten in U; destruct (s_lfd (set_wait s0 q)); injection U as <- <-; exact H).
            destruct (l_sock a) as [fd|]; [|injection S as <- <-; exact X]. destruct (is_open s3 fd); [discriminate|].
            destruct (negb (l_opt a) || negb (l_fcntl a)); [injection S as <- <-; exact X|].
            destruct (negb (l_bind a)); [injection S as <- <-; exact X|].
            destruct (negb (l_listen a) || negb (l_ev a)); injection S as <- <-; exact X.
          * destruct (s_wait s0) as [|[p|] q]; try discriminate. unfold do_connect in S. destruct (c_sock a) as [fd|]; [|injection S as <- <-; exact H].
            destruct (is_open (set_wait s0 q) fd); [discriminate|]. destruct (negb (c_opt a) || negb (c_fcntl a) || negb (c_new a)); [injection S as <- <-; exact H|].
            destruct (c_conn a && negb (c_ev a)); injection S as <- <-; exact H.
          * destruct (do_connect a s0) as [[sx ex]|] eqn:D; [|discriminate]. injection S as <- <-. unfold do_connect in D.
            destruct (c_sock a) as [fd|]; [|injection D as <- <-; exact H].
            destruct (is_open s0 fd); [discriminate|]. destruct (negb (c_opt a) || negb (c_fcntl a) || negb (c_new a)); [injection D as <- <-; exact H|].
            destruct (c_conn a && negb (c_ev a)); injection D as <- <-; exact H.
          * destruct (s_acc s0); [|discriminate]. unfold do_accept in S. destruct (a_sock a) as [fd|]; [|injection S as <- <-; exact H].
            destruct (is_open s0 fd); [discriminate|]. destruct (negb (a_opt a) || negb (a_fcntl a) || negb (a_new a)); injection S as <- <-; exact H.
          * match type of S with (if ?c then _ else _) = _ => destruct c; [|discriminate] end. injection S as <- <-. exact H.
          * match type of S with (if ?c then _ else _) = _ => destruct c; [|discriminate] end. injection S as <- <-. exact H.
          * destruct (is_open s0 fd); [discriminate|]. injection S as <- <-. exact H.
          * match type of S with (if ?c then _ else _) = _ => destruct c; [discriminate|] end. injection S as <- <-. exact H.
        + unfold step in S. rewrite H in S. destruct a; try congruence.
          * injection S as <- <-. left. reflexivity.
          * injection S as <- <-. right. split; [exact H|exact ST].
          * destruct (is_open s0 fd); [discriminate|]. injection S as <- <-. right. split; [exact H|]. destruct ST as [ST|ST]; [discriminate|exact ST].
          * match type of S with (if ?c then _ else _) = _ => destruct c; [discriminate|] end. injection S as <- <-. right. split; [exact H|].
            destruct ST as [ST|ST]; [discriminate|exact ST]. }
    eapply G; eauto. }
  destruct (run_ok _ _ _ R) as [_ (lk & [HJ _ _ _] & _)].
  assert (FR : forall q fd, holder tr fd = Free -> is_open (set_wait s q) fd = false).
  { intros q fd F. unfold is_open. cbn. destruct (existsb (Nat.eqb fd) (s_open s)) eqn:X; [|reflexivity].
    apply existsb_exists in X as (x & X & Y). apply Nat.eqb_eq in Y. subst x. apply (J_op _ _ _ _ HJ) in X. contradiction. }
  assert (EXT : forall x s' e, step x (own [] tr) s = Some (s', e) -> run (l ++ [x]) [] init = Some (s', tr ++ e)).
  { assert (G : forall l o s0 s tr x s' e, run l o s0 = Some (s, tr) -> step x (own o tr) s = Some (s', e) -> run (l ++ [x]) o s0 = Some (s', tr ++ e)).
    { clear. induction l as [|a l IH]; intros o s0 s tr x s' e R S; cbn [run app] in R |- *.
      - injection R as <- <-. cbn [own] in S. rewrite S, app_nil_r. reflexivity.
      - destruct (step a o s0) as [[s1 f]|]; [|discriminate]. destruct (run l (own o f) s1) as [[s2 g]|] eqn:R1; [|discriminate].
        injection R as <- <-. rewrite own_app in S. rewrite (IH _ _ _ _ _ _ _ R1 S), app_assoc. reflexivity. }
    intros x s' e S. eapply G; eauto. }
  split.
  - intros p a -> FF.
    assert (S : exists s' e, do_listen p a (set_wait s w') = Some (s', e)).
    { unfold do_listen, unlisten. cbn [set_wait s_lfd].
      assert (FX : forall fd, l_sock a = Some fd -> forall q, is_open (set_wait s q) fd = false) by (intros; apply FR, FF; assumption).
      destruct (s_lfd s) as [lf|]; (destruct (l_sock a) as [fd|]; [|eauto]); specialize (FX fd eq_refl w').
      - assert (O : is_open (set_listen None false (kclose lf (set_wait s w'))) fd = false).
        { unfold is_open in *. cbn [set_listen kclose s_open set_wait] in *. destruct (existsb (Nat.eqb fd) (drop lf (s_open s))) eqn:X; [|reflexivity].
          apply existsb_exists in X as (x & X & Y). apply in_drop in X as [X _].
          assert (existsb (Nat.eqb fd) (s_open s) = true) by (apply existsb_exists; eauto). congruence. }
        rewrite O. destruct (negb (l_opt a) || negb (l_fcntl a)), (negb (l_bind a)), (negb (l_listen a) || negb (l_ev a)); eauto.
      - rewrite FX. destruct (negb (l_opt a) || negb (l_fcntl a)), (negb (l_bind a)), (negb (l_listen a) || negb (l_ev a)); eauto. }
    destruct S as (s' & e & S). exists s', e. split; [|apply (listen_answer _ _ _ _ _ S)].
    apply EXT. unfold step. rewrite RU, W. exact S.
  - intros a -> FF.
    assert (S : exists s' e, do_connect a (set_wait s w') = Some (s', e)).
    { unfold do_connect. destruct (c_sock a) as [fd|] eqn:Q; [|eauto]. rewrite FR by (apply FF; reflexivity).
      destruct (negb (c_opt a) || negb (c_fcntl a) || negb (c_new a)); [eauto|]. destruct (c_conn a && negb (c_ev a)); eauto. }
    destruct S as (s' & e & S). exists s', e. split; [|apply (connect_answer _ _ _ _ S)].
    apply EXT. unfold step. rewrite RU, W. exact S.
Qed.
Print Assumptions C113_answered_partial.

(** Calls made before start() are served after it. *)
Example C113_nonvacuous : exists s tr,
  run [LCall (CListen 80); LCall CConnect; LStart; LListen (lgood 3)] [] init = Some (s, tr) /\ In EStarted tr /\
  calls [LCall (CListen 80); LCall CConnect; LStart; LListen (lgood 3)] = answers tr ++ [CConnect].
Proof. eexists _, _. split; [vm_compute; reflexivity|]. cbn. intuition auto. Qed.

(** ** C114: nothing is opened before start() or after stop() *)
Definition idle_ev (e : ev) : Prop := match e with EOpen _ | EStarted | EReady _ _ | ERet _ | EThrow _ | EBound _ _ => False | _ => True end.

Lemma close_all_idle l : forall s s' e, close_all l s = (s', e) -> Forall idle_ev e.
Proof.
  induction l as [|fd l IH]; intros s s' e C; cbn [close_all] in C; [injection C as <- <-; auto|].
  destruct (close_all l (kclose fd s)) as [s1 f] eqn:C1. injection C as <- <-. constructor; [exact I|eauto].
Qed.
Lemma stop_idle s s' e : stop_workers s = (s', e) -> Forall idle_ev e /\ s_sys s' <> Running /\ (s_sys s' = Idle <-> s_sys s = Idle) /\ (s_sys s' = Gone <-> s_sys s = Gone).
Proof.
  unfold stop_workers. destruct (s_sys s) eqn:R; intros C; try (injection C as <- <-; rewrite R; split; [constructor|]; split; [discriminate|tauto]).
  split; [eapply close_all_idle; eauto|]. apply close_all_quiet in C as (_ & _ & ->). cbn. repeat split; congruence.
Qed.
Lemma pool_stop_idle s s' e : pool_stop s = (s', e) -> Forall idle_ev e /\ s_sys s' <> Running /\ (s_sys s' = Idle <-> s_sys s = Idle) /\ (s_sys s' = Gone <-> s_sys s = Gone).
Proof.
  unfold pool_stop. destruct (stop_workers s) as [s1 e1] eqn:S. apply stop_idle in S as (A & B).
  destruct (s_lfd s1); intros C; injection C as <- <-; cbn; auto. split; [|exact B]. apply Forall_app. split; [exact A|constructor; [exact I|constructor]].
Qed.

Lemma step_idle l o s s' e : step l o s = Some (s', e) -> s_sys s <> Running -> (l <> LStart \/ s_sys s <> Idle) ->
  Forall idle_ev e /\ s_sys s' <> Running /\ (s_sys s' = Idle -> s_sys s = Idle).
Proof.
  unfold step. intros S N M.
  assert (Q : forall s1 e1, s_sys s1 = s_sys s -> Forall idle_ev e1 -> Some (s1, e1) = Some (s', e) -> Forall idle_ev e /\ s_sys s' <> Running /\ (s_sys s' = Idle -> s_sys s = Idle)).
  { intros s1 e1 X F Y. injection Y as <- <-. rewrite X. auto. }
  assert (S1 : Some (stop_workers s) = Some (s', e) -> Forall idle_ev e /\ s_sys s' <> Running /\ (s_sys s' = Idle -> s_sys s = Idle)).
  { intros C. injection C as C. apply stop_idle in C as (A & B & C & _). split; [exact A|]. split; [exact B|apply C]. }
  assert (S2 : Some (pool_stop s) = Some (s', e) -> Forall idle_ev e /\ s_sys s' <> Running /\ (s_sys s' = Idle -> s_sys s = Idle)).
  { intros C. injection C as C. apply pool_stop_idle in C as (A & B & C & _). split; [exact A|]. split; [exact B|apply C]. }
  assert (S3 : (let '(s0, e0) := stop_workers s in let '(s1, f) := pool_stop s0 in Some (set_sys Gone s1, e0 ++ f)) = Some (s', e) ->
     Forall idle_ev e /\ s_sys s' <> Running /\ (s_sys s' = Idle -> s_sys s = Idle)).
  { destruct (stop_workers s) as [s1 e1] eqn:C1. destruct (pool_stop s1) as [s2 e2] eqn:C2. intros C. injection C as <- <-.
    apply stop_idle in C1 as (A & _). apply pool_stop_idle in C2 as (B & _). split; [apply Forall_app; auto|]. cbn. split; discriminate. }
  destruct (s_sys s) eqn:R; destruct l; try discriminate S; try congruence;
    try (apply S1; exact S); try (apply S2; exact S); try (apply S3; exact S);
    try (eapply Q; [| |exact S]; [cbn; congruence|repeat constructor]);
    try (destruct (is_open s fd); [discriminate|]; eapply Q; [| |exact S]; [cbn; congruence|repeat constructor]);
    try (destruct (existsb (Nat.eqb fd) o || negb (is_open s fd)); [discriminate|]; eapply Q; [| |exact S]; [cbn; congruence|repeat constructor]).
  destruct M; congruence.
Qed.

Lemma run_idle l : forall o s s' tr, run l o s = Some (s', tr) -> s_sys s <> Running -> (~ In LStart l \/ s_sys s <> Idle) -> Forall idle_ev tr.
Proof.
  induction l as [|a l IH]; intros o s s' tr R N M; cbn [run] in R; [injection R as <- <-; constructor|].
  destruct (step a o s) as [[s1 e]|] eqn:S; [|discriminate]. destruct (run l (own o e) s1) as [[s2 f]|] eqn:R1; [|discriminate]. injection R as <- <-.
  destruct (step_idle _ _ _ _ _ S N) as (A & B & C).
  { destruct M as [M|M]; [left; intros ->; apply M; left; reflexivity|right; exact M]. }
  apply Forall_app. split; [exact A|]. eapply IH; [exact R1|exact B|].
  destruct M as [M|M]; [left; intros X; apply M; right; exact X|right; intros X; apply M, C, X].
Qed.

Theorem C114_between_start_and_stop : forall l1 x l2 s tr,
  run (l1 ++ x :: l2) [] init = Some (s, tr) ->
  (~ In LStart (l1 ++ [x]) -> exists s1 t1 t2, run (l1 ++ [x]) [] init = Some (s1, t1) /\ tr = t1 ++ t2 /\ Forall idle_ev t1) /\
  (In LStart l1 -> x = LStop \/ x = LPoolStop -> exists s1 t1 t2, run (l1 ++ [x]) [] init = Some (s1, t1) /\ tr = t1 ++ t2 /\ Forall idle_ev t2).
Proof.
  intros l1 x l2 s tr R. change (x :: l2) with ([x] ++ l2) in R. rewrite app_assoc in R.
  destruct (run_app _ _ _ _ _ _ R) as (s1 & t1 & t2 & R1 & R2 & E). split.
  - intros N. exists s1, t1, t2. split; [exact R1|]. split; [exact E|]. eapply run_idle; [exact R1|discriminate|left; exact N].
  - intros ST X. exists s1, t1, t2. split; [exact R1|]. split; [exact E|].
    destruct (run_app _ _ _ _ _ _ R1) as (s0 & u1 & u2 & Q1 & Q2 & _).
    assert (NI : s_sys s0 <> Idle).
    { apply in_split in ST as (m1 & m2 & ->). destruct (run_app _ _ _ _ _ _ Q1) as (sa & v1 & v2 & V1 & V2 & _).
      cbn [run] in V2. destruct (step LStart (own [] v1) sa) as [[sb e]|] eqn:S; [|discriminate].
      destruct (run m2 (own (own [] v1) e) sb) as [[sc f]|] eqn:V3; [|discriminate]. injection V2 as -> _.
      assert (NB : s_sys sb <> Idle) by (unfold step in S; destruct (s_sys sa) eqn:RA; try discriminate S; injection S as <- _; cbn; congruence).
      clear - V3 NB. revert V3 NB. generalize (own (own [] v1) e) as o. revert sb f.
      induction m2 as [|a l IH]; intros s1 tr o R N; cbn [run] in R; [injection R as <- _; exact N|].
      destruct (step a o s1) as [[s2 e2]|] eqn:S; [|discriminate]. destruct (run l (own o e2) s2) as [[s3 f]|] eqn:R1; [|discriminate]. injection R as -> _.
      eapply IH; [exact R1|]. clear R1 IH.
      assert (D : {s_sys s1 = Running} + {s_sys s1 <> Running}) by (destruct (s_sys s1); auto; right; discriminate).
      destruct D as [D|D].
      2:{ intros X. apply N. eapply (step_idle _ _ _ _ _ S D); [right; exact N|exact X]. }
      intros X. pose proof S as S'. unfold step in S. rewrite D in S. destruct a; try (injection S as <- _; cbn in X; congruence); try discriminate S.
      * destruct (s_wait s1) as [|[p|] q]; try discriminate. unfold do_listen in S. destruct (unlisten (set_wait s1 q)) as [s4 e3] eqn:U.
        assert (Y : s_sys s4 = Running) by (unfold unlisten in U; destruct (s_lfd (set_wait s1 q)); injection U as <- <-; exact D).
        destruct (l_sock a) as [fd|]; [|injection S as <- _; cbn in X; congruence]. destruct (is_open s4 fd); [discriminate|].
        destruct (negb (l_opt a) || negb (l_fcntl a)); [injection S as <- _; cbn in X; congruence|].
        destruct (negb (l_bind a)); [injection S as <- _; cbn in X; congruence|].
        destruct (negb (l_listen a) || negb (l_ev a)); injection S as <- _; cbn in X; congruence.
      * destruct (s_wait s1) as [|[p|] q]; try discriminate. unfold do_connect in S. destruct (c_sock a) as [fd|]; [|injection S as <- _; cbn in X; congruence].
        destruct (is_open (set_wait s1 q) fd); [discriminate|]. destruct (negb (c_opt a) || negb (c_fcntl a) || negb (c_new a)); [injection S as <- _; cbn in X; congruence|].
        destruct (c_conn a && negb (c_ev a)); injection S as <- _; cbn in X; congruence.
      * destruct (do_connect a s1) as [[sx ex]|] eqn:Dc; [|discriminate]. injection S as <- _. unfold do_connect in Dc.
        destruct (c_sock a) as [fd|]; [|injection Dc as <- _; cbn in X; congruence].
        destruct (is_open s1 fd); [discriminate|]. destruct (negb (c_opt a) || negb (c_fcntl a) || negb (c_new a)); [injection Dc as <- _; cbn in X; congruence|].
        destruct (c_conn a && negb (c_ev a)); injection Dc as <- _; cbn in X; congruence.
      * destruct (s_acc s1); [|discriminate]. unfold do_accept in S. destruct (a_sock a) as [fd|]; [|injection S as <- _; cbn in X; congruence].
        destruct (is_open s1 fd); [discriminate|]. destruct (negb (a_opt a) || negb (a_fcntl a) || negb (a_new a)); injection S as <- _; cbn in X; congruence.
      * match type of S with (if ?c then _ else _) = _ => destruct c; [|discriminate] end. injection S as <- _. cbn in X. congruence.
      * match type of S with (if ?c then _ else _) = _ => destruct c; [|discriminate] end. injection S as <- _. cbn in X. congruence.
      * injection S as S. apply stop_idle in S as (_ & _ & I1 & _). apply I1 in X. congruence.
      * injection S as S. apply pool_stop_idle in S as (_ & _ & I1 & _). apply I1 in X. congruence.
      * destruct (stop_workers s1) as [y z]. destruct (pool_stop y) as [y' z']. injection S as <- _. discriminate X.
      * destruct (is_open s1 fd); [discriminate|]. injection S as <- _. cbn in X. congruence.
      * match type of S with (if ?c then _ else _) = _ => destruct c; [discriminate|] end. injection S as <- _. cbn in X. congruence. }
    assert (NB : s_sys s1 <> Running /\ s_sys s1 <> Idle).
    { cbn [run] in Q2. destruct (step x (own [] u1) s0) as [[sb e]|] eqn:S; [|discriminate]. injection Q2 as -> _.
      unfold step in S. destruct X as [-> | ->].
      - assert (S' : stop_workers s0 = (s1, e)) by (destruct (s_sys s0); try discriminate S; injection S as S; exact S).
        apply stop_idle in S' as (_ & B & C & _). split; [exact B|]. rewrite C. exact NI.
      - assert (S' : pool_stop s0 = (s1, e)) by (destruct (s_sys s0); try discriminate S; injection S as S; exact S).
        apply pool_stop_idle in S' as (_ & B & C & _). split; [exact B|]. rewrite C. exact NI. }
    eapply run_idle; [exact R2|apply NB|right; apply NB].
Qed.
Print Assumptions C114_between_start_and_stop.

(** start() after stop() starts nothing. *)
Example C114_nonvacuous : exists s tr,
  run ([LCall CConnect; LStart; LConnect (cgood 3)] ++ LStop :: [LStart; LCall (CListen 80); LOther 3; LPoolStop]) [] init = Some (s, tr) /\
  tr = [EStarted; EOpen 3; ERet CConnect; EClose 3; EOther 3].
Proof. eexists _, _. split; [vm_compute; reflexivity|]. reflexivity. Qed.

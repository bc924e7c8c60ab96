(** The loops always finish their tasks. *)
From Coq Require Import Arith NArith List Bool Lia FinFun.
From Verif Require Import PoolModel PoolProofs PoolInv PoolRun PoolLog PoolIds.
Import ListNotations.

(** More than all the actions that can come of one. *)
Definition wt (a : act) : nat :=
  match a with
  | AErr _ _ | AInc _ | ATearW _ | ATearD _ | ARelease _ | ACb _ false => 1
  | AFatal | AOff _ => 2
  | ADel _ => 4 | APostDel _ => 5 | ADExch _ => 6 | AWExch _ => 7
  | AConn _ | ADispTerm _ | AGo _ _ => 8 | APostGo _ _ => 9 | ACb _ true => 10 | ASetup _ => 11 | AFeed _ => 13
  end.
Fixpoint wsum (l : list act) : nat := match l with [] => 0 | a :: l => wt a + wsum l end.
Lemma wsum_app l m : wsum (l ++ m) = wsum l + wsum m.
Proof. induction l as [|a l IH]; [reflexivity|]. cbn. rewrite IH. lia. Qed.
Lemma wt_pos a : 0 < wt a. Proof. destruct a as [i|c|c|c|c|c|c|c ret|c [|]|fa i| |c|c|c|c|c|c|c ret]; cbn; lia. Qed.
Definition ws (s : st) (t : tid) : nat := wsum (s_cur s t ++ s_q s t).

Definition loop_ev (e : ev) : bool := match e with EBatch _ | ENext _ | EAct _ _ => true | _ => false end.
Definition is_act (e : ev) : bool := match e with EAct _ _ => true | _ => false end.

Section Drain.
Variables burst nw : nat.
Notation step := (step burst nw).
Notation run := (run burst nw).
Definition tids : list tid := U :: map W (seq 0 nw).
Definition M (s : st) : nat := list_sum (map (ws s) tids).

Lemma tids_nodup : NoDup tids.
Proof. constructor; [intros I; apply in_map_iff in I; destruct I as (x & E & _); discriminate|]. apply Injective_map_NoDup; [intros x y E; congruence|apply seq_NoDup]. Qed.
Lemma sum_at (f g : tid -> nat) t l k : NoDup l -> (forall t', t' <> t -> f t' = g t') -> f t = g t + k -> list_sum (map f l) = list_sum (map g l) + (if in_dec (fun a b => match tid_eqb_spec a b with ReflectT _ E => left E | ReflectF _ E => right E end) t l then k else 0).
Proof.
  intros ND H E. induction l as [|x l IH]; [reflexivity|]. inversion ND as [|? ? N1 N2]; subst. cbn [map list_sum fold_right]. fold (list_sum (map f l)) (list_sum (map g l)). rewrite (IH N2).
  destruct (in_dec _ t (x :: l)) as [I|I]; destruct (in_dec _ t l) as [I'|I']; cbn [In] in I.
  - rewrite H by (intros ->; auto). lia.
  - destruct I as [->|I]; [rewrite E; lia|contradiction].
  - exfalso. apply I. right. exact I'.
  - rewrite H by (intros ->; apply I; left; reflexivity). lia.
Qed.
Lemma M_post t a s : M (post t a s) <= M s + wt a.
Proof.
  unfold M. rewrite (sum_at (ws (post t a s)) (ws s) t tids (wt a)); [destruct (in_dec _ _ _); lia|apply tids_nodup| |].
  - intros t' N. unfold ws. cbn. rewrite updt_diff by exact N. reflexivity.
  - unfold ws. cbn. rewrite updt_same, !wsum_app. cbn. lia.
Qed.
Lemma M_front t l s : M (front t l s) <= M s + wsum l.
Proof.
  unfold M. rewrite (sum_at (ws (front t l s)) (ws s) t tids (wsum l)); [destruct (in_dec _ _ _); lia|apply tids_nodup| |].
  - intros t' N. unfold ws. cbn. rewrite updt_diff by exact N. reflexivity.
  - unfold ws. cbn. rewrite updt_same, !wsum_app. lia.
Qed.
Lemma M_same s s' : s_cur s' = s_cur s -> s_q s' = s_q s -> M s' = M s.
Proof. intros E1 E2. unfold M. f_equal. apply map_ext. intros t. unfold ws. rewrite E1, E2. reflexivity. Qed.
Lemma M_go t a rest s : s_cur s t = a :: rest -> In t tids -> M s = M (go t rest s) + wt a.
Proof.
  intros E I. unfold M. rewrite (sum_at (ws s) (ws (go t rest s)) t tids (wt a)); [destruct (in_dec _ _ _); [reflexivity|contradiction]|apply tids_nodup| |].
  - intros t' N. unfold ws. cbn. rewrite updt_diff by exact N. reflexivity.
  - unfold ws. cbn. rewrite updt_same, E. cbn. lia.
Qed.
Lemma M_dterm c s : M (disp_terminate c s) <= M s + 7.
Proof. unfold disp_terminate. destruct (c_worker _); (etransitivity; [apply M_post|]); cbn; lia. Qed.
Lemma M_wterm c s s' o : worker_terminate c s = (s', o) -> M s' <= M s + 7.
Proof. unfold worker_terminate. destruct (c_worker _); intros X; injection X as <- <-; [etransitivity; [apply M_post|]; cbn|]; lia. Qed.

(** Workers in use exist. *)
Definition WB (s : st) : Prop := forall c w, c_worker (s_conn s c) = Some w -> w < nw.

Lemma In_tids t a s : G s -> WB s -> 0 < nw -> In a (s_cur s t ++ s_q s t) -> In t tids.
Proof.
  intros g wb P I. pose proof (g_home s g t a I) as H. unfold home in H. assert (X : t = U \/ exists w, t = W w /\ w < nw).
  { destruct (kind_of a) eqn:K.
    - destruct (conn_of a) as [c|] eqn:C; [|destruct a; discriminate]. destruct (H c eq_refl) as (w & E & ->). right. exists w. split; [reflexivity|exact (wb c w E)].
    - right. exists 0. auto.
    - left. exact H.
    - destruct a; try (right; exists 0; split; [exact H|exact P]); left; exact H. }
  destruct X as [->|(w & -> & L)]; [left; reflexivity|right]. apply in_map. apply in_seq. lia.
Qed.

Lemma act_M t a rest ch s s' o : G s -> WB s -> 0 < nw -> s_cur s t = a :: rest -> act_step t a ch (go t rest s) = Some (s', o) -> M s' < M s.
Proof.
  intros g wb P EC X. assert (I : In a (s_cur s t ++ s_q s t)) by (rewrite EC; left; reflexivity). pose proof (In_tids t a s g wb P I) as IT. rewrite (M_go t a rest s EC IT). set (s1 := go t rest s) in *. clearbody s1. clear EC I g wb.
  destruct ch as [ok thr fd]. destruct a as [i|c|c|c|c|c|c|c ret|c b|fa i| |c|c|c|c|c|c|c ret]; cbn [act_step] in X.
  - destruct thr; [injection X as <- <-; eapply Nat.le_lt_trans; [apply M_post|]; cbn [wt wsum]; lia|]. destruct (existsb _ _); [discriminate|]. injection X as <- <-. destruct ok; [rewrite (M_same s1) by reflexivity; cbn [wt wsum]; lia|]. eapply Nat.le_lt_trans; [apply M_dterm|]. rewrite (M_same s1) by reflexivity. cbn [wt wsum]. lia.
  - injection X as <- <-. eapply Nat.le_lt_trans; [apply M_dterm|]. cbn [wt wsum]. lia.
  - destruct (c_term _); injection X as <- <-; [cbn [wt wsum]; lia|]. eapply Nat.le_lt_trans; [apply M_front|]. rewrite (M_same s1) by reflexivity. cbn [wt wsum]. lia.
  - destruct (pool_find _ _); injection X as <- <-; [|cbn [wt wsum]; lia]. eapply Nat.le_lt_trans; [apply M_front|]. rewrite (M_same s1) by reflexivity. cbn [wt wsum]. lia.
  - destruct ok; injection X as <- <-; [eapply Nat.le_lt_trans; [apply M_post|]; cbn [wt wsum]; lia|]. eapply Nat.le_lt_trans; [apply M_dterm|]. pose proof (M_post U (AErr false None) s1). cbn [wt wsum] in *. lia.
  - destruct ok.
    + injection X as <- <-. set (f := fun k => set_recv (if s_tls s1 then RHand else RPlain) (set_sock true (s_tls s1) k)). pose proof (M_front t [AInc c] (on c f s1)) as K. rewrite (M_same s1 (on c f s1)) in K by reflexivity. cbn [wsum wt] in *. destruct (s_tls s1); [lia|]. eapply Nat.le_lt_trans; [apply M_post|]. cbn [wt]. lia.
    + destruct t as [|[|w]]; injection X as <- <-; (eapply Nat.le_lt_trans; [first [apply M_post|apply M_front]|]; cbn [wt wsum]; lia).
  - destruct (c_term _); injection X as <- <-; [cbn [wt wsum]; lia|]. eapply Nat.le_lt_trans; [apply M_front|]. rewrite (M_same s1) by reflexivity. cbn [wt wsum]. lia.
  - destruct (c_term _); [injection X as <- <-; cbn [wt wsum]; lia|]. destruct (negb _); [injection X as <- <-; cbn [wt wsum]; lia|]. destruct (s_tls s1); [destruct ret|].
    + injection X as <- <-. rewrite (M_same s1) by reflexivity. cbn [wt wsum]. lia.
    + injection X as X. pose proof (M_wterm _ _ _ _ X). cbn [wt wsum]. lia.
    + injection X as <- <-. rewrite (M_same s1) by reflexivity. cbn [wt wsum]. lia.
  - destruct thr; injection X as <- <-; [destruct b; cbn [wt wsum]; lia|]. destruct b; [|cbn [wt wsum]; lia]. eapply Nat.le_lt_trans; [apply M_front|]. cbn [wt wsum]. lia.
  - injection X as <- <-. cbn [wt wsum]. lia.
  - injection X as <- <-. eapply Nat.le_lt_trans; [apply M_post|]. rewrite (M_same s1) by reflexivity. cbn [wt wsum]. lia.
  - destruct t; [discriminate|]. injection X as <- <-. rewrite (M_same s1) by reflexivity. cbn [wt wsum]. lia.
  - injection X as <- <-. destruct (c_worker _); rewrite (M_same s1) by reflexivity; cbn [wt wsum]; lia.
  - injection X as <- <-. destruct (c_worker _); rewrite (M_same s1) by reflexivity; cbn [wt wsum]; lia.
  - injection X as <- <-. eapply Nat.le_lt_trans; [apply M_post|]. cbn [wt wsum]. lia.
  - injection X as <- <-. eapply Nat.le_lt_trans; [apply M_post|]. cbn [wt wsum]. lia.
  - injection X as <- <-. rewrite (M_same s1) by reflexivity. cbn [wt wsum]. lia.
  - destruct (c_worker _); injection X as <- <-; [eapply Nat.le_lt_trans; [apply M_post|]|]; cbn [wt wsum]; lia.
Qed.

Lemma WB_dterm c s : WB s -> WB (disp_terminate c s).
Proof. unfold disp_terminate. intros H. destruct (c_worker _); exact H. Qed.
Lemma WB_wterm c s s' o : worker_terminate c s = (s', o) -> WB s -> WB s'.
Proof. unfold worker_terminate. intros X H. destruct (c_worker _); injection X as <- <-; exact H. Qed.
Lemma WB_on c f s : WB s -> c_worker (f (s_conn s c)) = c_worker (s_conn s c) -> WB (on c f s).
Proof. intros H E d w. cbn. unfold upd. destruct (Nat.eqb_spec d c) as [->|N]; [rewrite E|]; apply H. Qed.
Lemma WB_new fd w evc s : WB s -> (forall x, w = Some x -> x < nw) -> WB (new_conn fd w evc s).
Proof. intros H K d x. cbn. unfold upd. destruct (Nat.eqb_spec d (s_nc s)) as [->|N]; [cbn; apply K|apply H]. Qed.

Lemma WB_step e s s' o : step e s = Some (s', o) -> WB s -> WB s'.
Proof.
  intros X H. unfold PoolModel.step in X. destruct (s_stop s); [discriminate|]. destruct e as [|c|c|fd w ok|c w tmo ok|c i|c|t|t|t ch|].
  - injection X as <- <-. exact H.
  - destruct (c <? s_nc s); [|discriminate]. injection X as <- <-. exact H.
  - destruct (c_worker _); [|discriminate]. injection X as X. exact (WB_wterm _ _ _ _ X H).
  - destruct (_ && _) eqn:E; [|discriminate]. apply andb_true_iff in E. destruct E as (_ & E). apply Nat.ltb_lt in E. destruct ok; [destruct (existsb _ _); [discriminate|]|]; injection X as <- <-; [|exact H]. apply (WB_new fd (Some w) false s H). intros x Z. injection Z as <-. exact E.
  - destruct (_ && _) eqn:E; [|discriminate]. apply andb_true_iff in E. destruct E as (_ & E). apply Nat.ltb_lt in E. destruct ok; injection X as <- <-.
    + intros d x. cbn. unfold upd. destruct (Nat.eqb_spec d c) as [->|N]; [cbn; intros Z; injection Z as <-; exact E|apply H].
    + apply (WB_dterm c). apply WB_on; [exact H|reflexivity].
  - destruct (c_worker _); [|discriminate]. destruct (_ && _); [|discriminate]. unfold io_step in X. destruct i as [bs [|]|[|] rs|wr res]; destruct (c_recv (s_conn s c)); try discriminate.
    1-2: (destruct (worker_terminate c _) as (s2 & o2) eqn:E; injection X as <- <-; exact (WB_wterm _ _ _ _ E H)).
    4-6: (destruct (worker_terminate c _) as (s2 & o2) eqn:E; injection X as <- <-; apply (WB_wterm _ _ _ _ E); apply WB_on; [exact H|reflexivity]).
    1-3: (injection X as <- <-; exact H).
    1-3: (injection X as <- <-; apply WB_on; [exact H|reflexivity]).
    assert (H1 : WB (if wr then on c (set_rs true) s else s)) by (destruct wr; [apply WB_on; [exact H|reflexivity]|exact H]). set (s1 := if wr then on c (set_rs true) s else s) in *. clearbody s1.
    destruct res as [[|]|]; [injection X as <- <-; apply (WB_on c _ s1 H1); reflexivity|injection X as <- <-; apply (WB_on c _ s1 H1); reflexivity|]. destruct (worker_terminate c _) as (s2 & o2) eqn:E; injection X as <- <-; exact (WB_wterm _ _ _ _ E H1).
  - destruct (c_worker _); [|discriminate]. destruct (_ && _); [|discriminate]. injection X as <- <-. apply WB_on; [exact H|reflexivity].
  - destruct (idle t s); [|discriminate]. injection X as <- <-. exact H.
  - destruct (s_cur s t); [|discriminate]. destruct (s_left s t); [discriminate|]. destruct (s_q s t); [injection X as <- <-; exact H|]. destruct t as [|[|w]]; injection X as <- <-; try exact H. destruct (s_dead s); exact H.
  - destruct (s_cur s t) as [|a rest]; [discriminate|]. assert (H1 : WB (go t rest s)) by exact H. set (s1 := go t rest s) in *. clearbody s1. clear H.
    destruct ch as [ok thr fd]. destruct a as [i|c|c|c|c|c|c|c ret|c b|fa i| |c|c|c|c|c|c|c ret]; cbn [act_step] in X.
    + destruct thr; [injection X as <- <-; exact H1|]. destruct (existsb _ _); [discriminate|]. injection X as <- <-. assert (K : WB (new_conn fd None ok s1)) by (apply WB_new; [exact H1|discriminate]). destruct ok; [exact K|apply WB_dterm; exact K].
    + injection X as <- <-. apply WB_dterm. exact H1.
    + destruct (c_term _); injection X as <- <-; [exact H1|]. apply (WB_on c set_term s1 H1). reflexivity.
    + destruct (pool_find _ _); injection X as <- <-; exact H1.
    + destruct ok; injection X as <- <-; [exact H1|apply WB_dterm; exact H1].
    + destruct ok; [|destruct t as [|[|w]]; injection X as <- <-; exact H1]. injection X as <- <-. set (f := fun k => set_recv (if s_tls s1 then RHand else RPlain) (set_sock true (s_tls s1) k)).
      assert (K : WB (on c f s1)) by (apply WB_on; [exact H1|reflexivity]). destruct (s_tls s1); exact K.
    + destruct (c_term _); injection X as <- <-; [exact H1|]. apply (WB_on c set_term s1 H1). reflexivity.
    + destruct (c_term _); [injection X as <- <-; exact H1|]. destruct (negb _); [injection X as <- <-; exact H1|]. destruct (s_tls s1); [destruct ret|]; [injection X as <- <-; apply WB_on; [exact H1|reflexivity]|injection X as X; exact (WB_wterm _ _ _ _ X H1)|injection X as <- <-; apply WB_on; [exact H1|reflexivity]].
    + destruct thr; injection X as <- <-; [exact H1|]. destruct b; exact H1.
    + injection X as <- <-. exact H1.
    + injection X as <- <-. exact H1.
    + destruct t; [discriminate|]. injection X as <- <-. exact H1.
    + injection X as <- <-. destruct (c_worker _); apply (WB_on c _ s1 H1); reflexivity.
    + injection X as <- <-. destruct (c_worker _); apply (WB_on c _ s1 H1); reflexivity.
    + injection X as <- <-. exact H1.
    + injection X as <- <-. exact H1.
    + injection X as <- <-. apply (WB_on c _ s1 H1). reflexivity.
    + destruct (c_worker _); injection X as <- <-; exact H1.
  - destruct (forallb _ _); [|discriminate]. injection X as <- <-. exact H.
Qed.

Lemma WB_run es : forall s s' o, run es s = Some (s', o) -> WB s -> WB s'.
Proof. induction es as [|e es IH]; intros s s' o X H; cbn in X; [injection X as <- <-; exact H|]. destruct (step e s) as [(s1 & o1)|] eqn:E; [|discriminate]. destruct (run es s1) as [(s2 & o2)|] eqn:E2; [|discriminate]. injection X as <- <-. apply (IH _ _ _ E2). exact (WB_step _ _ _ _ E H). Qed.

(** Taking the next task off a queue. *)
Lemma next_M t s s' o : step (ENext t) s = Some (s', o) -> M s' <= M s /\ o = [] /\ (In t tids -> s_q s t <> [] -> M s' < M s \/ exists a r, s_cur s' t = a :: r).
Proof.
  intros X. unfold PoolModel.step in X. destruct (s_stop s); [discriminate|]. destruct (s_cur s t) as [|a0 r0] eqn:EC; [|discriminate]. destruct (s_left s t) as [|n]; [discriminate|].
  destruct (s_q s t) as [|a q] eqn:EQ; [injection X as <- <-; rewrite (M_same s) by reflexivity; split; [lia|split; [reflexivity|congruence]]|].
  set (s1 := w_left (updt (s_left s) t n) (w_q (updt (s_q s) t q) s)) in *.
  assert (K1 : M (go t [a] s1) = M s).
  { unfold M. f_equal. apply map_ext. intros t'. unfold ws, s1. cbn. unfold updt. destruct (tid_eqb_spec t' t) as [E|N]; [subst t'; rewrite EC, EQ; reflexivity|reflexivity]. }
  assert (K2 : M s1 <= M s /\ (In t tids -> M s1 < M s)).
  { assert (K : M s = M s1 + (if in_dec (fun a b => match tid_eqb_spec a b with ReflectT _ E => left E | ReflectF _ E => right E end) t tids then wt a else 0)).
    { unfold M. apply sum_at; [apply tids_nodup| |]; unfold ws, s1; cbn; [intros t' N; rewrite updt_diff by exact N; reflexivity|]. rewrite updt_same, EC, EQ. cbn. lia. }
    pose proof (wt_pos a). destruct (in_dec _ _ _); split; try lia; intros; try contradiction; lia. }
  assert (K3 : exists b r, s_cur (go t [a] s1) t = b :: r) by (exists a, []; cbn; rewrite updt_same; reflexivity).
  assert (K4 : (s', o) = (go t [a] s1, []) \/ (s', o) = (s1, [])) by (destruct t as [|[|w]]; [|destruct (s_dead s)|]; injection X as <- <-; auto).
  destruct K4 as [K4|K4]; injection K4 as -> ->; [split; [lia|split; [reflexivity|auto]]|]. destruct K2 as (K2 & K5). split; [exact K2|split; [reflexivity|auto]].
Qed.

Lemma stop_step e s s' o : step e s = Some (s', o) -> e <> EStop -> s_stop s = false /\ s_stop s' = false.
Proof.
  intros X N. unfold PoolModel.step in X. destruct (s_stop s) eqn:E; [discriminate|]. split; [reflexivity|].
  unfold act_step, io_step, worker_terminate, disp_terminate in X. destruct e; try congruence;
  repeat match type of X with context [match ?x with _ => _ end] => lazymatch x with context [match _ with _ => _ end] => fail | _ => destruct x; try discriminate end end; injection X as <- <-; exact E.
Qed.

Lemma loop_M e s s' o : step e s = Some (s', o) -> loop_ev e = true -> G s -> WB s -> 0 < nw -> M s' + (if is_act e then 1 else 0) <= M s.
Proof.
  intros X L g wb P. destruct e as [|c|c|fd w ok|c w tmo ok|c i|c|t|t|t ch|]; try discriminate; cbn [is_act].
  - unfold PoolModel.step in X. destruct (s_stop s); [discriminate|]. destruct (idle t s); [|discriminate]. injection X as <- <-. rewrite (M_same s) by reflexivity. lia.
  - pose proof (next_M _ _ _ _ X). lia.
  - unfold PoolModel.step in X. destruct (s_stop s); [discriminate|]. destruct (s_cur s t) as [|a rest] eqn:EC; [discriminate|]. pose proof (act_M t a rest ch s s' o g wb P EC X). lia.
Qed.

Lemma loop_stop e : loop_ev e = true -> e <> EStop.
Proof. intros E ->. discriminate. Qed.

Lemma loop_run es : forall s s' o l, forallb loop_ev es = true -> Inv false false s l -> WB s -> 0 < nw -> run es s = Some (s', o) -> M s' + length (filter is_act es) <= M s.
Proof.
  induction es as [|e es IH]; intros s s' o l L H wb P X; cbn [PoolModel.run] in X; [injection X as <- <-; cbn; lia|]. cbn [forallb] in L. apply andb_true_iff in L. destruct L as (L1 & L2).
  destruct (step e s) as [(s1 & o1)|] eqn:E; [|discriminate]. destruct (run es s1) as [(s2 & o2)|] eqn:E2; [|discriminate]. injection X as <- <-.
  pose proof (loop_M _ _ _ _ E L1 (n_G _ _ _ _ H) wb P) as K. assert (H1 : Inv false false s1 (l ++ o1)) by (apply (Inv_step burst nw _ _ e s); auto using loop_stop; discriminate).
  pose proof (IH s1 s2 o2 (l ++ o1) L2 H1 (WB_step _ _ _ _ E wb) P E2). cbn [filter]. destruct (is_act e); cbn [length]; lia.
Qed.

Lemma act_enabled t a rest s : G s -> s_cur s t = a :: rest -> exists s' o, act_step t a (Ch true true 0) (go t rest s) = Some (s', o).
Proof.
  intros g EC. assert (H : home t a s) by (apply (g_home s g); rewrite EC; left; reflexivity).
  destruct a as [i|c|c|c|c|c|c|c ret|c b|fa i| |c|c|c|c|c|c|c ret]; cbn [act_step]; eauto.
  - destruct (c_term _); eauto.
  - destruct (pool_find _ _); eauto.
  - destruct (c_term _); eauto.
  - destruct (c_term _); eauto. destruct (negb _); eauto. destruct (s_tls _); eauto. destruct ret; eauto. destruct (worker_terminate _ _); eauto.
  - cbn in H. destruct (H c eq_refl) as (w & _ & ->). eauto.
  - destruct (c_worker _); eauto.
Qed.

Definition quiescent (s : st) : Prop := forall t, s_cur s t = [] /\ s_q s t = [].

Lemma drain n : forall s l, M s <= n -> Inv false false s l -> WB s -> 0 < nw -> 0 < burst -> s_stop s = false ->
  exists es s' o, forallb loop_ev es = true /\ run es s = Some (s', o) /\ quiescent s'.
Proof.
  induction n as [n IH] using lt_wf_ind. intros s l LE H wb P B0 ST. pose proof (n_G _ _ _ _ H) as g.
  assert (Z : quiescent s \/ exists t, In t tids /\ (s_cur s t <> [] \/ s_q s t <> [])).
  { assert (Z : forall l, (forall t, In t l -> s_cur s t = [] /\ s_q s t = []) \/ exists t, In t l /\ (s_cur s t <> [] \/ s_q s t <> [])).
    { intros l0. induction l0 as [|t l0 J]; [left; intros t []|]. destruct J as [J|(t' & I & J)]; [|right; exists t'; split; [right; exact I|exact J]].
      destruct (s_cur s t) as [|? ?] eqn:E1; [|right; exists t; split; [left; reflexivity|left; congruence]]. destruct (s_q s t) as [|? ?] eqn:E2; [|right; exists t; split; [left; reflexivity|right; congruence]].
      left. intros t' [<-|I]; auto. }
    destruct (Z tids) as [J|J]; [left|right; exact J]. intros t. destruct (in_dec (fun a b => match tid_eqb_spec a b with ReflectT _ E => left E | ReflectF _ E => right E end) t tids) as [I|I]; [exact (J t I)|].
    destruct (s_cur s t ++ s_q s t) as [|a x] eqn:E; [apply app_eq_nil in E; exact E|]. exfalso. apply I. apply (In_tids t a s g wb P). rewrite E. left. reflexivity. }
  destruct Z as [Z|(t & IT & Z)]; [exists [], s, []; auto|].
  (* one action or one dropped task *)
  assert (ACT : forall s1 l1 a rest, M s1 <= M s -> Inv false false s1 l1 -> WB s1 -> s_stop s1 = false -> s_cur s1 t = a :: rest -> exists es s' o, forallb loop_ev es = true /\ run es s1 = Some (s', o) /\ quiescent s').
  { intros s1 l1 a rest L1 H1 wb1 S1 EC. destruct (act_enabled t a rest s1 (n_G _ _ _ _ H1) EC) as (s2 & o2 & X).
    assert (X' : step (EAct t (Ch true true 0)) s1 = Some (s2, o2)) by (unfold PoolModel.step; rewrite S1, EC; exact X).
    pose proof (act_M t a rest _ s1 s2 o2 (n_G _ _ _ _ H1) wb1 P EC X) as LT.
    destruct (IH (M s2) ltac:(lia) s2 (l1 ++ o2) (le_n _)) as (es & s' & o & L & R & Q); auto; [apply (Inv_step burst nw _ _ _ _ _ _ _ H1 X'); discriminate|exact (WB_step _ _ _ _ X' wb1)|exact (proj2 (stop_step _ _ _ _ X' ltac:(discriminate)))|].
    exists (EAct t (Ch true true 0) :: es), s', (o2 ++ o). split; [exact L|]. split; [|exact Q]. cbn [PoolModel.run]. rewrite X', R. reflexivity. }
  destruct (s_cur s t) as [|a rest] eqn:EC; [|apply (ACT s l a rest); auto]. destruct Z as [Z|Z]; [congruence|].
  assert (NX : forall s1 l1, M s1 <= M s -> Inv false false s1 l1 -> WB s1 -> s_stop s1 = false -> s_cur s1 t = [] -> s_left s1 t <> 0 -> s_q s1 t <> [] -> exists es s' o, forallb loop_ev es = true /\ run es s1 = Some (s', o) /\ quiescent s').
  { intros s1 l1 L1 H1 wb1 S1 E1 E2 E3. destruct (step (ENext t) s1) as [(s2 & o2)|] eqn:X.
    2:{ exfalso. unfold PoolModel.step in X. rewrite S1, E1 in X. destruct (s_left s1 t); [congruence|]. destruct (s_q s1 t); [congruence|]. destruct t as [|[|w]]; discriminate. }
    destruct (next_M _ _ _ _ X) as (K1 & -> & K2).
    assert (H2 : Inv false false s2 (l1 ++ [])) by (apply (Inv_step burst nw _ _ _ _ _ _ _ H1 X); discriminate).
    assert (wb2 : WB s2) by exact (WB_step _ _ _ _ X wb1). assert (S2 : s_stop s2 = false) by exact (proj2 (stop_step _ _ _ _ X ltac:(discriminate))).
    assert (J : exists es s' o, forallb loop_ev es = true /\ run es s2 = Some (s', o) /\ quiescent s').
    { destruct (K2 IT E3) as [K|(a & r & K)]; [apply (IH (M s2) ltac:(lia) s2 (l1 ++ [])); auto|apply (ACT s2 (l1 ++ []) a r); auto; lia]. }
    destruct J as (es & s' & o & L & R & Q). exists (ENext t :: es), s', o. split; [exact L|]. split; [|exact Q]. cbn [PoolModel.run]. rewrite X, R. reflexivity. }
  destruct (s_left s t) as [|k] eqn:EL; [|apply (NX s l); auto; congruence].
  assert (X : step (EBatch t) s = Some (w_left (updt (s_left s) t burst) s, [])) by (unfold PoolModel.step, idle; rewrite ST, EC, EL; reflexivity).
  set (s1 := w_left (updt (s_left s) t burst) s) in *.
  destruct (NX s1 (l ++ [])) as (es & s' & o & L & R & Q); auto.
  - apply (Inv_step burst nw _ _ _ _ _ _ _ H X); discriminate.
  - cbn. rewrite updt_same. lia.
  - exists (EBatch t :: es), s', o. split; [exact L|]. split; [|exact Q]. cbn [PoolModel.run]. rewrite X, R. reflexivity.
Qed.
End Drain.

(** Ids of asynchronous operations and the errors reported for them; the
    loads of the workers. *)
From Coq Require Import Arith NArith List Bool Lia.
From Verif Require Import PoolModel PoolProofs PoolInv PoolCalm PoolFed PoolRun PoolLog.
Import ListNotations.

(** Pending actions of thread t satisfying p. *)
Definition pn (p : act -> bool) (t : tid) (s : st) : nat := cnt p (s_cur s t ++ s_q s t).
Lemma pn_post p t t' a s : pn p t (post t' a s) = pn p t s + (if tid_eqb t t' && p a then 1 else 0).
Proof.
  unfold pn. cbn [post w_q s_cur s_q]. destruct (tid_eqb_spec t t') as [E|N]; [subst; rewrite updt_same|rewrite updt_diff by exact N; cbn; lia].
  rewrite !cnt_app. cbn. destruct (p a); lia.
Qed.
Lemma pn_front p t t' l s : pn p t (front t' l s) = pn p t s + (if tid_eqb t t' then cnt p l else 0).
Proof.
  unfold pn. cbn [front go w_cur s_cur s_q]. destruct (tid_eqb_spec t t') as [E|N]; [subst; rewrite updt_same|rewrite updt_diff by exact N; lia].
  rewrite !cnt_app. lia.
Qed.
Lemma pn_go p t t' a rest s : s_cur s t' = a :: rest -> pn p t s = pn p t (go t' rest s) + (if tid_eqb t t' && p a then 1 else 0).
Proof.
  intros E. unfold pn. cbn [go w_cur s_cur s_q]. destruct (tid_eqb_spec t t') as [X|N]; [subst; rewrite updt_same, E|rewrite updt_diff by exact N; cbn; lia].
  cbn [app cnt]. destruct (p a); cbn; lia.
Qed.
Lemma pn_dterm p t c s : p (AWExch c) = false -> p (ADExch c) = false -> pn p t (disp_terminate c s) = pn p t s.
Proof. intros E1 E2. unfold disp_terminate. destruct (c_worker _); rewrite pn_post, ?E1, ?E2, andb_false_r; lia. Qed.
Lemma pn_wterm p t c s s' o : worker_terminate c s = (s', o) -> p (AWExch c) = false -> pn p t s' = pn p t s /\ (o = [] \/ o = [OUb c]).
Proof. intros X E1. unfold worker_terminate in X. destruct (c_worker _); injection X as <- <-; [rewrite pn_post, E1, andb_false_r|]; split; auto; lia. Qed.

Definition isErr (id : N) (a : act) : bool := match a with AErr _ (Some i) => (i =? id)%N | _ => false end.
Definition isConn (id : N) (a : act) : bool := match a with AConn i => (i =? id)%N | _ => false end.
Definition oAsync (id : N) (o : obs) : bool := match o with OAsync i => (i =? id)%N | _ => false end.
Definition oThrow (id : N) (o : obs) : bool := match o with OThrow i => (i =? id)%N | _ => false end.
Definition oErr (id : N) (o : obs) : bool := match o with OErr _ (Some i) => (i =? id)%N | _ => false end.
Definition asyncs (l : list obs) : list N := flat_map (fun o => match o with OAsync i => [i] | _ => [] end) l.

Section Ids.
Variables burst nw : nat.
Notation step := (step burst nw).
Notation run := (run burst nw).

Lemma aid_dterm c s : s_aid (disp_terminate c s) = s_aid s.
Proof. unfold disp_terminate. destruct (c_worker (s_conn s c)); reflexivity. Qed.
Lemma aid_wterm c s s' o : worker_terminate c s = (s', o) -> s_aid s' = s_aid s.
Proof. unfold worker_terminate. destruct (c_worker (s_conn s c)); intros X; injection X as <- <-; reflexivity. Qed.

Record idstep (s s' : st) (o : list obs) (id : N) : Prop := {
  is_err : pn (isErr id) U s' + cnt (oErr id) o = pn (isErr id) U s + cnt (oThrow id) o;
  is_conn : pn (isConn id) D s' + cnt (oThrow id) o <= pn (isConn id) D s + cnt (oAsync id) o;
  is_aid : (asyncs o = [] /\ s_aid s' = s_aid s) \/ (asyncs o = [s_aid s] /\ s_aid s' = ((s_aid s + 1) mod 2 ^ 16)%N) }.

Lemma id_same s s' o id : s_cur s' = s_cur s -> s_q s' = s_q s -> s_aid s' = s_aid s -> (forall x, In x o -> oErr id x = false /\ oThrow id x = false /\ oAsync id x = false) -> asyncs o = [] -> idstep s s' o id.
Proof.
  intros E1 E2 E3 H A0. assert (Z : cnt (oErr id) o = 0 /\ cnt (oThrow id) o = 0 /\ cnt (oAsync id) o = 0) by (repeat split; apply cnt_0; intros x I; apply (H x I)). destruct Z as (Z1 & Z2 & Z3).
  constructor; unfold pn; rewrite ?E1, ?E2; [lia..|left; auto].
Qed.

Ltac pq := repeat first [rewrite pn_post | rewrite pn_front | rewrite pn_dterm by reflexivity]; cbn [tid_eqb isErr isConn Nat.eqb andb cnt].

Lemma id_step e s s' o id : step e s = Some (s', o) -> G s -> idstep s s' o id.
Proof.
  intros X g. unfold PoolModel.step in X. destruct (s_stop s); [discriminate|].
  assert (WT : forall c s0 l s1 o1, s_aid s0 = s_aid s -> (forall p t, pn p t s0 = pn p t s) -> (forall x, In x l -> oErr id x = false /\ oThrow id x = false /\ oAsync id x = false) -> asyncs l = [] ->
    worker_terminate c s0 = (s1, o1) -> idstep s s1 (l ++ o1) id).
  { intros c s0 l s1 o1 E1 E2 H A0 Z. assert (Z0 : cnt (oErr id) l = 0 /\ cnt (oThrow id) l = 0 /\ cnt (oAsync id) l = 0) by (repeat split; apply cnt_0; intros x I; apply (H x I)). destruct Z0 as (Z1 & Z2 & Z3).
    pose proof (aid_wterm _ _ _ _ Z) as Z4. destruct (pn_wterm (isErr id) U _ _ _ _ Z eq_refl) as (P1 & O1). destruct (pn_wterm (isConn id) D _ _ _ _ Z eq_refl) as (P2 & _).
    rewrite E2 in P1, P2. assert (Y : cnt (oErr id) o1 = 0 /\ cnt (oThrow id) o1 = 0 /\ cnt (oAsync id) o1 = 0 /\ asyncs o1 = []) by (destruct O1; subst o1; auto). destruct Y as (Y1 & Y2 & Y3 & Y4).
    constructor; rewrite ?cnt_app; [lia..|]. left. unfold asyncs in *. rewrite flat_map_app, A0, Y4. split; [reflexivity|congruence]. }
  destruct e as [|c|c|fd w ok|c w tmo ok|c i|c|t|t|t ch|].
  - injection X as <- <-. constructor; [pq|pq|right; auto]; unfold pn; cbn; destruct (s_aid s =? id)%N; lia.
  - destruct (c <? s_nc s); [|discriminate]. injection X as <- <-. constructor; [pq; cbn; lia..|left; auto].
  - destruct (c_worker _); [|discriminate]. injection X as X. change o with ([] ++ o). apply (WT c s []); auto; intros x [].
  - destruct (_ && _); [|discriminate]. destruct ok; [destruct (existsb _ _); [discriminate|]|]; injection X as <- <-; (constructor; [pq; unfold pn; cbn; rewrite ?andb_false_r; lia..|left; auto]).
  - destruct (_ && _); [|discriminate]. destruct ok; injection X as <- <-; (constructor; [pq; unfold pn; cbn; rewrite ?andb_false_r; lia..|left; split; [reflexivity|]]); cbn [post w_q s_aid]; rewrite ?aid_dterm; reflexivity.
  - destruct (c_worker _); [|discriminate]. destruct (_ && _); [|discriminate]. unfold io_step in X.
    assert (K : forall s0 x1 x2, s_aid s0 = s_aid s -> (forall p t, pn p t s0 = pn p t s) -> (x2 = [] \/ exists bs, x2 = [ORecv c bs]) -> (let '(s', o') := worker_terminate c s0 in Some (s', (OIo c x1 :: x2) ++ o')) = Some (s', o) -> idstep s s' o id).
    { intros s0 x1 x2 E1 E2 Y Z. destruct (worker_terminate c s0) as (s2 & o2) eqn:E. injection Z as Z1 Z2. rewrite <- Z1, <- Z2. change (idstep s s2 ((OIo c x1 :: x2) ++ o2) id).
      destruct Y as [->|(bs & ->)]; (eapply WT; [exact E1|exact E2| |reflexivity|exact E]); [intros x [<-|[]]; auto|intros x [<-|[<-|[]]]; auto]. }
    destruct i as [bs [|]|[|] rs|wr res]; destruct (c_recv (s_conn s c)); try discriminate.
    1,2: (eapply K; [| | |exact X]; [reflexivity|reflexivity|right; eauto]).
    4-6: (eapply K; [| | |exact X]; [reflexivity|reflexivity|left; reflexivity]).
    1-6: (injection X as <- <-; apply id_same; auto; intros x; cbn; intros Z; repeat (destruct Z as [<-|Z]; [auto|]); destruct Z).
    destruct res as [[|]|].
    + injection X as <- <-. destruct wr; (constructor; [pq; unfold pn; cbn; lia..|left; auto]).
    + injection X as <- <-. destruct wr; (apply id_same; auto; intros x [<-|[]]; auto).
    + destruct (worker_terminate c _) as (s2 & o2) eqn:E. injection X as <- <-. pose proof (aid_wterm _ _ _ _ E) as Z4. destruct (pn_wterm (isErr id) U _ _ _ _ E eq_refl) as (P1 & O1). destruct (pn_wterm (isConn id) D _ _ _ _ E eq_refl) as (P2 & _).
      rewrite pn_post in P1, P2. cbn in P1, P2. constructor; [rewrite P1|rewrite P2|left; rewrite Z4]; destruct O1; subst o2; destruct wr; cbn; unfold pn; cbn; auto; lia.
  - destruct (c_worker _); [|discriminate]. destruct (_ && _); [|discriminate]. injection X as <- <-. apply id_same; auto. intros x [].
  - destruct (idle t s); [|discriminate]. injection X as <- <-. apply id_same; auto. intros x [].
  - destruct (s_cur s t) as [|a0 r0] eqn:EC; [|discriminate]. destruct (s_left s t) as [|n]; [discriminate|]. destruct (s_q s t) as [|a q] eqn:EQ; [injection X as <- <-; apply id_same; auto; intros x []|].
    assert (Y : o = [] /\ s_aid s' = s_aid s /\ (forall p t', t' <> t -> pn p t' s' = pn p t' s) /\ forall p, pn p t s' <= pn p t s /\ (t = U -> pn p t s' = pn p t s)).
    { assert (Y : forall s1, s1 = go t [a] (w_left (updt (s_left s) t n) (w_q (updt (s_q s) t q) s)) -> s_aid s1 = s_aid s /\ (forall p t', t' <> t -> pn p t' s1 = pn p t' s) /\ forall p, pn p t s1 <= pn p t s /\ (t = U -> pn p t s1 = pn p t s)).
      { intros s1 ->. split; [reflexivity|]. split; [intros p t' N; unfold pn; cbn; rewrite !updt_diff by exact N; reflexivity|]. intros p. unfold pn. cbn. rewrite !updt_same, EC, EQ. split; auto. }
      destruct t as [|[|w]]; [injection X as X <-; split; [reflexivity|apply Y; congruence]| |injection X as X <-; split; [reflexivity|apply Y; congruence]].
      destruct (s_dead s); injection X as X <-; (split; [reflexivity|]); [|apply Y; congruence]. subst s'. split; [reflexivity|]. split; [intros p t' N; unfold pn; cbn; rewrite !updt_diff by exact N; reflexivity|]. intros p. unfold pn. cbn. rewrite EC, EQ. cbn. split; [lia|discriminate]. }
    destruct Y as (-> & Y1 & Y2 & Y3). constructor; [| |left; auto]; cbn.
    + destruct (tid_eqb_spec U t) as [<-|N]; [destruct (Y3 (isErr id)) as (_ & Y4); rewrite Y4 by reflexivity; lia|rewrite Y2 by congruence; lia].
    + destruct (tid_eqb_spec D t) as [<-|N]; [destruct (Y3 (isConn id)) as (Y4 & _); lia|rewrite Y2 by congruence; lia].
  - destruct (s_cur s t) as [|a rest] eqn:EC; [discriminate|]. pose proof (pn_go (isErr id) U t a rest s EC) as P1. pose proof (pn_go (isConn id) D t a rest s EC) as P2.
    assert (HM : home t a s) by (apply (g_home s g); rewrite EC; left; reflexivity).
    assert (SA : s_aid (go t rest s) = s_aid s) by reflexivity. set (s1 := go t rest s) in *. clearbody s1.
    assert (L1 : forall x, s_aid x = s_aid s1 -> pn (isErr id) U x = pn (isErr id) U s1 -> pn (isConn id) D x = pn (isConn id) D s1 -> isErr id a = false -> isConn id a = false ->
      forall o1, cnt (oErr id) o1 = 0 /\ cnt (oThrow id) o1 = 0 /\ cnt (oAsync id) o1 = 0 /\ asyncs o1 = [] -> idstep s x o1 id).
    { intros x E1 E2 E3 A1 A2 o1 (B1 & B2 & B3 & B4). rewrite A1, A2, andb_false_r in *. constructor; [lia..|left; split; [exact B4|congruence]]. }
    destruct ch as [ok thr fd]. destruct a as [i|c|c|c|c|c|c|c ret|c b|fa i| |c|c|c|c|c|c|c ret]; cbn [act_step] in X.
    + cbn in HM. subst t. cbn [tid_eqb isErr isConn andb Nat.eqb] in P1, P2. destruct thr.
      * injection X as <- <-. constructor; [pq; cbn; destruct (i =? id)%N; lia..|left; auto].
      * destruct (existsb _ _); [discriminate|]. injection X as <- <-. destruct ok; (constructor; [pq; unfold pn in *; cbn; destruct (i =? id)%N; lia..|left; split; [reflexivity|rewrite ?aid_dterm; exact SA]]).
    + injection X as <- <-. apply L1; auto; [apply aid_dterm|pq; reflexivity|pq; reflexivity].
    + destruct (c_term _); injection X as <- <-; apply L1; auto; pq; destruct t as [|[|w]]; cbn; unfold pn; cbn; lia.
    + destruct (pool_find _ _); injection X as <- <-; apply L1; auto; pq; destruct t as [|[|w]]; cbn; unfold pn; cbn; lia.
    + destruct ok; injection X as <- <-; apply L1; auto; rewrite ?aid_dterm; auto; pq; cbn; lia.
    + destruct ok; [injection X as <- <-; destruct (s_tls s1)|destruct t as [|[|w]]; injection X as <- <-]; apply L1; auto; pq; try destruct t as [|[|w]]; cbn; unfold pn; cbn; lia.
    + destruct (c_term _); injection X as <- <-; apply L1; auto; pq; destruct t as [|[|w]]; cbn; unfold pn; cbn; lia.
    + destruct (c_term _); [injection X as <- <-; apply L1; auto|]. destruct (negb _); [injection X as <- <-; apply L1; auto|]. destruct (s_tls s1); [destruct ret|]; [injection X as <- <-; apply L1; auto| |injection X as <- <-; apply L1; auto].
      injection X as X. pose proof (aid_wterm _ _ _ _ X) as Z4. destruct (pn_wterm (isErr id) U _ _ _ _ X eq_refl) as (Q1 & O1). destruct (pn_wterm (isConn id) D _ _ _ _ X eq_refl) as (Q2 & _). apply L1; auto. destruct O1; subst o; auto.
    + destruct thr; [injection X as <- <-; apply L1; auto|]. injection X as <- <-. destruct b; apply L1; auto; pq; destruct t as [|[|w]]; cbn; lia.
    + cbn in HM. subst t. injection X as <- <-. cbn [tid_eqb isErr isConn andb Nat.eqb] in P1, P2. constructor; [| |left; auto]; cbn; destruct i as [i|]; try destruct (i =? id)%N; lia.
    + injection X as <- <-. apply L1; auto; pq; unfold pn; cbn; lia.
    + destruct t; [discriminate|]. injection X as <- <-. apply L1; auto.
    + injection X as <- <-. apply L1; auto; destruct (c_worker _); reflexivity.
    + injection X as <- <-. apply L1; auto; destruct (c_worker _); reflexivity.
    + injection X as <- <-. apply L1; auto; pq; lia.
    + injection X as <- <-. apply L1; auto; pq; lia.
    + injection X as <- <-. apply L1; auto.
    + destruct (c_worker _); injection X as <- <-; apply L1; auto; pq; cbn; rewrite ?andb_false_r; lia.
  - destruct (forallb _ _); [|discriminate]. injection X as <- <-. apply id_same; auto; [|induction (s_pool s) as [|x l IH]; [reflexivity|exact IH]].
    intros x I. apply in_flat_map in I. destruct I as (y & _ & [<-|[<-|[]]]); auto.
Qed.
End Ids.

Section Ids2.
Variables burst nw : nat.
Notation step := (step burst nw).
Notation run := (run burst nw).

(** Only the last event of a run can be [EStop]. *)
Lemma run_snoc_stop es s s' o : run (es ++ [EStop]) s = Some (s', o) ->
  exists s1 o1, run es s = Some (s1, o1) /\ s' = w_stop s1 /\ o = o1 ++ flat_map (fun x => [OTorn (snd x); OClose (snd x) (fst x)]) (s_pool s1) /\ forallb (fun x => match s_cur s1 (W x) with [] => true | _ => false end) (seq 0 nw) = true.
Proof.
  intros X. apply run_app in X. destruct X as (s1 & o1 & o2 & X1 & X2 & ->). exists s1, o1. cbn in X2. unfold PoolModel.step in X2. destruct (s_stop s1); [discriminate|].
  destruct (forallb _ _) eqn:E; [|discriminate]. injection X2 as <- <-. rewrite app_nil_r. auto.
Qed.

Record ids (id : N) (aid : N) (s : st) (l : list obs) : Prop := {
  d_err : pn (isErr id) U s + cnt (oErr id) l = cnt (oThrow id) l;
  d_conn : pn (isConn id) D s + cnt (oThrow id) l <= cnt (oAsync id) l;
  d_aid : s_aid s = ((aid + N.of_nat (length (asyncs l))) mod 2 ^ 16)%N;
  d_seq : asyncs l = map (fun k => ((aid + N.of_nat k) mod 2 ^ 16)%N) (seq 0 (length (asyncs l))) }.

Lemma ids_step id aid e s s' o l : step e s = Some (s', o) -> G s -> ids id aid s l -> ids id aid s' (l ++ o).
Proof.
  intros X g [I1 I2 I3 I4]. destruct (id_step burst nw e s s' o id X g) as [J1 J2 J3]. constructor.
  - rewrite !cnt_app. lia.
  - rewrite !cnt_app. lia.
  - unfold asyncs in *. rewrite flat_map_app, app_length. destruct J3 as [(-> & ->)|(-> & ->)]; cbn [length]; rewrite ?Nat.add_0_r; [exact I3|].
    rewrite I3, N.add_mod_idemp_l by discriminate. rewrite Nat.add_1_r, Nat2N.inj_succ. f_equal. lia.
  - unfold asyncs in *. rewrite flat_map_app, app_length. destruct J3 as [(-> & _)|(-> & _)]; cbn [length]; rewrite ?Nat.add_0_r, ?app_nil_r; [exact I4|].
    rewrite seq_app, map_app. cbn [seq map Nat.add]. rewrite <- I4, I3. reflexivity.
Qed.

Lemma ids_run id aid es : forall s l s' o, Inv false false s l -> ids id aid s l -> run es s = Some (s', o) -> ids id aid s' (l ++ o).
Proof.
  intros s l s' o H J X. destruct (run_cases _ _ _ _ _ _ X) as [N|(es' & -> & N)].
  - revert s l s' o H J X N. induction es as [|e es IH]; intros s l s' o H J X N; cbn [PoolModel.run] in X; [injection X as <- <-; rewrite app_nil_r; exact J|].
    destruct (step e s) as [(s1 & o1)|] eqn:E; [|discriminate]. destruct (run es s1) as [(s2 & o2)|] eqn:E2; [|discriminate]. injection X as <- <-. rewrite app_assoc.
    apply (IH s1 (l ++ o1) s2 o2); auto; [|apply (ids_step _ _ e s); auto; exact (n_G _ _ _ _ H)|intros I; apply N; right; exact I].
    apply (Inv_step burst nw _ _ e s); auto; try discriminate. intros ->. apply N. left. reflexivity.
  - assert (K : forall es s l s' o, Inv false false s l -> ids id aid s l -> run es s = Some (s', o) -> ~ In EStop es -> ids id aid s' (l ++ o) /\ Inv false false s' (l ++ o)).
    { clear. induction es as [|e es IH]; intros s l s' o H J X N; cbn [PoolModel.run] in X; [injection X as <- <-; rewrite app_nil_r; auto|].
      destruct (step e s) as [(s1 & o1)|] eqn:E; [|discriminate]. destruct (run es s1) as [(s2 & o2)|] eqn:E2; [|discriminate]. injection X as <- <-. rewrite app_assoc.
      apply (IH s1 (l ++ o1) s2 o2); auto; [|apply (ids_step _ _ e s); auto; exact (n_G _ _ _ _ H)|intros I; apply N; right; exact I].
      apply (Inv_step burst nw _ _ e s); auto; try discriminate. intros ->. apply N. left. reflexivity. }
    apply run_app in X. destruct X as (s1 & o1 & o2 & X1 & X2 & ->). destruct (K _ _ _ _ _ H J X1 N) as (K1 & K2). rewrite app_assoc. cbn [PoolModel.run] in X2. destruct (step EStop s1) as [(s2 & o3)|] eqn:E; [|discriminate]. injection X2 as <- <-. rewrite app_nil_r. apply (ids_step _ _ EStop s1); auto. exact (n_G _ _ _ _ K2).
Qed.

(** ** Loads *)
Definition fed (l : list obs) (c : nat) : bool := existsb (fun o => match o with OFed d => d =? c | _ => false end) l.
Definition torn (l : list obs) (c : nat) : bool := existsb (fun o => match o with OTorn d => d =? c | _ => false end) l.
Definition serves (s : st) (w : nat) (l : list obs) (c : nat) : bool :=
  match c_worker (s_conn s c) with Some w' => (w' =? w) && fed l c && negb (torn l c) | None => false end.

Lemma fed_of l c : fed l c = negb (cnt oFed (of c l) =? 0).
Proof.
  induction l as [|o l IH]; [reflexivity|]. cbn [fed existsb]. fold (fed l c). rewrite IH. unfold of. cbn [filter]. destruct o; cbn [oabout]; try destruct (Nat.eqb_spec c0 c); cbn; auto.
Qed.
Lemma torn_of l c : torn l c = negb (cnt oTorn (of c l) =? 0).
Proof.
  induction l as [|o l IH]; [reflexivity|]. cbn [torn existsb]. fold (torn l c). rewrite IH. unfold of. cbn [filter]. destruct o; cbn [oabout]; try destruct (Nat.eqb_spec c0 c); cbn; auto.
Qed.

Inductive lstep (s s' : st) (o : list obs) : Prop :=
| ls_no : s_load s' = s_load s -> (forall c w, c_worker (s_conn s c) = Some w -> cnt oTorn (of c o) = 0) -> (forall c, cnt oFed (of c o) = 0) -> lstep s s' o
| ls_in c w : c_worker (s_conn s c) = Some w -> o = [OFed c] -> s_load s' = upd (s_load s) w (inc (s_load s w)) -> lstep s s' o
| ls_out c w : c_worker (s_conn s c) = Some w -> o = [OTorn c] -> s_load s' = upd (s_load s) w (dec (s_load s w)) -> lstep s s' o.

Lemma load_dterm c s : s_load (disp_terminate c s) = s_load s.
Proof. unfold disp_terminate. destruct (c_worker (s_conn s c)); reflexivity. Qed.
Lemma load_wterm c s s' o : worker_terminate c s = (s', o) -> s_load s' = s_load s /\ (o = [] \/ o = [OUb c]).
Proof. unfold worker_terminate. destruct (c_worker (s_conn s c)); intros X; injection X as <- <-; auto. Qed.

Definition fto (o : obs) : bool := match o with OFed _ | OTorn _ => true | _ => false end.
Lemma fto_of c o : forallb (fun x => negb (fto x)) o = true -> cnt oFed (of c o) = 0 /\ cnt oTorn (of c o) = 0.
Proof.
  induction o as [|x o IH]; [auto|]. cbn [forallb]. intros E. apply andb_true_iff in E. destruct E as (E1 & E2). destruct (IH E2) as (I1 & I2). unfold of in *. cbn [filter]. destruct (oabout c x); [cbn [cnt]; rewrite I1, I2|auto]. destruct x; try discriminate; auto.
Qed.
Lemma ls_none s s' o : s_load s' = s_load s -> forallb (fun x => negb (fto x)) o = true -> lstep s s' o.
Proof. intros E F. apply ls_no; [exact E|intros c w _; apply (proj2 (fto_of c o F))|intros c; apply (proj1 (fto_of c o F))]. Qed.

Lemma load_step e s s' o : step e s = Some (s', o) -> e <> EStop -> G s -> lstep s s' o.
Proof.
  intros X NS g. unfold PoolModel.step in X. destruct (s_stop s); [discriminate|].
  destruct e as [|c|c|fd w ok|c w tmo ok|c i|c|t|t|t ch|].
  - injection X as <- <-. apply ls_none; reflexivity.
  - destruct (c <? s_nc s); [|discriminate]. injection X as <- <-. apply ls_none; reflexivity.
  - destruct (c_worker _); [|discriminate]. injection X as X. destruct (load_wterm _ _ _ _ X) as (E & O1); destruct O1; subst; apply ls_none; auto.
  - destruct (_ && _); [|discriminate]. destruct ok; [destruct (existsb _ _); [discriminate|]|]; injection X as <- <-; apply ls_none; reflexivity.
  - destruct (_ && _); [|discriminate]. destruct ok; injection X as <- <-; apply ls_none; try reflexivity. cbn [post w_q s_load]. rewrite load_dterm. reflexivity.
  - destruct (c_worker _); [|discriminate]. destruct (_ && _); [|discriminate]. unfold io_step in X. destruct i as [bs [|]|[|] rs|wr res]; destruct (c_recv (s_conn s c)); try discriminate.
    1-2: (destruct (worker_terminate c _) as (s2 & o2) eqn:E; destruct (load_wterm _ _ _ _ E) as (E1 & E2); injection X as <- <-; apply ls_none; [exact E1|destruct E2; subst o2; reflexivity]).
    4-6: (destruct (worker_terminate c _) as (s2 & o2) eqn:E; destruct (load_wterm _ _ _ _ E) as (E1 & E2); injection X as <- <-; apply ls_none; [exact E1|destruct E2; subst o2; reflexivity]).
    1-6: (injection X as <- <-; apply ls_none; reflexivity).
    destruct res as [[|]|]; [injection X as <- <-; apply ls_none; destruct wr; reflexivity|injection X as <- <-; apply ls_none; destruct wr; reflexivity|].
    destruct (worker_terminate c _) as (s2 & o2) eqn:E; destruct (load_wterm _ _ _ _ E) as (E1 & E2); injection X as <- <-; apply ls_none; [rewrite E1; destruct wr; reflexivity|destruct E2; subst o2; reflexivity].
  - destruct (c_worker _); [|discriminate]. destruct (_ && _); [|discriminate]. injection X as <- <-. apply ls_none; reflexivity.
  - destruct (idle t s); [|discriminate]. injection X as <- <-. apply ls_none; reflexivity.
  - destruct (s_cur s t); [|discriminate]. destruct (s_left s t); [discriminate|]. destruct (s_q s t); [injection X as <- <-; apply ls_none; reflexivity|]. destruct t as [|[|w]]; injection X as <- <-; apply ls_none; try reflexivity. destruct (s_dead s); reflexivity.
  - destruct (s_cur s t) as [|a rest] eqn:EC; [discriminate|]. assert (HM : home t a s) by (apply (g_home s g); rewrite EC; left; reflexivity). destruct ch as [ok thr fd]. destruct a as [i|c|c|c|c|c|c|c ret|c b|fa i| |c|c|c|c|c|c|c ret]; cbn [act_step] in X.
    + destruct thr; [injection X as <- <-; apply ls_none; reflexivity|]. destruct (existsb _ _); [discriminate|]. injection X as <- <-. apply ls_none; [|reflexivity]. destruct ok; [reflexivity|]. rewrite load_dterm. reflexivity.
    + injection X as <- <-. apply ls_none; [|reflexivity]. rewrite load_dterm. reflexivity.
    + destruct (c_term _); injection X as <- <-; apply ls_none; reflexivity.
    + destruct (pool_find _ _); injection X as <- <-; apply ls_none; reflexivity.
    + destruct ok; injection X as <- <-; apply ls_none; rewrite ?load_dterm; reflexivity.
    + destruct ok; [injection X as <- <-; apply ls_none; try destruct (s_tls s); reflexivity|]. destruct t as [|[|w]]; injection X as <- <-; apply ls_none; reflexivity.
    + destruct (c_term _); injection X as <- <-; apply ls_none; reflexivity.
    + destruct (c_term _); [injection X as <- <-; apply ls_none; reflexivity|]. destruct (negb _); [injection X as <- <-; apply ls_none; reflexivity|]. cbn [go w_cur s_tls] in X. destruct (s_tls s); [destruct ret|]; [injection X as <- <-; apply ls_none; reflexivity| |injection X as <- <-; apply ls_none; reflexivity].
      injection X as X. destruct (load_wterm _ _ _ _ X) as (E & O1); destruct O1; subst; apply ls_none; auto.
    + destruct thr; injection X as <- <-; apply ls_none; auto. destruct b; reflexivity.
    + injection X as <- <-. apply ls_none; reflexivity.
    + injection X as <- <-. apply ls_none; reflexivity.
    + cbn in HM. destruct (HM c eq_refl) as (w & EW & ->). injection X as <- <-. eapply ls_in; [exact EW|reflexivity|reflexivity].
    + cbn in HM. destruct (HM c eq_refl) as (w & EW & ->). cbn [go w_cur s_conn] in X. rewrite EW in X. injection X as <- <-. eapply ls_out; [exact EW|reflexivity|reflexivity].
    + cbn [go w_cur s_conn] in X. destruct (c_worker (s_conn s c)) as [w|] eqn:EW; injection X as <- <-; [eapply ls_out; [exact EW|reflexivity|reflexivity]|]. apply ls_no; [reflexivity| |].
      * intros d w E. unfold of. cbn [filter oabout]. destruct (Nat.eqb_spec c d); [congruence|reflexivity].
      * intros d. unfold of. cbn [filter oabout]. destruct (c =? d); reflexivity.
    + injection X as <- <-. apply ls_none; reflexivity.
    + injection X as <- <-. apply ls_none; reflexivity.
    + injection X as <- <-. apply ls_none; reflexivity.
    + destruct (c_worker _); injection X as <- <-; apply ls_none; reflexivity.
  - congruence.
Qed.

Lemma vstep_worker tls dead cm fo c v o v' w : vstep tls dead cm fo c v o v' -> c_worker (v_k v) = Some w -> c_worker (v_k v') = Some w.
Proof. intros H E. destruct v as [[fd wk term evc evs arm rs recv] w0 d u lv]. cbn in E. subst wk. destruct tls; vinv H; spl; norm; try congruence; reflexivity. Qed.

Lemma worker_step e s s' o l c w : Inv false false s l -> step e s = Some (s', o) -> e <> EStop -> c_worker (s_conn s c) = Some w -> c_worker (s_conn s' c) = Some w.
Proof.
  intros H X N E. destruct (sim_step burst nw false false e s s' o X N (n_G _ _ _ _ H) (Inv_HD _ _ _ _ H)) as (_ & V0); try discriminate.
  destruct (V0 c) as [(Q & _)|[(L & VS)|(Q & _)]].
  - change (c_worker (v_k (see s' c)) = Some w). rewrite Q. exact E.
  - exact (vstep_worker _ _ _ _ _ _ _ _ _ VS E).
  - exfalso. destruct (g_new s (n_G _ _ _ _ H) c) as (Z & _); [lia|]. rewrite Z in E. discriminate.
Qed.

Definition total (s : st) (w : nat) (l : list obs) : nat := length (filter (serves s w l) (seq 0 (s_nc s))).

Lemma count_ext p q n : (forall c, c < n -> p c = q c) -> length (filter p (seq 0 n)) = length (filter q (seq 0 n)).
Proof. intros H. induction n as [|n IH]; [reflexivity|]. rewrite seq_S, !filter_app, !app_length, IH by (intros; apply H; lia). cbn. rewrite (H n) by lia. destruct (q n); reflexivity. Qed.
Lemma count_one p q n c : c < n -> p c = false -> q c = true -> (forall d, d <> c -> d < n -> p d = q d) -> length (filter q (seq 0 n)) = S (length (filter p (seq 0 n))).
Proof.
  intros L P Q H. induction n as [|n IH]; [lia|]. rewrite seq_S, !filter_app, !app_length. cbn. destruct (Nat.eq_dec c n) as [->|N].
  - rewrite P, Q. rewrite (count_ext p q n) by (intros; apply H; lia). cbn. lia.
  - rewrite IH by (try (intros; apply H); lia). rewrite (H n) by lia. lia.
Qed.
Lemma count_le p n : length (filter p (seq 0 n)) <= n.
Proof. induction n as [|n IH]; [auto|]. rewrite seq_S, filter_app, app_length. cbn. destruct (p n); cbn; lia. Qed.
Lemma count_more p n m : n <= m -> (forall c, n <= c -> p c = false) -> length (filter p (seq 0 m)) = length (filter p (seq 0 n)).
Proof. intros L H. induction m as [|m IH]; [assert (n = 0) by lia; subst; reflexivity|]. destruct (Nat.eq_dec n (S m)) as [->|N]; [reflexivity|]. rewrite seq_S, filter_app, app_length, IH by lia. cbn. rewrite (H m) by lia. cbn. lia. Qed.

Lemma load_inv e s s' o l : Inv true true s l -> Inv false false s l -> Inv true true s' (l ++ o) -> step e s = Some (s', o) -> e <> EStop -> (N.of_nat (s_nc s') < M64)%N ->
  (forall w, s_load s w = N.of_nat (total s w l)) -> forall w, s_load s' w = N.of_nat (total s' w (l ++ o)).
Proof.
  intros H H0 H' X N LT IH w.
  assert (NC : s_nc s <= s_nc s'). { destruct (sim_step burst nw false false e s s' o X N (n_G _ _ _ _ H) (Inv_HD _ _ _ _ H)) as ([_ _ _ NC] & _); try discriminate. exact NC. }
  assert (OLD : total s w l = length (filter (serves s w l) (seq 0 (s_nc s')))).
  { unfold total. symmetry. apply count_more; [exact NC|]. intros c L. unfold serves. destruct (g_new s (n_G _ _ _ _ H) c L) as (-> & _). reflexivity. }
  assert (OLE : total s w l <= s_nc s') by (rewrite OLD; apply count_le).
  assert (SAME : forall c, c < s_nc s' -> (forall w', c_worker (s_conn s c) = Some w' -> cnt oTorn (of c o) = 0) -> cnt oFed (of c o) = 0 -> serves s' w (l ++ o) c = serves s w l c).
  { intros c L T F. unfold serves. destruct (c_worker (s_conn s c)) as [w'|] eqn:EW.
    - rewrite (worker_step _ _ _ _ _ _ _ H0 X N EW). rewrite !fed_of, !torn_of, of_app, !cnt_app, F, (T w' eq_refl), !Nat.add_0_r. reflexivity.
    - destruct (c_worker (s_conn s' c)) as [w'|]; [|reflexivity]. rewrite fed_of, of_app, cnt_app, F, Nat.add_0_r.
      assert (Z : cnt oFed (of c l) = 0). { destruct (le_lt_dec (s_nc s) c) as [L1|L1]; [rewrite (n_new _ _ _ _ H c L1); reflexivity|]. destruct (n_C _ _ _ _ H eq_refl eq_refl) as (_ & HC). pose proof (c_fed _ _ (HC c L1)) as K. cbn [see v_k] in K. rewrite EW in K. cbn [wkd] in K. lia. }
      rewrite Z. cbn. rewrite andb_false_r. reflexivity. }
  destruct (load_step e s s' o X N (n_G _ _ _ _ H)) as [EL T F|c w' EW -> EL|c w' EW -> EL].
  - rewrite EL, IH, OLD. unfold total. f_equal. apply count_ext. intros c L. symmetry. apply SAME; auto. intros w' E. exact (T c w' E).
  - assert (L : c < s_nc s). { destruct (le_lt_dec (s_nc s) c) as [L1|L1]; [|exact L1]. destruct (g_new s (n_G _ _ _ _ H) c L1) as (Z & _). rewrite Z in EW. discriminate. }
    destruct (n_C _ _ _ _ H eq_refl eq_refl) as (_ & HC). destruct (HC c L) as [K1 _ _ K4]. destruct (n_C _ _ _ _ H' eq_refl eq_refl) as (_ & HC'). destruct (HC' c ltac:(lia)) as [J1 _ _ _].
    cbn [see v_k] in K1, K4, J1. rewrite EW in K1, K4. pose proof (worker_step _ _ _ _ _ _ _ H0 X N EW) as EW'. rewrite EW' in J1. cbn [wkd] in *. rewrite of_app, cnt_app in J1. unfold of in J1 at 2. cbn [filter oabout] in J1. rewrite Nat.eqb_refl in J1. cbn [cnt oFed] in J1.
    assert (Z1 : cnt oFed (of c l) = 0) by lia. assert (Z2 : cnt oTorn (of c l) = 0) by lia. rewrite EL. unfold upd. destruct (Nat.eqb_spec w w') as [<-|NW].
    + unfold total. pose proof (count_le (serves s' w (l ++ [OFed c])) (s_nc s')) as LE. pose proof (count_one (serves s w l) (serves s' w (l ++ [OFed c])) (s_nc s') c) as K. revert LE. rewrite K.
      * intros LE. rewrite <- OLD in *. rewrite IH. unfold inc. rewrite N.mod_small by lia. lia.
      * lia.
      * unfold serves. rewrite EW, fed_of, Z1. cbn. rewrite andb_false_r. reflexivity.
      * unfold serves. rewrite EW', Nat.eqb_refl, fed_of, torn_of, of_app, !cnt_app, Z1, Z2. unfold of. cbn [filter oabout]. rewrite Nat.eqb_refl. reflexivity.
      * intros d ND LD. symmetry. apply SAME; [exact LD|intros w' _|]; unfold of; cbn [filter oabout]; destruct (Nat.eqb_spec c d); congruence || reflexivity.
    + rewrite IH, OLD. unfold total. f_equal. apply count_ext. intros d LD. destruct (Nat.eq_dec d c) as [->|ND].
      * unfold serves. rewrite EW, EW'. destruct (Nat.eqb_spec w' w); [congruence|reflexivity].
      * symmetry. apply SAME; [exact LD|intros w0 _|]; unfold of; cbn [filter oabout]; destruct (Nat.eqb_spec c d); congruence || reflexivity.
  - assert (L : c < s_nc s). { destruct (le_lt_dec (s_nc s) c) as [L1|L1]; [|exact L1]. destruct (g_new s (n_G _ _ _ _ H) c L1) as (Z & _). rewrite Z in EW. discriminate. }
    destruct (n_C _ _ _ _ H' eq_refl eq_refl) as (_ & HC'). destruct (HC' c ltac:(lia)) as [J1 J2 _ J4].
    cbn [see v_k] in J1, J2, J4. pose proof (worker_step _ _ _ _ _ _ _ H0 X N EW) as EW'. rewrite EW' in J1, J4. cbn [wkd] in *. rewrite of_app, !cnt_app in J1, J2, J4. unfold of in J1, J2, J4. cbn [filter oabout] in J1, J2, J4. rewrite Nat.eqb_refl in J1, J2, J4. cbn [cnt oFed oTorn] in J1, J2, J4. fold (of c l) in J1, J2, J4. pose proof (b2n_le (c_term (s_conn s' c))).
    assert (Z1 : cnt oFed (of c l) = 1) by lia. assert (Z2 : cnt oTorn (of c l) = 0) by lia. rewrite EL. unfold upd. destruct (Nat.eqb_spec w w') as [<-|NW].
    + unfold total. pose proof (count_one (serves s' w (l ++ [OTorn c])) (serves s w l) (s_nc s') c) as K. rewrite IH. rewrite <- OLD in K. rewrite K.
      * unfold dec. rewrite Nat2N.inj_succ. replace (N.succ (N.of_nat (length (filter (serves s' w (l ++ [OTorn c])) (seq 0 (s_nc s'))))) + (M64 - 1))%N with (N.of_nat (length (filter (serves s' w (l ++ [OTorn c])) (seq 0 (s_nc s')))) + 1 * M64)%N by (unfold M64; lia).
        rewrite N.mod_add by discriminate. apply N.mod_small. pose proof (count_le (serves s' w (l ++ [OTorn c])) (s_nc s')). lia.
      * lia.
      * unfold serves. rewrite EW', torn_of, of_app, cnt_app. unfold of. cbn [filter oabout]. rewrite !Nat.eqb_refl. cbn [cnt oTorn]. match goal with |- context [negb (negb (?x =? 0))] => destruct (Nat.eqb_spec x 0); [lia|] end. cbn. apply andb_false_r.
      * unfold serves. rewrite EW, Nat.eqb_refl, fed_of, torn_of, Z1, Z2. reflexivity.
      * intros d ND LD. apply SAME; [exact LD|intros w' _|]; unfold of; cbn [filter oabout]; destruct (Nat.eqb_spec c d); congruence || reflexivity.
    + rewrite IH, OLD. unfold total. f_equal. apply count_ext. intros d LD. destruct (Nat.eq_dec d c) as [->|ND].
      * unfold serves. rewrite EW, EW'. destruct (Nat.eqb_spec w' w); [congruence|reflexivity].
      * symmetry. apply SAME; [exact LD|intros w0 _|]; unfold of; cbn [filter oabout]; destruct (Nat.eqb_spec c d); congruence || reflexivity.
Qed.

Lemma load_run es : forall s l s' o, Inv true true s l -> Inv false false s l -> run es s = Some (s', o) -> ~ In EStop es -> along burst nw calm_ev es s -> along burst nw feed_ev es s -> (N.of_nat (s_nc s') < M64)%N ->
  (forall w, s_load s w = N.of_nat (total s w l)) -> forall w, s_load s' w = N.of_nat (total s' w (l ++ o)).
Proof.
  induction es as [|e es IH]; intros s l s' o H H0 X N CM FO LT E; cbn [PoolModel.run] in X; [injection X as <- <-; rewrite app_nil_r; exact E|].
  cbn [along] in CM, FO. destruct (step e s) as [(s1 & o1)|] eqn:E1; [|discriminate]. destruct (run es s1) as [(s2 & o2)|] eqn:E2; [|discriminate]. injection X as <- <-. rewrite app_assoc.
  assert (N1 : e <> EStop) by (intros ->; apply N; left; reflexivity). assert (N2 : ~ In EStop es) by (intros I; apply N; right; exact I).
  assert (H1 : Inv true true s1 (l ++ o1)) by (apply (Inv_step burst nw _ _ e s); auto; intros _; [exact (proj1 CM)|exact (proj1 FO)]).
  assert (H2 : Inv false false s1 (l ++ o1)) by (apply (Inv_step burst nw _ _ e s); auto; discriminate).
  apply (IH s1 (l ++ o1) s2 o2); auto; [exact (proj2 CM)|exact (proj2 FO)|]. apply (load_inv e s); auto. pose proof (nc_run burst nw es s1 s2 o2 (l ++ o1) H2 E2 N2). lia.
Qed.
End Ids2.

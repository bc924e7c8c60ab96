(** The pool seen from one connection. *)
From Coq Require Import Arith NArith List Bool Lia.
From Verif Require Import PoolModel.
Import ListNotations.

(** ** Actions by connection and thread *)
Inductive kind := KW | KD | KU | KN.
Definition kind_of (a : act) : kind :=
  match a with
  | AFeed _ | AWExch _ | AGo _ _ | AInc _ | ATearW _ | APostDel _ => KW
  | ADispTerm _ | ADExch _ | ADel _ | ASetup _ | ATearD _ | AOff _ | ARelease _ => KD
  | ACb _ _ | APostGo _ _ => KU
  | AConn _ | AErr _ _ | AFatal => KN
  end.
Definition conn_of (a : act) : option nat :=
  match a with
  | AFeed c | AWExch c | AGo c _ | AInc c | ATearW c | APostDel c
  | ADispTerm c | ADExch c | ADel c | ASetup c | ATearD c | AOff c | ARelease c
  | ACb c _ | APostGo c _ => Some c
  | AConn _ | AErr _ _ | AFatal => None
  end.
Definition kind_eqb (a b : kind) : bool := match a, b with KW, KW | KD, KD | KU, KU | KN, KN => true | _, _ => false end.
Definition about (kd : kind) (c : nat) (a : act) : bool :=
  kind_eqb (kind_of a) kd && match conn_of a with Some c' => c' =? c | None => false end.
Definition istask (a : act) : bool :=
  match a with AInc _ | ATearW _ | ATearD _ | APostDel _ | AOff _ | ARelease _ | APostGo _ _ => false | _ => true end.

Definition V (kd : kind) (c : nat) (t : tid) (s : st) : list act := filter (about kd c) (s_cur s t ++ s_q s t).

(** A connection and everything that is still to be done about it: by its
    worker, by the dispatcher, by the user thread; is it in the pool. *)
Record view := mkV { v_k : conn; v_w : list act; v_d : list act; v_u : list act; v_lv : bool }.
Definition vw (c : nat) (s : st) : list act := match c_worker (s_conn s c) with Some w => V KW c (W w) s | None => [] end.
Definition live (c : nat) (s : st) : bool := existsb (fun x => snd x =? c) (s_pool s).
Definition see (s : st) (c : nat) : view := mkV (s_conn s c) (vw c s) (V KD c D s) (V KU c U s) (live c s).

Definition vk (f : conn -> conn) (v : view) := mkV (f (v_k v)) (v_w v) (v_d v) (v_u v) (v_lv v).
Definition vput (f : list act -> list act) (kd : kind) (v : view) : view :=
  match kd with
  | KW => mkV (v_k v) (f (v_w v)) (v_d v) (v_u v) (v_lv v)
  | KD => mkV (v_k v) (v_w v) (f (v_d v)) (v_u v) (v_lv v)
  | KU => mkV (v_k v) (v_w v) (v_d v) (f (v_u v)) (v_lv v)
  | KN => v
  end.
Definition vpush (a : act) (v : view) : view := vput (fun l => l ++ [a]) (kind_of a) v.
Definition vget (kd : kind) (v : view) : list act := match kd with KW => v_w v | KD => v_d v | KU => v_u v | KN => [] end.
Definition vgone (v : view) := mkV (v_k v) (v_w v) (v_d v) (v_u v) false.

Definition home (t : tid) (a : act) (s : st) : Prop :=
  match kind_of a with
  | KD => t = D
  | KU => t = U
  | KW => forall c, conn_of a = Some c -> exists w, c_worker (s_conn s c) = Some w /\ t = W w
  | KN => match a with AErr _ _ => t = U | _ => t = D end
  end.

Lemma tid_eqb_spec a b : reflect (a = b) (tid_eqb a b).
Proof. destruct a as [|i], b as [|j]; cbn; try (constructor; congruence). destruct (Nat.eqb_spec i j); constructor; congruence. Qed.
Lemma tid_refl a : tid_eqb a a = true.
Proof. destruct (tid_eqb_spec a a); congruence. Qed.

Lemma updt_same {A} (f : tid -> A) i x : updt f i x i = x.
Proof. unfold updt. rewrite tid_refl. reflexivity. Qed.
Lemma updt_diff {A} (f : tid -> A) i x j : j <> i -> updt f i x j = f j.
Proof. intros N. unfold updt. destruct (tid_eqb_spec j i); congruence. Qed.
Lemma upd_same {A} (f : nat -> A) i x : upd f i x i = x.
Proof. unfold upd. rewrite Nat.eqb_refl. reflexivity. Qed.
Lemma upd_diff {A} (f : nat -> A) i x j : j <> i -> upd f i x j = f j.
Proof. intros N. unfold upd. destruct (Nat.eqb_spec j i); congruence. Qed.

Lemma V_post kd c t t' a s : V kd c t (post t' a s) = V kd c t s ++ (if tid_eqb t t' && about kd c a then [a] else []).
Proof.
  unfold V, post. cbn [s_cur s_q w_q]. destruct (tid_eqb_spec t t') as [->|N]; [rewrite updt_same|rewrite updt_diff by exact N; rewrite app_nil_r; reflexivity].
  rewrite app_assoc, filter_app. cbn [filter andb]. reflexivity.
Qed.
Lemma V_front kd c t t' l s : V kd c t (front t' l s) = (if tid_eqb t t' then filter (about kd c) l else []) ++ V kd c t s.
Proof.
  unfold V, front, go. cbn [s_cur s_q w_cur]. destruct (tid_eqb_spec t t') as [->|N]; [rewrite updt_same|rewrite updt_diff by exact N; reflexivity].
  rewrite <- app_assoc, filter_app. reflexivity.
Qed.

Lemma about_diff kd c c' a : conn_of a = Some c' -> c' <> c -> about kd c a = false.
Proof. intros E N. unfold about. rewrite E. destruct (Nat.eqb_spec c' c); [congruence|]. apply andb_false_r. Qed.
Lemma about_same kd c a : conn_of a = Some c -> about kd c a = kind_eqb (kind_of a) kd.
Proof. intros E. unfold about. rewrite E, Nat.eqb_refl. apply andb_true_r. Qed.
Lemma about_none kd c a : conn_of a = None -> about kd c a = false.
Proof. intros E. unfold about. rewrite E. apply andb_false_r. Qed.

Lemma see_ext s s' c : s_conn s' c = s_conn s c -> (forall kd t, V kd c t s' = V kd c t s) -> live c s' = live c s -> see s' c = see s c.
Proof. intros E1 E2 E3. unfold see, vw. rewrite E1, !E2, E3. destruct (c_worker (s_conn s c)); rewrite ?E2; reflexivity. Qed.

Lemma see_post_other t a s c : conn_of a <> Some c -> see (post t a s) c = see s c.
Proof.
  intros N. apply see_ext; [reflexivity| |reflexivity]. intros kd t'. rewrite V_post.
  assert (X : about kd c a = false). { destruct (conn_of a) as [c'|] eqn:E; [apply about_diff with c'; congruence|apply about_none; exact E]. }
  rewrite X, andb_false_r, app_nil_r. reflexivity.
Qed.

Lemma see_post t a s c : conn_of a = Some c -> home t a s -> see (post t a s) c = vpush a (see s c).
Proof.
  intros E H. unfold see, vw, vpush. rewrite !V_post, !(about_same _ _ _ E). unfold home in H. cbn [post w_q s_conn].
  destruct (kind_of a) eqn:K; cbn [vput kind_eqb v_k v_w v_d v_u v_lv].
  - destruct (H c E) as (w & Hw & ->). rewrite Hw, V_post, (about_same _ _ _ E), K, tid_refl, !andb_false_r, !app_nil_r. cbn [kind_eqb andb]. reflexivity.
  - subst t. cbn [tid_eqb Nat.eqb andb]. rewrite !app_nil_r. destruct (c_worker (s_conn s c)); [|reflexivity]. rewrite V_post, (about_same _ _ _ E), K. cbn [kind_eqb]. rewrite andb_false_r, app_nil_r. reflexivity.
  - subst t. cbn [tid_eqb Nat.eqb andb]. rewrite !app_nil_r. destruct (c_worker (s_conn s c)); [|reflexivity]. rewrite V_post, (about_same _ _ _ E), K. cbn [kind_eqb]. rewrite andb_false_r, app_nil_r. reflexivity.
  - destruct a; discriminate.
Qed.

Lemma filter_all {A} (p : A -> bool) l : (forall x, In x l -> p x = true) -> filter p l = l.
Proof. induction l as [|x l IH]; intros H; [reflexivity|]. cbn. rewrite (H x (or_introl eq_refl)), IH; [reflexivity|]. intros y I. apply H. right. exact I. Qed.
Lemma filter_none {A} (p : A -> bool) l : (forall x, In x l -> p x = false) -> filter p l = [].
Proof. induction l as [|x l IH]; intros H; [reflexivity|]. cbn. rewrite (H x (or_introl eq_refl)), IH; [reflexivity|]. intros y I. apply H. right. exact I. Qed.

Lemma see_front_other t l s c : (forall a, In a l -> conn_of a <> Some c) -> see (front t l s) c = see s c.
Proof.
  intros N. apply see_ext; [reflexivity| |reflexivity]. intros kd t'. rewrite V_front.
  assert (X : filter (about kd c) l = []). { apply filter_none. intros a I. specialize (N a I). destruct (conn_of a) as [c'|] eqn:E; [apply about_diff with c'; congruence|apply about_none; exact E]. }
  rewrite X. destruct (tid_eqb t' t); reflexivity.
Qed.

Lemma see_front t l kd s c : (forall a, In a l -> conn_of a = Some c /\ kind_of a = kd /\ home t a s) -> kd <> KN -> l <> [] -> see (front t l s) c = vput (app l) kd (see s c).
Proof.
  intros H NK NL. destruct l as [|a0 l0]; [congruence|]. set (l := a0 :: l0) in *. destruct (H a0 (or_introl eq_refl)) as (E0 & K0 & H0).
  assert (FS : filter (about kd c) l = l). { apply filter_all. intros a I. destruct (H a I) as (E & K & _). rewrite (about_same _ _ _ E), K. destruct kd; reflexivity. }
  assert (FO : forall kd', kd' <> kd -> filter (about kd' c) l = []). { intros kd' N. apply filter_none. intros a I. destruct (H a I) as (E & K & _). rewrite (about_same _ _ _ E), K. destruct kd, kd'; try reflexivity; congruence. }
  unfold see, vw. cbn [front go w_cur s_conn]. unfold home in H0. rewrite K0 in H0. rewrite !V_front. destruct kd; cbn [vput v_k v_w v_d v_u v_lv]; [| | |congruence].
  - destruct (H0 c E0) as (w & Hw & ->). rewrite Hw, V_front, tid_refl, FS, !FO by discriminate. destruct (tid_eqb D (W w)), (tid_eqb U (W w)); reflexivity.
  - subst t. cbn [tid_eqb Nat.eqb]. rewrite FS. destruct (c_worker (s_conn s c)) as [w|]; [rewrite V_front, FO by discriminate; destruct (tid_eqb (W w) D)|]; reflexivity.
  - subst t. cbn [tid_eqb Nat.eqb]. rewrite FS. destruct (c_worker (s_conn s c)) as [w|]; [rewrite V_front|]; reflexivity.
Qed.

Lemma see_on_other c' f s c : c' <> c -> see (on c' f s) c = see s c.
Proof. intros N. apply see_ext; [cbn; apply upd_diff; congruence|reflexivity|reflexivity]. Qed.
Lemma see_on c f s : c_worker (f (s_conn s c)) = c_worker (s_conn s c) -> see (on c f s) c = vk f (see s c).
Proof. intros E. unfold see, vw, vk. cbn [on w_conn s_conn v_k v_w v_d v_u v_lv]. rewrite upd_same, E. reflexivity. Qed.

Lemma see_left f s c : see (w_left f s) c = see s c. Proof. reflexivity. Qed.
Lemma see_load f s c : see (w_load f s) c = see s c. Proof. reflexivity. Qed.
Lemma see_aid f s c : see (w_aid f s) c = see s c. Proof. reflexivity. Qed.
Lemma see_listen f s c : see (w_listen f s) c = see s c. Proof. reflexivity. Qed.
Lemma see_dead s c : see (w_dead s) c = see s c. Proof. reflexivity. Qed.

(** Taking the next action off a thread's list. *)
Lemma V_go kd c t t' l s : V kd c t (go t' l s) = if tid_eqb t t' then filter (about kd c) (l ++ s_q s t) else V kd c t s.
Proof. unfold V, go. cbn [s_cur s_q w_cur]. unfold updt. destruct (tid_eqb_spec t t') as [->|N]; reflexivity. Qed.

Lemma see_pop_other t a rest s c : s_cur s t = a :: rest -> conn_of a <> Some c -> see (go t rest s) c = see s c.
Proof.
  intros E N. apply see_ext; [reflexivity| |reflexivity]. intros kd t'. rewrite V_go. destruct (tid_eqb_spec t' t) as [->|D0]; [|reflexivity]. unfold V. rewrite E. cbn [app filter].
  assert (X : about kd c a = false). { destruct (conn_of a) as [c'|] eqn:E'; [apply about_diff with c'; congruence|apply about_none; exact E']. } rewrite X. reflexivity.
Qed.

Lemma see_pop t a rest s c : s_cur s t = a :: rest -> conn_of a = Some c -> home t a s -> vget (kind_of a) (see s c) = a :: tl (vget (kind_of a) (see s c)) /\ see (go t rest s) c = vput (@tl act) (kind_of a) (see s c).
Proof.
  intros E C H. assert (P : forall kd, V kd c t s = (if kind_eqb (kind_of a) kd then [a] else []) ++ filter (about kd c) (rest ++ s_q s t)).
  { intros kd. unfold V. rewrite E. cbn [app filter]. rewrite (about_same _ _ _ C). destruct (kind_eqb _ _); reflexivity. }
  unfold see, vw. cbn [go w_cur s_conn live s_pool]. rewrite !V_go. unfold home in H. destruct (kind_of a) eqn:K; cbn [vget vput v_k v_w v_d v_u v_lv].
  - destruct (H c C) as (w & Hw & ->). rewrite Hw, V_go, tid_refl, (P KW). cbn [kind_eqb app tl]. split; [reflexivity|]. f_equal.
    destruct (tid_eqb_spec D (W w)) as [X|X]; [|reflexivity]. injection X as <-. rewrite (P KD). reflexivity.
  - subst t. rewrite (P KD). cbn [kind_eqb app tl tid_eqb Nat.eqb]. split; [reflexivity|]. f_equal. destruct (c_worker (s_conn s c)) as [w|]; [|reflexivity]. rewrite V_go. destruct (tid_eqb_spec (W w) D) as [X|X]; [|reflexivity]. injection X as ->. rewrite (P KW). reflexivity.
  - subst t. rewrite (P KU). cbn [kind_eqb app tl tid_eqb Nat.eqb]. split; reflexivity.
  - destruct a; discriminate.
Qed.

(** Taking a task from the queue. *)
Lemma see_next t a q s c : s_cur s t = [] -> s_q s t = a :: q -> see (go t [a] (w_q (updt (s_q s) t q) s)) c = see s c.
Proof.
  intros E1 E2. apply see_ext; [reflexivity| |reflexivity]. intros kd t'. unfold V. cbn [go w_cur w_q s_cur s_q]. unfold updt. destruct (tid_eqb_spec t' t) as [->|N]; [rewrite E1, E2|]; reflexivity.
Qed.

(** ... and throwing it away. *)
Lemma see_drop_other t a q s c : s_cur s t = [] -> s_q s t = a :: q -> conn_of a <> Some c -> see (w_q (updt (s_q s) t q) s) c = see s c.
Proof.
  intros E1 E2 N. apply see_ext; [reflexivity| |reflexivity]. intros kd t'. unfold V. cbn [w_q s_cur s_q]. unfold updt. destruct (tid_eqb_spec t' t) as [->|N0]; [|reflexivity]. rewrite E1, E2. cbn [app filter].
  assert (X : about kd c a = false). { destruct (conn_of a) as [c'|] eqn:E'; [apply about_diff with c'; congruence|apply about_none; exact E']. } rewrite X. reflexivity.
Qed.

Lemma see_drop t a q s c : s_cur s t = [] -> s_q s t = a :: q -> conn_of a = Some c -> home t a s -> vget (kind_of a) (see s c) = a :: tl (vget (kind_of a) (see s c)) /\ see (w_q (updt (s_q s) t q) s) c = vput (@tl act) (kind_of a) (see s c).
Proof.
  intros E1 E2 C H. set (s1 := go t [a] (w_q (updt (s_q s) t q) s)).
  assert (X1 : s_cur s1 t = [a]) by (unfold s1; cbn; apply updt_same). destruct (see_pop t a [] s1 c X1 C H) as (Y1 & Y2).
  unfold s1 in Y1, Y2. rewrite (see_next t a q s c E1 E2) in *. split; [exact Y1|]. rewrite <- Y2. apply see_ext; [reflexivity| |reflexivity].
  intros kd t'. unfold V. cbn [go w_cur w_q s_cur s_q]. unfold updt. destruct (tid_eqb_spec t' t) as [->|N]; [rewrite E1|]; reflexivity.
Qed.

(** ** What can happen to one connection *)

Definition vdterm (c : nat) (v : view) : view := match c_worker (v_k v) with Some _ => vpush (AWExch c) v | None => vpush (ADExch c) v end.
Definition vwterm (c : nat) (v : view) : view * list obs := match c_worker (v_k v) with Some _ => (vpush (AWExch c) v, []) | None => (v, [OUb c]) end.

Definition vact (tls : bool) (c : nat) (a : act) (ok thr : bool) (v : view) : view * list obs :=
  match a with
  | ADispTerm _ => (vdterm c v, [])
  | ADExch _ => if c_term (v_k v) then (v, []) else (vput (app [ATearD c; ADel c]) KD (vk set_term v), [])
  | ADel _ => (vput (app [AOff c; ARelease c]) KD (vgone v), [])
  | ASetup _ => if ok then (vpush (ACb c true) v, []) else (vdterm c v, [])
  | AFeed _ => if ok then
                 let v1 := vput (app [AInc c]) KW (vk (fun k => set_recv (if tls then RHand else RPlain) (set_sock true tls k)) v) in
                 (if tls then v1 else vpush (ASetup c) v1, [])
               else (v, [])
  | AWExch _ => if c_term (v_k v) then (v, []) else (vput (app [ATearW c; APostDel c]) KW (vk set_term v), [])
  | AGo _ ret => if c_term (v_k v) then (v, [])
                 else if negb (c_evs (v_k v)) then (v, [OUb c])
                 else if tls then if ret then (vk (fun k => set_recv RTls (set_sock true true k)) v, []) else vwterm c v
                 else (vk (set_sock true true) v, [])
  | ACb _ b => if thr then (v, [OCb c b None]) else (if b then vput (app [APostGo c ok]) KU v else v, [OCb c b (Some ok)])
  | AInc _ => (v, [OFed c])
  | ATearW _ | ATearD _ => (vk (set_sock false false) v, [OTorn c])
  | APostDel _ => (vpush (ADel c) v, [])
  | AOff _ => (vpush (ACb c false) v, [])
  | ARelease _ => (vk (fun k => set_evc false (set_sock false false k)) v, [OClose c (c_fd (v_k v))])
  | APostGo _ ret => match c_worker (v_k v) with Some _ => (vpush (AGo c ret) v, []) | None => (v, [OUb c]) end
  | _ => (v, [])
  end.

Definition vio (c : nat) (i : io) (v : view) : option (view * list obs) :=
  let k := v_k v in
  let term (v : view) (o : list obs) := let '(v', o') := vwterm c v in Some (v', o ++ o') in
  match i, c_recv k with
  | IoRead bs fin, (RPlain | RTls) =>
      if fin then term v [OIo c (c_fd k); ORecv c bs] else Some (v, [OIo c (c_fd k); ORecv c bs])
  | IoRead _ false, RDummy => Some (v, [])
  | IoWrite fin rs, (RPlain | RDummy | RTls) =>
      let v1 := vk (fun k => set_sock true true (set_rs rs k)) v in
      if fin then term v1 [OIo c (c_fd k)] else Some (v1, [OIo c (c_fd k)])
  | IoHand wr res, RHand =>
      let v1 := if wr then vk (set_rs true) v else v in
      match res with
      | None => let '(v2, o) := vwterm c v1 in Some (v2, OIo c (c_fd k) :: o)
      | Some true => Some (vpush (ASetup c) (vk (fun k => set_recv RDummy (set_sock true false k)) v1), [OIo c (c_fd k)])
      | Some false => Some (vk (set_sock true true) v1, [OIo c (c_fd k)])
      end
  | _, _ => None
  end.

(** [cm]: a connection is never found established while its termination is
    under way; [fo]: no worker fails to take over a connection. *)
Inductive vstep (tls dead cm fo : bool) (c : nat) : view -> list obs -> view -> Prop :=
| vs_term v : vstep tls dead cm fo c v [] (vpush (ADispTerm c) v)
| vs_bad v : c_worker (v_k v) <> None -> vstep tls dead cm fo c v [] (vpush (AWExch c) v)
| vs_ready w v : (cm = true -> forall c', ~ In (ADExch c') (v_d v)) -> (forall c', ~ In (ADel c') (v_d v)) -> forallb istask (v_d v) = true -> c_evc (v_k v) = true -> c_worker (v_k v) = None ->
    vstep tls dead cm fo c v [] (vpush (AFeed c) (vk (fun k => set_worker w (set_evc false k)) v))
| vs_unready b v : forallb istask (v_d v) = true -> c_evc (v_k v) = true -> vstep tls dead cm fo c v [] (vdterm c (vk (set_evc b) v))
| vs_io i v o v' : forallb istask (v_w v) = true -> c_worker (v_k v) <> None -> c_evs (v_k v) = true -> c_arm (v_k v) = true -> vio c i v = Some (v', o) -> vstep tls dead cm fo c v o v'
| vs_sendq v : c_worker (v_k v) <> None -> c_evs (v_k v) = true -> c_rs (v_k v) = true -> vstep tls dead cm fo c v [] (vk (set_sock true true) v)
| vs_act a rest ok thr v v' o : (fo = true -> a = AFeed c -> ok = true) -> vget (kind_of a) v = a :: rest -> conn_of a = Some c -> vact tls c a ok thr (vput (@tl act) (kind_of a) v) = (v', o) -> vstep tls dead cm fo c v o v'
| vs_drop a rest v : dead = true -> vget (kind_of a) v = a :: rest -> conn_of a = Some c -> istask a = true -> kind_of a <> KU -> (a = ADel c -> c_worker (v_k v) <> None) -> vstep tls dead cm fo c v [] (vput (@tl act) (kind_of a) v).

(** A connection just made. *)
Inductive vnew (c : nat) : view -> Prop :=
| vn_accept fd w : vnew c (mkV (mkConn fd (Some w) false false false false false RNone) [AFeed c] [] [] true)
| vn_connect fd : vnew c (mkV (mkConn fd None false true false false false RNone) [] [] [] true)
| vn_refused fd : vnew c (mkV (mkConn fd None false false false false false RNone) [] [ADExch c] [] true).

(** ** Invariant of the whole that makes the views independent *)
Inductive shape (t : tid) : list act -> Prop :=
| sh_nil : shape t []
| sh_task a : istask a = true -> shape t [a]
| sh_w2 c : shape t [ATearW c; APostDel c]
| sh_w1 c : shape t [APostDel c]
| sh_d3 c : shape t [ATearD c; ADel c]
| sh_d1 c : shape t [AOff c; ARelease c]
| sh_d0 c : shape t [ARelease c]
| sh_inc c : shape t [AInc c]
| sh_go c r : shape t [APostGo c r].

Record G (s : st) : Prop := {
  g_home : forall t a, In a (s_cur s t ++ s_q s t) -> home t a s;
  g_lt : forall t a c, In a (s_cur s t ++ s_q s t) -> conn_of a = Some c -> c < s_nc s;
  g_shape : forall t, shape t (s_cur s t);
  g_task : forall t a, In a (s_q s t) -> istask a = true;
  g_evc : forall c, c_evc (s_conn s c) = true -> c_worker (s_conn s c) = None;
  g_new : forall c, s_nc s <= c -> s_conn s c = conn0 /\ live c s = false;
  g_pool : forall fd c, In (fd, c) (s_pool s) -> c_fd (s_conn s c) = fd;
  g_fds : NoDup (map fst (s_pool s));
  g_open : forall fd c, In (fd, c) (s_pool s) -> In fd (s_open s);
  g_del : forall t c, In (ADel c) (s_q s t) -> c_worker (s_conn s c) <> None;
  g_rel : forall c, In (ARelease c) (s_cur s D) -> ~ In (c_fd (s_conn s c)) (map fst (s_pool s)) }.

Definition oabout (c : nat) (o : obs) : bool :=
  match o with OCb d _ _ | OClose d _ | ORecv d _ | OIo d _ | OFed d | OTorn d | OUb d => d =? c | OAsync _ | OThrow _ | OErr _ _ => false end.

(** *** The invariant is kept by every primitive *)
Definition okhome (a : act) (t : tid) (s : st) : Prop := home t a s /\ (forall c, conn_of a = Some c -> c < s_nc s).

Lemma home_conn t a s s' : (forall c w, c_worker (s_conn s c) = Some w -> c_worker (s_conn s' c) = Some w) -> home t a s -> home t a s'.
Proof. intros E H. unfold home in *. destruct (kind_of a); auto. intros c C. destruct (H c C) as (w & Hw & ->). exists w. auto. Qed.

Lemma G_post t a s : G s -> okhome a t s -> istask a = true -> (forall c, a = ADel c -> c_worker (s_conn s c) <> None) -> G (post t a s).
Proof.
  intros [g1 g2 g3 g4 g5 g6 g7 g8 g9 gd g10] (H & L) T ND.
  assert (X : forall t' b, In b (s_cur s t' ++ updt (s_q s) t (s_q s t ++ [a]) t') -> In b (s_cur s t' ++ s_q s t') \/ (t' = t /\ b = a)).
  { intros t' b I. unfold updt in I. destruct (tid_eqb_spec t' t) as [->|N]; [|left; exact I]. rewrite app_assoc in I. apply in_app_or in I. destruct I as [I|[I|[]]]; [left; exact I|right; auto]. }
  constructor; cbn [post w_q s_cur s_q s_conn s_nc s_pool s_open]; auto.
  - intros t' b I. destruct (X _ _ I) as [I'|(-> & ->)]; [exact (g1 _ _ I')|exact H].
  - intros t' b c I C. destruct (X _ _ I) as [I'|(-> & ->)]; [exact (g2 _ _ _ I' C)|exact (L _ C)].
  - intros t' b I. unfold updt in I. destruct (tid_eqb_spec t' t) as [->|N]; [|exact (g4 _ _ I)]. apply in_app_or in I. destruct I as [I|[<-|[]]]; [exact (g4 _ _ I)|exact T].
  - intros t' c I. unfold updt in I. destruct (tid_eqb_spec t' t) as [->|N]; [|exact (gd _ _ I)]. apply in_app_or in I. destruct I as [I|[I|[]]]; [exact (gd _ _ I)|exact (ND _ I)].
Qed.

Lemma G_go t l s : G s -> shape t l -> (forall a, In a l -> okhome a t s) ->
  (forall c, In (ARelease c) l -> ~ In (c_fd (s_conn s c)) (map fst (s_pool s))) -> G (go t l s).
Proof.
  intros [g1 g2 g3 g4 g5 g6 g7 g8 g9 gd g10] SH H R.
  constructor; cbn [go w_cur s_cur s_q s_conn s_nc s_pool s_open]; auto.
  - intros t' b I. unfold updt in I. destruct (tid_eqb_spec t' t) as [->|N]; [|exact (g1 _ _ I)]. apply in_app_or in I. destruct I as [I|I]; [exact (proj1 (H _ I))|apply (g1 t); apply in_or_app; right; exact I].
  - intros t' b c I C. unfold updt in I. destruct (tid_eqb_spec t' t) as [->|N]; [|exact (g2 _ _ _ I C)]. apply in_app_or in I. destruct I as [I|I]; [exact (proj2 (H _ I) _ C)|apply (g2 t b); [apply in_or_app; right; exact I|exact C]].
  - intros t'. unfold updt. destruct (tid_eqb_spec t' t) as [->|N]; [exact SH|apply g3].
  - intros c I. unfold updt in I. destruct (tid_eqb_spec D t) as [<-|N]; [exact (R _ I)|exact (g10 _ I)].
Qed.

Lemma shape_tl t a l : shape t (a :: l) -> shape t l.
Proof. intros H. inversion H; subst; constructor; reflexivity. Qed.
Lemma shape_task t a l : shape t (a :: l) -> istask a = true -> l = [].
Proof. intros H T. inversion H; subst; try reflexivity; discriminate. Qed.

Lemma G_pop t a rest s : G s -> s_cur s t = a :: rest -> G (go t rest s).
Proof.
  intros g E. apply G_go; auto.
  - apply shape_tl with a. rewrite <- E. apply (g_shape s g).
  - intros b I. assert (I' : In b (s_cur s t ++ s_q s t)) by (rewrite E; right; apply in_or_app; left; exact I). split; [exact (g_home s g _ _ I')|intros c C; exact (g_lt s g _ _ _ I' C)].
  - intros c I. apply (g_rel s g). assert (I' : In (ARelease c) (s_cur s t ++ s_q s t)) by (rewrite E; right; apply in_or_app; left; exact I).
    pose proof (g_home s g _ _ I') as X. cbn in X. subst t. rewrite E. right. exact I.
Qed.

Lemma G_on c f s : G s -> c < s_nc s -> c_fd (f (s_conn s c)) = c_fd (s_conn s c) ->
  (forall w, c_worker (s_conn s c) = Some w -> c_worker (f (s_conn s c)) = Some w) ->
  (c_evc (f (s_conn s c)) = true -> c_worker (f (s_conn s c)) = None) -> G (on c f s).
Proof.
  intros [g1 g2 g3 g4 g5 g6 g7 g8 g9 gd g10] L F Wk Ev.
  assert (X : forall c', c_fd (upd (s_conn s) c (f (s_conn s c)) c') = c_fd (s_conn s c')) by (intros c'; unfold upd; destruct (Nat.eqb_spec c' c) as [->|N]; [exact F|reflexivity]).
  constructor; cbn [on w_conn s_cur s_q s_conn s_nc s_pool s_open]; auto.
  - intros t a I. apply home_conn with s; [|exact (g1 _ _ I)]. intros c' w E. cbn [on w_conn s_conn]. unfold upd. destruct (Nat.eqb_spec c' c) as [->|N]; auto.
  - intros c'. unfold upd. destruct (Nat.eqb_spec c' c) as [->|N]; auto.
  - intros c' L'. rewrite upd_diff by lia. apply g6. exact L'.
  - intros fd c' I. rewrite X. auto.
  - intros t c' I. unfold upd. destruct (Nat.eqb_spec c' c) as [->|N]; [|exact (gd _ _ I)]. specialize (gd _ _ I). destruct (c_worker (s_conn s c)) as [w|]; [rewrite (Wk w eq_refl); discriminate|congruence].
  - intros c' I. rewrite X. auto.
Qed.

Lemma G_same s s' : s_cur s' = s_cur s -> s_q s' = s_q s -> s_conn s' = s_conn s -> s_nc s' = s_nc s -> s_pool s' = s_pool s -> s_open s' = s_open s -> G s -> G s'.
Proof.
  intros E1 E2 E3 E4 E5 E6 [g1 g2 g3 g4 g5 g6 g7 g8 g9 gd g10].
  constructor; unfold live in *; rewrite ?E1, ?E2, ?E3, ?E4, ?E5, ?E6; auto.
  intros t a I. apply home_conn with s; [rewrite E3; auto|auto].
Qed.

Lemma existsb_In fd l : existsb (Nat.eqb fd) l = false -> ~ In fd l.
Proof. intros E I. assert (X : existsb (Nat.eqb fd) l = true) by (apply existsb_exists; exists fd; split; [exact I|apply Nat.eqb_refl]). congruence. Qed.

Lemma G_new fd w evc s : G s -> s_cur s D = [] -> existsb (Nat.eqb fd) (s_open s) = false -> (evc = true -> w = None) -> G (new_conn fd w evc s).
Proof.
  intros [g1 g2 g3 g4 g5 g6 g7 g8 g9 gd g10] E O EW. apply existsb_In in O.
  assert (NC : forall fd' c, In (fd', c) (s_pool s) -> c <> s_nc s).
  { intros fd' c I ->. destruct (g6 (s_nc s) (le_n _)) as (_ & X). unfold live in X. assert (Y : existsb (fun x => snd x =? s_nc s) (s_pool s) = true) by (apply existsb_exists; eexists; split; [exact I|apply Nat.eqb_refl]). congruence. }
  constructor; cbn [new_conn s_cur s_q s_conn s_nc s_pool s_open]; auto.
  - intros t a I. apply home_conn with s; [|exact (g1 _ _ I)]. intros c' w' E'. cbn [new_conn s_conn]. unfold upd. destruct (Nat.eqb_spec c' (s_nc s)) as [->|N]; [|exact E']. destruct (g6 _ (le_n _)) as (X & _). rewrite X in E'. discriminate.
  - intros t a c I C. specialize (g2 _ _ _ I C). lia.
  - intros c. unfold upd. destruct (Nat.eqb_spec c (s_nc s)) as [->|N]; cbn; auto.
  - intros c L. rewrite upd_diff by lia. destruct (g6 c) as (X & Y); [lia|]. split; [exact X|]. unfold live in *. cbn [existsb s_pool new_conn snd]. destruct (Nat.eqb_spec (s_nc s) c); [lia|exact Y].
  - intros fd' c [I|I]; [injection I as <- <-; rewrite upd_same; reflexivity|]. rewrite upd_diff by (eapply NC; exact I). auto.
  - cbn. constructor; [|exact g8]. intros I. apply in_map_iff in I. destruct I as ((fd' & c) & <- & I). exact (O (g9 _ _ I)).
  - intros fd' c [I|I]; [left; congruence|right; exact (g9 _ _ I)].
  - intros t c I. unfold upd. destruct (Nat.eqb_spec c (s_nc s)) as [->|N]; [|exact (gd _ _ I)]. exfalso. apply (gd _ _ I). destruct (g6 _ (le_n _)) as (X & _). rewrite X. reflexivity.
  - rewrite E. intros c [].
Qed.

Lemma live_In c s : live c s = true -> G s -> In (c_fd (s_conn s c), c) (s_pool s).
Proof. intros L g. unfold live in L. apply existsb_exists in L. destruct L as ((fd & c') & I & X). cbn in X. apply Nat.eqb_eq in X. subst c'. rewrite (g_pool s g _ _ I). exact I. Qed.

Lemma pool_find_live c s : live c s = true -> G s -> pool_find (c_fd (s_conn s c)) (s_pool s) = Some c.
Proof.
  intros L g. pose proof (live_In _ _ L g) as I. pose proof (g_fds s g) as N. unfold pool_find. revert I N. generalize (c_fd (s_conn s c)) (s_pool s). intros fd p. clear.
  induction p as [|(fd' & c') p IH]; intros I N; [destruct I|]. cbn [find fst]. inversion N as [|x l N1 N2]; subst. destruct (Nat.eqb_spec fd' fd) as [->|D0].
  - destruct I as [I|I]; [congruence|]. exfalso. apply N1. apply in_map_iff. exists (fd, c). auto.
  - destruct I as [I|I]; [congruence|]. auto.
Qed.

Lemma NoDup_map_filter {A B} (f : A -> B) p l : NoDup (map f l) -> NoDup (map f (filter p l)).
Proof.
  induction l as [|x l IH]; intros N; [constructor|]. inversion N as [|y m N1 N2]; subst. cbn. destruct (p x); [|auto]. cbn. constructor; [|auto].
  intros I. apply N1. apply in_map_iff in I. destruct I as (z & E & I). apply filter_In in I. apply in_map_iff. exists z. tauto.
Qed.

Lemma G_erase c s : G s -> s_cur s D = [] -> live c s = true -> let s1 := w_fds (pool_erase (c_fd (s_conn s c)) (s_pool s)) (s_open s) s in G s1 /\ ~ In (c_fd (s_conn s c)) (map fst (s_pool s1)) /\ see s1 c = vgone (see s c) /\ (forall c', c' <> c -> see s1 c' = see s c').
Proof.
  intros g E L s1. pose proof (live_In _ _ L g) as I0.
  assert (SUB : forall x, In x (s_pool s1) -> In x (s_pool s) /\ fst x <> c_fd (s_conn s c)).
  { intros x I. unfold s1 in I. cbn in I. unfold pool_erase in I. apply filter_In in I. destruct I as (I & N). split; [exact I|]. destruct (Nat.eqb_spec (fst x) (c_fd (s_conn s c))); [discriminate|assumption]. }
  assert (NL : live c s1 = false).
  { unfold live. destruct (existsb _ _) eqn:X; [|reflexivity]. apply existsb_exists in X. destruct X as ((fd & c') & I & X). cbn in X. apply Nat.eqb_eq in X. subst c'. destruct (SUB _ I) as (I1 & N). exfalso. apply N. cbn. symmetry. apply (g_pool s g). exact I1. }
  assert (OL : forall c', c' <> c -> live c' s1 = live c' s).
  { intros c' N. unfold live. destruct (existsb (fun x => snd x =? c') (s_pool s)) eqn:X.
    - apply existsb_exists in X. destruct X as ((fd & c2) & I & X). cbn in X. apply Nat.eqb_eq in X. subst c2. apply existsb_exists. exists (fd, c'). split; [|apply Nat.eqb_refl].
      unfold s1. cbn. unfold pool_erase. apply filter_In. split; [exact I|]. cbn. destruct (Nat.eqb_spec fd (c_fd (s_conn s c))) as [X|X]; [|reflexivity]. exfalso. apply N. subst fd.
      pose proof (pool_find_live c s L g) as P1. assert (P2 : live c' s = true) by (unfold live; apply existsb_exists; eexists; split; [exact I|apply Nat.eqb_refl]).
      pose proof (pool_find_live c' s P2 g) as P3. rewrite (g_pool s g _ _ I) in P3. congruence.
    - destruct (existsb _ (s_pool s1)) eqn:Y; [|reflexivity]. apply existsb_exists in Y. destruct Y as (x & I & Y). destruct (SUB _ I) as (I1 & _). assert (existsb (fun x => snd x =? c') (s_pool s) = true) by (apply existsb_exists; exists x; auto). congruence. }
  split; [|split; [|split]].
  - destruct g as [g1 g2 g3 g4 g5 g6 g7 g8 g9 gd g10]. constructor; try assumption.
    + intros c' L'. destruct (g6 c' L') as (X & Y). split; [exact X|]. destruct (Nat.eq_dec c' c) as [->|N]; [exact NL|rewrite OL; assumption].
    + intros fd c' I. destruct (SUB _ I) as (I1 & _). exact (g7 _ _ I1).
    + unfold s1. cbn. apply NoDup_map_filter. exact g8.
    + intros fd c' I. destruct (SUB _ I) as (I1 & _). exact (g9 _ _ I1).
    + unfold s1. cbn [s_cur w_fds]. rewrite E. intros c' [].
  - intros I. apply in_map_iff in I. destruct I as (x & E1 & I). destruct (SUB _ I) as (_ & N). congruence.
  - unfold see, vgone. cbn [v_k v_w v_d v_u]. rewrite NL. reflexivity.
  - intros c' N. apply see_ext; [reflexivity|reflexivity|apply OL; exact N].
Qed.

Lemma G_close fd s : G s -> ~ In fd (map fst (s_pool s)) -> G (w_fds (s_pool s) (filter (fun x => negb (x =? fd)) (s_open s)) s).
Proof.
  intros [g1 g2 g3 g4 g5 g6 g7 g8 g9 gd g10] N. constructor; try assumption. cbn [s_pool s_open w_fds]. intros fd' c I. apply filter_In. split; [exact (g9 _ _ I)|].
  destruct (Nat.eqb_spec fd' fd) as [->|X]; [|reflexivity]. exfalso. apply N. apply in_map_iff. exists (fd, c). auto.
Qed.

(** *** Every step is a step of one connection's view *)
Lemma okhome_U a s c : kind_of a = KU -> conn_of a = Some c -> c < s_nc s -> okhome a U s.
Proof. intros K C L. split; [unfold home; rewrite K; reflexivity|intros c' C'; congruence]. Qed.
Lemma okhome_D a s c : kind_of a = KD -> conn_of a = Some c -> c < s_nc s -> okhome a D s.
Proof. intros K C L. split; [unfold home; rewrite K; reflexivity|intros c' C'; congruence]. Qed.
Lemma okhome_W a s c w : kind_of a = KW -> conn_of a = Some c -> c < s_nc s -> c_worker (s_conn s c) = Some w -> okhome a (W w) s.
Proof. intros K C L E. split; [unfold home; rewrite K; intros c' C'; exists w; split; congruence|intros c' C'; congruence]. Qed.
Lemma okhome_err f id s : okhome (AErr f id) U s.
Proof. split; [reflexivity|intros c C; discriminate]. Qed.
Lemma okhome_fatal s : okhome AFatal D s.
Proof. split; [reflexivity|intros c C; discriminate]. Qed.

Lemma sim_dterm c s : G s -> c < s_nc s -> G (disp_terminate c s) /\ see (disp_terminate c s) c = vdterm c (see s c) /\ (forall c', c' <> c -> see (disp_terminate c s) c' = see s c').
Proof.
  intros g L. unfold disp_terminate, vdterm. cbn [see v_k]. destruct (c_worker (s_conn s c)) as [w|] eqn:E.
  - pose proof (okhome_W (AWExch c) s c w eq_refl eq_refl L E) as H. split; [apply G_post; auto; try discriminate|]. split; [apply see_post; [reflexivity|exact (proj1 H)]|]. intros c' N. apply see_post_other. cbn. congruence.
  - pose proof (okhome_D (ADExch c) s c eq_refl eq_refl L) as H. split; [apply G_post; auto; try discriminate|]. split; [apply see_post; [reflexivity|exact (proj1 H)]|]. intros c' N. apply see_post_other. cbn. congruence.
Qed.

Lemma sim_wterm c s s' o : worker_terminate c s = (s', o) -> G s -> c < s_nc s -> G s' /\ vwterm c (see s c) = (see s' c, o) /\ (forall c', c' <> c -> see s' c' = see s c' /\ filter (oabout c') o = []) /\ filter (oabout c) o = o.
Proof.
  unfold worker_terminate, vwterm. cbn [see v_k]. intros X g L. destruct (c_worker (s_conn s c)) as [w|] eqn:E; injection X as <- <-.
  - pose proof (okhome_W (AWExch c) s c w eq_refl eq_refl L E) as H. split; [apply G_post; auto; try discriminate|]. split; [f_equal; symmetry; apply see_post; [reflexivity|exact (proj1 H)]|]. split; [|reflexivity]. intros c' N. split; [|reflexivity]. apply see_post_other. cbn. congruence.
  - split; [exact g|]. split; [reflexivity|]. split; [|cbn; rewrite Nat.eqb_refl; reflexivity]. intros c' N. split; [reflexivity|]. cbn. destruct (Nat.eqb_spec c c'); congruence.
Qed.

Lemma V_none kd c t s : G s -> s_nc s <= c -> V kd c t s = [].
Proof.
  intros g L. unfold V. apply filter_none. intros a I. destruct (conn_of a) as [c'|] eqn:E; [|apply about_none; exact E]. apply about_diff with c'; [exact E|]. pose proof (g_lt s g _ _ _ I E). lia.
Qed.

Lemma see_new fd w evc s : G s -> see (new_conn fd w evc s) (s_nc s) = mkV (mkConn fd w false evc false false false RNone) [] [] [] true.
Proof.
  intros g. unfold see, vw. cbn [new_conn s_conn]. rewrite upd_same. cbn [c_worker].
  assert (X : forall kd t, V kd (s_nc s) t (new_conn fd w evc s) = []) by (intros kd t; apply (V_none kd (s_nc s) t s g (le_n _))). rewrite !X.
  assert (Y : live (s_nc s) (new_conn fd w evc s) = true) by (unfold live; cbn; rewrite Nat.eqb_refl; reflexivity). rewrite Y. destruct w; rewrite ?X; reflexivity.
Qed.
Lemma see_new_other fd w evc s c : c <> s_nc s -> see (new_conn fd w evc s) c = see s c.
Proof. intros N. apply see_ext; [cbn; apply upd_diff; exact N|reflexivity|]. unfold live. cbn. destruct (Nat.eqb_spec (s_nc s) c); [congruence|reflexivity]. Qed.

Definition quiet (s s' : st) (o : list obs) (c : nat) : Prop := see s' c = see s c /\ filter (oabout c) o = [].
Definition fresh (s s' : st) (o : list obs) (c : nat) : Prop := c = s_nc s /\ s_nc s' = S c /\ vnew c (see s' c) /\ filter (oabout c) o = [].

Lemma front_shape t l s : G s -> s_cur s t = [] -> shape t l -> (forall a, In a l -> okhome a t s) -> (forall c, In (ARelease c) l -> ~ In (c_fd (s_conn s c)) (map fst (s_pool s))) -> G (front t l s).
Proof. intros g E SH H R. unfold front. rewrite E, app_nil_r. apply G_go; auto. Qed.

Lemma filt1 c o : oabout c o = true -> filter (oabout c) [o] = [o].
Proof. intros E. cbn. rewrite E. reflexivity. Qed.
Lemma filt0 c o : oabout c o = false -> filter (oabout c) [o] = [].
Proof. intros E. cbn. rewrite E. reflexivity. Qed.

Ltac neqb := cbn [oabout filter]; rewrite ?Nat.eqb_refl; repeat match goal with |- context [?a =? ?b] => destruct (Nat.eqb_spec a b); [congruence|] end; reflexivity.

Record simr (s s' : st) (o : list obs) : Prop := {
  sr_G : G s'; sr_tls : s_tls s' = s_tls s; sr_dead : s_dead s = true -> s_dead s' = true; sr_nc : s_nc s <= s_nc s' }.

Lemma sim_act t a ok thr fd s s' o :
  G s -> okhome a t s -> shape t (a :: s_cur s t) ->
  (forall c, a = ADel c -> live c s = true) ->
  (forall c, a = ARelease c -> ~ In (c_fd (s_conn s c)) (map fst (s_pool s))) ->
  act_step t a (Ch ok thr fd) s = Some (s', o) ->
  simr s s' o /\
  (forall c, conn_of a <> Some c -> quiet s s' o c \/ fresh s s' o c) /\
  (forall c, conn_of a = Some c -> vact (s_tls s) c a ok thr (see s c) = (see s' c, filter (oabout c) o)).
Proof.
  intros g H SH HD HR X.
  assert (CUR : istask a = true -> s_cur s t = []) by (intros T; exact (shape_task _ _ _ SH T)).
  destruct H as (HM & L). destruct a as [id|c|c|c|c|c|c|c ret|c b|fa id| |c|c|c|c|c|c|c ret]; cbn [act_step] in X.
  - (* AConn *)
    cbn in HM. subst t. specialize (CUR eq_refl). destruct thr.
    + injection X as <- <-. split; [|split; [|intros c C; discriminate]].
      * constructor; auto. apply G_post; auto using okhome_err; try discriminate.
      * intros c _. left. split; [apply see_post_other; discriminate|reflexivity].
    + destruct (existsb (Nat.eqb fd) (s_open s)) eqn:EO; [discriminate|]. injection X as <- <-.
      pose proof (G_new fd None ok s g CUR EO (fun _ => eq_refl)) as g1.
      destruct ok.
      * split; [constructor; auto; cbn; lia|split; [|intros c C; discriminate]]. intros c _. destruct (Nat.eq_dec c (s_nc s)) as [E|N].
        -- right. subst c. split; [reflexivity|]. split; [reflexivity|]. split; [|reflexivity]. rewrite (see_new _ _ _ _ g). constructor.
        -- left. split; [apply see_new_other; exact N|reflexivity].
      * destruct (sim_dterm (s_nc s) _ g1) as (g2 & S1 & S2); [cbn; lia|].
        assert (ENC : s_nc (disp_terminate (s_nc s) (new_conn fd None false s)) = S (s_nc s)) by (unfold disp_terminate; cbn [new_conn s_conn]; rewrite upd_same; reflexivity).
        assert (EX : s_tls (disp_terminate (s_nc s) (new_conn fd None false s)) = s_tls s /\ s_dead (disp_terminate (s_nc s) (new_conn fd None false s)) = s_dead s) by (unfold disp_terminate; cbn [new_conn s_conn]; rewrite upd_same; split; reflexivity).
        split; [constructor; [exact g2|apply EX|rewrite (proj2 EX); auto|rewrite ENC; lia]|split; [|intros c C; discriminate]]. intros c _. destruct (Nat.eq_dec c (s_nc s)) as [E|N].
        -- right. subst c. split; [reflexivity|]. split; [exact ENC|]. split; [|reflexivity]. rewrite S1, (see_new _ _ _ _ g). constructor.
        -- left. split; [rewrite S2 by exact N; apply see_new_other; exact N|reflexivity].
  - (* ADispTerm *)
    injection X as <- <-. specialize (L c eq_refl). destruct (sim_dterm c s g L) as (g2 & S1 & S2).
    split; [constructor; [exact g2|unfold disp_terminate; destruct (c_worker _); reflexivity|unfold disp_terminate; destruct (c_worker _); auto|unfold disp_terminate; destruct (c_worker _); cbn; lia]|]. split.
    + intros c' N. left. split; [apply S2; cbn in N; congruence|reflexivity].
    + intros c' E. injection E as <-. cbn [vact]. rewrite S1. reflexivity.
  - (* ADExch *)
    cbn in HM. subst t. specialize (L c eq_refl). specialize (CUR eq_refl). destruct (c_term (s_conn s c)) eqn:T; injection X as <- <-.
    + split; [constructor; auto|]. split; [intros c' N; left; split; reflexivity|]. intros c' E. injection E as <-. cbn [vact see v_k]. rewrite T. reflexivity.
    + assert (g1 : G (on c set_term s)) by (apply G_on; auto; cbn; intros; apply (g_evc s g); assumption).
      assert (HL : forall a, In a [ATearD c; ADel c] -> okhome a D (on c set_term s)) by (intros a [<-|[<-|[]]]; apply (okhome_D _ _ c); auto).
      split; [constructor; auto|split].
      * apply front_shape; auto; [constructor|]. intros c' [I|[I|[]]]; discriminate.
      * intros c' N. left. split; [|reflexivity]. cbn in N. rewrite see_front_other; [apply see_on_other; congruence|]. intros a [<-|[<-|[]]]; exact N.
      * intros c' E. injection E as <-. cbn [vact]. cbn [see v_k]. rewrite T. f_equal. rewrite (see_front D [ATearD c; ADel c] KD); [|intros a I; split; [|split; [|exact (proj1 (HL _ I))]]; destruct I as [<-|[<-|[]]]; reflexivity|discriminate|discriminate]. rewrite see_on by reflexivity. reflexivity.
  - (* ADel *)
    cbn in HM. subst t. specialize (L c eq_refl). specialize (CUR eq_refl). specialize (HD c eq_refl). rewrite (pool_find_live c s HD g) in X. injection X as <- <-.
    destruct (G_erase c s g CUR HD) as (g1 & NF & S1 & S2). set (s1 := w_fds _ _ s) in *.
    assert (HL : forall a, In a [AOff c; ARelease c] -> okhome a D s1) by (intros a [<-|[<-|[]]]; apply (okhome_D _ _ c); auto).
    split; [constructor; auto|split].
    + apply front_shape; auto; [constructor|]. intros c' [I|[I|[]]]; [discriminate|]. injection I as <-. exact NF.
    + intros c' N. left. split; [|reflexivity]. cbn in N. rewrite see_front_other; [apply S2; congruence|]. intros a [<-|[<-|[]]]; exact N.
    + intros c' E. injection E as <-. cbn [vact]. f_equal. rewrite (see_front D [AOff c; ARelease c] KD); [|intros a I; split; [|split; [|exact (proj1 (HL _ I))]]; destruct I as [<-|[<-|[]]]; reflexivity|discriminate|discriminate]. rewrite S1. reflexivity.
  - (* ASetup *)
    specialize (L c eq_refl). destruct ok; injection X as <- <-.
    + pose proof (okhome_U (ACb c true) s c eq_refl eq_refl L) as H1. split; [constructor; auto; apply G_post; auto; try discriminate|]. split.
      * intros c' N. left. split; [apply see_post_other; cbn in *; congruence|reflexivity].
      * intros c' E. injection E as <-. cbn [vact]. f_equal. symmetry. apply see_post; [reflexivity|exact (proj1 H1)].
    + assert (g1 : G (post U (AErr false None) s)) by (apply G_post; auto using okhome_err; try discriminate). destruct (sim_dterm c _ g1) as (g2 & S1 & S2); [exact L|].
      split; [constructor; [exact g2|unfold disp_terminate; destruct (c_worker _); reflexivity|unfold disp_terminate; destruct (c_worker _); auto|unfold disp_terminate; destruct (c_worker _); cbn; lia]|]. split.
      * intros c' N. left. split; [rewrite S2 by (cbn in N; congruence); apply see_post_other; discriminate|reflexivity].
      * intros c' E. injection E as <-. cbn [vact]. rewrite S1, see_post_other by discriminate. reflexivity.
  - (* AFeed *)
    specialize (L c eq_refl). specialize (CUR eq_refl). cbn in HM. destruct (HM c eq_refl) as (w & HW & ->). destruct ok.
    + set (f := fun k => set_recv (if s_tls s then RHand else RPlain) (set_sock true (s_tls s) k)) in *.
      assert (g1 : G (on c f s)) by (apply G_on; auto; cbn; intros; apply (g_evc s g); assumption).
      assert (HL : forall a, In a [AInc c] -> okhome a (W w) (on c f s)). { intros a [<-|[]]. apply (okhome_W _ _ c); auto. cbn. rewrite upd_same. exact HW. }
      assert (g2 : G (front (W w) [AInc c] (on c f s))). { apply front_shape; auto; [apply sh_inc|]. intros c' [I|[]]; discriminate. }
      assert (S1 : see (front (W w) [AInc c] (on c f s)) c = vput (app [AInc c]) KW (vk f (see s c))).
      { rewrite (see_front (W w) [AInc c] KW); [|intros a I; split; [|split; [|exact (proj1 (HL _ I))]]; destruct I as [<-|[]]; reflexivity|discriminate|discriminate]. rewrite see_on by reflexivity. reflexivity. }
      assert (S2 : forall c', c' <> c -> see (front (W w) [AInc c] (on c f s)) c' = see s c'). { intros c' N. rewrite see_front_other; [apply see_on_other; congruence|]. intros a [<-|[]]. cbn. congruence. }
      assert (g3 : G (post D (ASetup c) (front (W w) [AInc c] (on c f s)))) by (apply G_post; auto; try discriminate; apply (okhome_D _ _ c); auto).
      injection X as <- <-. destruct (s_tls s) eqn:TL.
      * split; [constructor; auto; exact TL|]. split; [intros c' N; left; split; [apply S2; cbn in N; congruence|reflexivity]|]. intros c' E. injection E as <-. cbn [vact]. rewrite S1. reflexivity.
      * split; [constructor; auto; exact TL|]. split; [intros c' N; left; split; [rewrite see_post_other by exact N; apply S2; cbn in N; congruence|reflexivity]|]. intros c' E. injection E as <-. cbn [vact]. rewrite see_post; [rewrite S1; reflexivity|reflexivity|reflexivity].
    + assert (Z : (w = 0 /\ (s', o) = (front (W w) [AFatal] s, [])) \/ (s', o) = (post D AFatal s, [])) by (destruct w; injection X as <- <-; auto).
      destruct Z as [(W0 & Z)|Z]; injection Z as -> ->; [subst w|].
      * split; [constructor; auto|split].
        -- apply front_shape; auto; [constructor; reflexivity| |]; [intros a [<-|[]]; apply okhome_fatal|intros c' [I|[]]; discriminate].
        -- intros c' N. left. split; [|reflexivity]. apply see_front_other. intros a [<-|[]]; discriminate.
        -- intros c' E. injection E as <-. cbn [vact]. f_equal. symmetry. apply see_front_other. intros a [<-|[]]; discriminate.
      * split; [constructor; auto; apply G_post; auto using okhome_fatal; try discriminate|split].
        -- intros c' N. left. split; [|reflexivity]. apply see_post_other. discriminate.
        -- intros c' E. injection E as <-. cbn [vact]. f_equal. symmetry. apply see_post_other. discriminate.
  - (* AWExch *)
    specialize (L c eq_refl). specialize (CUR eq_refl). cbn in HM. destruct (HM c eq_refl) as (w & HW & ->). destruct (c_term (s_conn s c)) eqn:T; injection X as <- <-.
    + split; [constructor; auto|]. split; [intros c' N; left; split; reflexivity|]. intros c' E. injection E as <-. cbn [vact see v_k]. rewrite T. reflexivity.
    + assert (g1 : G (on c set_term s)) by (apply G_on; auto; cbn; intros; apply (g_evc s g); assumption).
      assert (HL : forall a, In a [ATearW c; APostDel c] -> okhome a (W w) (on c set_term s)). { intros a [<-|[<-|[]]]; apply (okhome_W _ _ c); auto; cbn; rewrite upd_same; exact HW. }
      split; [constructor; auto|split].
      * apply front_shape; auto; [constructor|]. intros c' [I|[I|[]]]; discriminate.
      * intros c' N. left. split; [|reflexivity]. cbn in N. rewrite see_front_other; [apply see_on_other; congruence|]. intros a [<-|[<-|[]]]; exact N.
      * intros c' E. injection E as <-. cbn [vact]. cbn [see v_k]. rewrite T. f_equal. rewrite (see_front (W w) [ATearW c; APostDel c] KW); [|intros a I; split; [|split; [|exact (proj1 (HL _ I))]]; destruct I as [<-|[<-|[]]]; reflexivity|discriminate|discriminate]. rewrite see_on by reflexivity. reflexivity.
  - (* AGo *)
    specialize (L c eq_refl). destruct (c_term (s_conn s c)) eqn:T; [injection X as <- <-|destruct (c_evs (s_conn s c)) eqn:EV; cbn [negb] in X; [destruct (s_tls s) eqn:TL; [destruct ret|]|]].
    + split; [constructor; auto|]. split; [intros c' N; left; split; reflexivity|]. intros c' E. injection E as <-. cbn [vact see v_k]. rewrite T. reflexivity.
    + injection X as <- <-. split; [constructor; auto; apply G_on; auto; cbn; intros; apply (g_evc s g); assumption|]. split.
      * intros c' N. left. split; [apply see_on_other; cbn in N; congruence|reflexivity].
      * intros c' E. injection E as <-. cbn [vact see v_k]. rewrite T, EV. cbn [negb]. f_equal. symmetry. apply see_on. reflexivity.
    + injection X as X. destruct (sim_wterm _ _ _ _ X g L) as (g2 & S1 & S2 & S3). unfold worker_terminate in X.
      split; [constructor; [exact g2| | |]; destruct (c_worker _); injection X as <- <-; auto|]. split.
      * intros c' N. left. apply S2. cbn in N. congruence.
      * intros c' E. injection E as <-. cbn [vact]. cbn [see v_k]. rewrite T, EV, S3. cbn [negb]. exact S1.
    + injection X as <- <-. split; [constructor; auto; apply G_on; auto; cbn; intros; apply (g_evc s g); assumption|]. split.
      * intros c' N. left. split; [apply see_on_other; cbn in N; congruence|reflexivity].
      * intros c' E. injection E as <-. cbn [vact see v_k]. rewrite T, EV. cbn [negb]. f_equal. symmetry. apply see_on. reflexivity.
    + injection X as <- <-. split; [constructor; auto|]. split; [intros c' N; left; split; [reflexivity|]; cbn in N; neqb|]. intros c' E. injection E as <-. cbn [vact see v_k]. rewrite T, EV. cbn [negb]. f_equal. neqb.
  - (* ACb *)
    cbn in HM. subst t. specialize (L c eq_refl). specialize (CUR eq_refl). destruct thr.
    + injection X as <- <-. split; [constructor; auto|]. split; [intros c' N; left; split; [reflexivity|]; cbn in N; neqb|]. intros c' E. injection E as <-. cbn [vact]. f_equal. neqb.
    + injection X as <- <-. destruct b.
      * assert (HL : forall a, In a [APostGo c ok] -> okhome a U s) by (intros a [<-|[]]; apply (okhome_U _ _ c); auto).
        split; [constructor; auto|split].
        -- apply front_shape; auto; [apply sh_go|]. intros c' [I|[]]; discriminate.
        -- intros c' N. left. cbn in N. split; [|neqb]. apply see_front_other. intros a [<-|[]]. exact N.
        -- intros c' E. injection E as <-. cbn [vact]. rewrite (see_front U [APostGo c ok] KU); [|intros a I; split; [|split; [|exact (proj1 (HL _ I))]]; destruct I as [<-|[]]; reflexivity|discriminate|discriminate]. f_equal. neqb.
      * split; [constructor; auto|]. split; [intros c' N; left; split; [reflexivity|]; cbn in N; neqb|]. intros c' E. injection E as <-. cbn [vact]. f_equal. neqb.
  - (* AErr *)
    injection X as <- <-. split; [constructor; auto|]. split; [|intros c' E; discriminate]. intros c' _. left. split; reflexivity.
  - (* AFatal *)
    injection X as <- <-. assert (g1 : G (w_dead s)) by (apply (G_same s); auto). split; [constructor; auto; apply G_post; auto using okhome_err; try discriminate|]. split; [|intros c' E; discriminate].
    intros c' _. left. split; [rewrite see_post_other by discriminate; apply see_dead|reflexivity].
  - (* AInc *)
    destruct t as [|w]; [discriminate|]. injection X as <- <-. split; [constructor; auto; apply (G_same s); auto|]. split.
    + intros c' N. left. split; [apply see_load|]. cbn in N. neqb.
    + intros c' E. injection E as <-. cbn [vact]. rewrite see_load. f_equal. neqb.
  - (* ATearW *)
    specialize (L c eq_refl). set (s1 := match c_worker (s_conn s c) with Some w => w_load (upd (s_load s) w (dec (s_load s w))) s | None => s end) in *.
    assert (g1 : G s1) by (unfold s1; destruct (c_worker _); [apply (G_same s); auto|exact g]). assert (S1 : forall c', see s1 c' = see s c') by (intros c'; unfold s1; destruct (c_worker _); [apply see_load|reflexivity]).
    assert (C1 : s_conn s1 = s_conn s /\ s_nc s1 = s_nc s /\ s_tls s1 = s_tls s /\ s_dead s1 = s_dead s) by (unfold s1; destruct (c_worker _); auto). destruct C1 as (C1 & C2 & C3 & C4).
    injection X as <- <-. split; [constructor; cbn [on w_conn s_tls s_dead s_nc]; rewrite ?C2, ?C3, ?C4; auto|].
    { apply G_on; auto; [rewrite C2; exact L|]. cbn. intros. apply (g_evc s1 g1). assumption. }
    split.
    + intros c' N. left. cbn in N. split; [rewrite see_on_other by congruence; apply S1|neqb].
    + intros c' E. injection E as <-. cbn [vact]. rewrite see_on by reflexivity. rewrite S1. f_equal. neqb.
  - (* ATearD *)
    specialize (L c eq_refl). set (s1 := match c_worker (s_conn s c) with Some w => w_load (upd (s_load s) w (dec (s_load s w))) s | None => s end) in *.
    assert (g1 : G s1) by (unfold s1; destruct (c_worker _); [apply (G_same s); auto|exact g]). assert (S1 : forall c', see s1 c' = see s c') by (intros c'; unfold s1; destruct (c_worker _); [apply see_load|reflexivity]).
    assert (C1 : s_conn s1 = s_conn s /\ s_nc s1 = s_nc s /\ s_tls s1 = s_tls s /\ s_dead s1 = s_dead s) by (unfold s1; destruct (c_worker _); auto). destruct C1 as (C1 & C2 & C3 & C4).
    injection X as <- <-. split; [constructor; cbn [on w_conn s_tls s_dead s_nc]; rewrite ?C2, ?C3, ?C4; auto|].
    { apply G_on; auto; [rewrite C2; exact L|]. cbn. intros. apply (g_evc s1 g1). assumption. }
    split.
    + intros c' N. left. cbn in N. split; [rewrite see_on_other by congruence; apply S1|neqb].
    + intros c' E. injection E as <-. cbn [vact]. rewrite see_on by reflexivity. rewrite S1. f_equal. neqb.
  - (* APostDel *)
    specialize (L c eq_refl). injection X as <- <-. pose proof (okhome_D (ADel c) s c eq_refl eq_refl L) as H1. cbn in HM. destruct (HM c eq_refl) as (w & HW & _). split; [constructor; auto; apply G_post; auto; intros c' E; injection E as <-; congruence|]. split.
    + intros c' N. left. split; [apply see_post_other; exact N|reflexivity].
    + intros c' E. injection E as <-. cbn [vact]. rewrite see_post; [reflexivity|reflexivity|exact (proj1 H1)].
  - (* AOff *)
    specialize (L c eq_refl). injection X as <- <-. pose proof (okhome_U (ACb c false) s c eq_refl eq_refl L) as H1. split; [constructor; auto; apply G_post; auto; try discriminate|]. split.
    + intros c' N. left. split; [apply see_post_other; exact N|reflexivity].
    + intros c' E. injection E as <-. cbn [vact]. rewrite see_post; [reflexivity|reflexivity|exact (proj1 H1)].
  - (* ARelease *)
    specialize (L c eq_refl). specialize (HR c eq_refl). injection X as <- <-. set (f := fun k => set_evc false (set_sock false false k)) in *.
    assert (g1 : G (on c f s)) by (apply G_on; auto; cbn; intros; discriminate).
    pose proof (G_close (c_fd (s_conn s c)) (on c f s) g1 HR) as g2.
    split; [constructor; auto|]. split.
    + intros c' N. left. cbn in N. split; [|neqb]. rewrite <- (see_on_other c f s c') by congruence. reflexivity.
    + intros c' E. injection E as <-. cbn [vact]. apply f_equal2; [exact (eq_sym (see_on c f s eq_refl))|]. cbn [see v_k]. neqb.
  - (* APostGo *)
    specialize (L c eq_refl). destruct (c_worker (s_conn s c)) as [w|] eqn:HW; injection X as <- <-.
    + pose proof (okhome_W (AGo c ret) s c w eq_refl eq_refl L HW) as H1. split; [constructor; auto; apply G_post; auto; try discriminate|]. split.
      * intros c' N. left. split; [apply see_post_other; exact N|reflexivity].
      * intros c' E. injection E as <-. cbn [vact]. cbn [see v_k]. rewrite HW. rewrite see_post; [reflexivity|reflexivity|exact (proj1 H1)].
    + split; [constructor; auto|]. split; [intros c' N; left; split; [reflexivity|]; cbn in N; neqb|]. intros c' E. injection E as <-. cbn [vact see v_k]. rewrite HW. f_equal. neqb.
Qed.

Lemma idle_cur t s : idle t s = true -> s_cur s t = [].
Proof. unfold idle. destruct (s_cur s t); [reflexivity|discriminate]. Qed.

Lemma V_In kd c t s a : In a (V kd c t s) -> In a (s_cur s t ++ s_q s t) /\ conn_of a = Some c /\ kind_of a = kd.
Proof.
  unfold V. intros I. apply filter_In in I. destruct I as (I & X). split; [exact I|]. unfold about in X. apply andb_true_iff in X. destruct X as (X & Y).
  destruct (conn_of a) as [c'|]; [|discriminate]. apply Nat.eqb_eq in Y. subst c'. split; [reflexivity|]. destruct (kind_of a), kd; try discriminate; reflexivity.
Qed.
Lemma V_In' kd c t s a : In a (s_cur s t ++ s_q s t) -> conn_of a = Some c -> kind_of a = kd -> In a (V kd c t s).
Proof. intros I C K. unfold V. apply filter_In. split; [exact I|]. rewrite (about_same _ _ _ C), K. destruct kd; reflexivity. Qed.

Lemma idle_tasks kd c t s : G s -> s_cur s t = [] -> forallb istask (V kd c t s) = true.
Proof.
  intros g E. apply forallb_forall. intros a I. apply V_In in I. destruct I as (I & _). rewrite E in I. exact (g_task s g _ _ I).
Qed.

Lemma sim_io t c i s s' o : G s -> c < s_nc s -> io_step t c i s = Some (s', o) ->
  simr s s' o /\ vio c i (see s c) = Some (see s' c, filter (oabout c) o) /\ (forall c', c' <> c -> quiet s s' o c').
Proof.
  intros g L X. unfold io_step in X. unfold vio. cbn [see v_k] in *.
  assert (ON : forall f s0, G s0 -> s_nc s0 = s_nc s -> (forall k, c_fd (f k) = c_fd k /\ c_worker (f k) = c_worker k /\ c_evc (f k) = c_evc k) -> G (on c f s0) /\ see (on c f s0) c = vk f (see s0 c)).
  { intros f s0 g0 N0 F. destruct (F (s_conn s0 c)) as (F1 & F2 & F3). split; [apply G_on; auto; [lia|rewrite F2; auto|rewrite F2, F3; apply (g_evc s0 g0)]|apply see_on; exact F2]. }
  destruct i as [bs fin|fin rs|wr res].
  - destruct fin.
    + assert (K : (let '(s', o') := worker_terminate c s in Some (s', [OIo c (c_fd (s_conn s c)); ORecv c bs] ++ o')) = Some (s', o)) by (destruct (c_recv (s_conn s c)); try discriminate; exact X).
      assert (GOAL : simr s s' o /\ (let '(v', o') := vwterm c (see s c) in Some (v', [OIo c (c_fd (s_conn s c)); ORecv c bs] ++ o')) = Some (see s' c, filter (oabout c) o) /\ (forall c', c' <> c -> quiet s s' o c')); [|destruct (c_recv (s_conn s c)); try discriminate; exact GOAL].
      destruct (worker_terminate c s) as (s1 & o1) eqn:E. injection K as <- <-. destruct (sim_wterm _ _ _ _ E g L) as (g2 & S1 & S2 & S3). rewrite S1.
      unfold worker_terminate in E. split; [constructor; [exact g2| | |]; destruct (c_worker _); injection E as <- <-; auto|]. split; [cbn [app filter oabout]; rewrite Nat.eqb_refl, S3; reflexivity|].
      intros c' N. destruct (S2 c' N) as (Y1 & Y2). split; [exact Y1|]. cbn [app filter oabout]. destruct (Nat.eqb_spec c c'); [congruence|exact Y2].
    + destruct (c_recv (s_conn s c)); try discriminate; injection X as <- <-; (split; [constructor; auto|]); (split; [cbn [filter oabout]; rewrite ?Nat.eqb_refl; reflexivity|]); intros c' N; (split; [reflexivity|]); neqb.
  - set (f := fun k => set_sock true true (set_rs rs k)) in *. destruct (ON f s g eq_refl) as (g1 & S0); [intros k; auto|].
    assert (O0 : forall c', c' <> c -> see (on c f s) c' = see s c') by (intros c' N; apply see_on_other; congruence).
    assert (K : (if fin then let '(s', o') := worker_terminate c (on c f s) in Some (s', [OIo c (c_fd (s_conn s c))] ++ o') else Some (on c f s, [OIo c (c_fd (s_conn s c))])) = Some (s', o)) by (destruct (c_recv (s_conn s c)); try discriminate; exact X).
    assert (GOAL : simr s s' o /\ (if fin then let '(v', o') := vwterm c (vk f (see s c)) in Some (v', [OIo c (c_fd (s_conn s c))] ++ o') else Some (vk f (see s c), [OIo c (c_fd (s_conn s c))])) = Some (see s' c, filter (oabout c) o) /\ (forall c', c' <> c -> quiet s s' o c')).
    { clear X. destruct fin.
      - destruct (worker_terminate c (on c f s)) as (s1 & o1) eqn:E. injection K as <- <-. destruct (sim_wterm _ _ _ _ E g1 L) as (g2 & S1 & S2 & S3). rewrite S0 in S1. rewrite S1.
        unfold worker_terminate in E. split; [constructor; [exact g2| | |]; destruct (c_worker _); injection E as <- <-; auto|]. split; [cbn [app filter oabout]; rewrite Nat.eqb_refl, S3; reflexivity|].
        intros c' N. destruct (S2 c' N) as (Y1 & Y2). split; [rewrite Y1; apply O0; exact N|]. cbn [app filter oabout]. destruct (Nat.eqb_spec c c'); [congruence|exact Y2].
      - injection K as <- <-. split; [constructor; auto|]. split; [cbn [filter oabout]; rewrite Nat.eqb_refl, S0; reflexivity|]. intros c' N. split; [apply O0; exact N|]. neqb. }
    destruct (c_recv (s_conn s c)); try discriminate; exact GOAL.
  - destruct (c_recv (s_conn s c)); try discriminate.
    set (s1 := if wr then on c (set_rs true) s else s) in *.
    assert (S1 : G s1 /\ see s1 c = (if wr then vk (set_rs true) (see s c) else see s c) /\ (forall c', c' <> c -> see s1 c' = see s c') /\ s_nc s1 = s_nc s /\ s_tls s1 = s_tls s /\ s_dead s1 = s_dead s).
    { unfold s1. destruct wr; [|auto 10]. destruct (ON (set_rs true) s g eq_refl) as (g1 & S0); [intros k; auto|]. split; [exact g1|]. split; [exact S0|]. split; [|auto]. intros c' N. apply see_on_other. congruence. }
    destruct S1 as (g1 & S1 & O1 & N1 & T1 & D1). cbv zeta. rewrite <- S1. destruct res as [[|]|].
    + set (f := fun k => set_recv RDummy (set_sock true false k)) in *. destruct (ON f s1 g1 N1) as (g2 & S2); [intros k; auto|]. injection X as <- <-.
      split; [constructor; cbn [post w_q on w_conn s_tls s_dead s_nc]; rewrite ?T1, ?D1, ?N1; auto; apply G_post; auto; try discriminate; apply (okhome_D _ _ c); cbn; auto; lia|].
      split; [rewrite see_post by reflexivity; rewrite S2; cbn [filter oabout]; rewrite Nat.eqb_refl; reflexivity|]. intros c' N. split; [|neqb]. rewrite see_post_other by (cbn; congruence). rewrite see_on_other by congruence. auto.
    + destruct (ON (set_sock true true) s1 g1 N1) as (g2 & S2); [intros k; auto|]. injection X as <- <-.
      split; [constructor; cbn [on w_conn s_tls s_dead s_nc]; rewrite ?T1, ?D1, ?N1; auto|].
      split; [rewrite S2; cbn [filter oabout]; rewrite Nat.eqb_refl; reflexivity|]. intros c' N. split; [|neqb]. rewrite see_on_other by congruence. auto.
    + destruct (worker_terminate c (post U (AErr false None) s1)) as (s2 & o2) eqn:E. injection X as <- <-.
      assert (g2 : G (post U (AErr false None) s1)) by (apply G_post; auto using okhome_err; try discriminate). destruct (sim_wterm _ _ _ _ E g2) as (g3 & S3 & S4 & S5); [cbn; lia|]. rewrite see_post_other in S3 by discriminate. rewrite S3.
      unfold worker_terminate in E. cbn [post w_q s_conn] in E.
      split; [constructor; [exact g3| | |]; destruct (c_worker _); injection E as <- <-; cbn [post w_q s_tls s_dead s_nc]; rewrite ?T1, ?D1, ?N1; auto|]. split; [cbn [filter oabout]; rewrite Nat.eqb_refl, S5; reflexivity|].
      intros c' N. destruct (S4 c' N) as (Y1 & Y2). split; [rewrite Y1, see_post_other by discriminate; auto|]. cbn [filter oabout]. destruct (Nat.eqb_spec c c'); [congruence|exact Y2].
Qed.

Lemma see_worker w s c : G s -> c_worker (s_conn s c) = None -> see (on c (fun k => set_worker w (set_evc false k)) s) c = vk (fun k => set_worker w (set_evc false k)) (see s c).
Proof.
  intros g N. unfold see, vw, vk. cbn [on w_conn s_conn v_k v_w v_d v_u v_lv]. rewrite upd_same, N. cbn [set_worker c_worker].
  assert (E : V KW c (W w) s = []).
  { destruct (V KW c (W w) s) as [|a l] eqn:E; [reflexivity|]. exfalso. assert (I : In a (V KW c (W w) s)) by (rewrite E; left; reflexivity). apply V_In in I. destruct I as (I & C & K).
    pose proof (g_home s g _ _ I) as H. unfold home in H. rewrite K in H. destruct (H c C) as (w' & X & _). congruence. }
  change (mkV (set_worker w (set_evc false (s_conn s c))) (V KW c (W w) s) (V KD c D s) (V KU c U s) (live c s) = mkV (set_worker w (set_evc false (s_conn s c))) [] (V KD c D s) (V KU c U s) (live c s)).
  rewrite E. reflexivity.
Qed.

Definition calm_ev (e : ev) (s : st) : Prop := match e with EReady c _ _ true => ~ In (ADExch c) (s_q s D) | _ => True end.
Definition feed_ev (e : ev) (s : st) : Prop :=
  match e with EAct t (Ch ok _ _) => match s_cur s t with AFeed _ :: _ => ok = true | _ => True end | _ => True end.

Section Sim.
Variables burst nw : nat.

Lemma sim_step cm fo e s s' o :
  step burst nw e s = Some (s', o) -> e <> EStop -> G s -> (forall c, In (ADel c) (v_d (see s c)) -> v_lv (see s c) = true) -> (cm = true -> calm_ev e s) -> (fo = true -> feed_ev e s) ->
  simr s s' o /\ forall c, quiet s s' o c \/ (c < s_nc s /\ vstep (s_tls s) (s_dead s) cm fo c (see s c) (filter (oabout c) o) (see s' c)) \/ fresh s s' o c.
Proof.
  intros X NS g HD CM FO. unfold step in X. destruct (s_stop s) eqn:STP; [discriminate|]. destruct e as [|c|c|fd w ok|c w tmo ok|c i|c|t|t|t ch|]; [| | | | | | | | | |congruence].
  - injection X as <- <-. assert (g1 : G (w_aid ((s_aid s + 1) mod 2 ^ 16)%N s)) by (apply (G_same s); auto). split; [constructor; auto; apply G_post; auto; try discriminate; split; [reflexivity|discriminate]|]. intros c. left. split; [rewrite see_post_other by discriminate; apply see_aid|reflexivity].
  - destruct (Nat.ltb_spec c (s_nc s)) as [L|L]; [|discriminate]. injection X as <- <-. pose proof (okhome_D (ADispTerm c) s c eq_refl eq_refl L) as H1. split; [constructor; auto; apply G_post; auto; try discriminate|]. intros c'. destruct (Nat.eq_dec c' c) as [->|N].
    + right. left. split; [exact L|]. rewrite see_post by (auto; exact (proj1 H1)). apply vs_term.
    + left. split; [apply see_post_other; cbn; congruence|reflexivity].
  - destruct (c_worker (s_conn s c)) as [w|] eqn:HW; [|discriminate].
    assert (L : c < s_nc s). { destruct (le_lt_dec (s_nc s) c) as [Y|Y]; [|exact Y]. destruct (g_new s g c Y) as (Z & _). rewrite Z in HW. discriminate. }
    injection X as X. unfold worker_terminate in X. rewrite HW in X. injection X as <- <-. pose proof (okhome_W (AWExch c) s c w eq_refl eq_refl L HW) as H1. split; [constructor; auto; apply G_post; auto; try discriminate|]. intros c'. destruct (Nat.eq_dec c' c) as [->|N].
    + right. left. split; [exact L|]. rewrite see_post by (auto; exact (proj1 H1)). apply vs_bad. cbn. congruence.
    + left. split; [apply see_post_other; cbn; congruence|reflexivity].
  - destruct (idle D s && s_listen s && (w <? nw)) eqn:GD; [|discriminate]. apply andb_true_iff in GD. destruct GD as (GD & _). apply andb_true_iff in GD. destruct GD as (GD & _). apply idle_cur in GD. destruct ok.
    + destruct (existsb (Nat.eqb fd) (s_open s)) eqn:EO; [discriminate|]. injection X as <- <-. assert (g1 : G (new_conn fd (Some w) false s)) by (apply G_new; auto; discriminate).
      assert (HW : okhome (AFeed (s_nc s)) (W w) (new_conn fd (Some w) false s)). { apply (okhome_W _ _ (s_nc s)); [reflexivity|reflexivity|cbn; lia|]. cbn. rewrite upd_same. reflexivity. }
      split; [constructor; auto; [apply G_post; auto; try discriminate|cbn; lia]|]. intros c. destruct (Nat.eq_dec c (s_nc s)) as [->|N].
      * right. right. split; [reflexivity|]. split; [reflexivity|]. split; [|reflexivity]. rewrite see_post by (auto; exact (proj1 HW)). rewrite (see_new _ _ _ _ g). constructor.
      * left. split; [rewrite see_post_other by (cbn; congruence); apply see_new_other; exact N|reflexivity].
    + injection X as <- <-. assert (g1 : G (w_listen false s)) by (apply (G_same s); auto). split; [constructor; auto; apply G_post; auto using okhome_err; try discriminate|]. intros c. left. split; [rewrite see_post_other by discriminate; apply see_listen|reflexivity].
  - destruct (idle D s && c_evc (s_conn s c) && (w <? nw)) eqn:GD; [|discriminate]. apply andb_true_iff in GD. destruct GD as (GD & _). apply andb_true_iff in GD. destruct GD as (GD & EV). apply idle_cur in GD. pose proof (g_evc s g c EV) as HW.
    assert (L : c < s_nc s). { destruct (le_lt_dec (s_nc s) c) as [Y|Y]; [|exact Y]. destruct (g_new s g c Y) as (Z & _). rewrite Z in EV. discriminate. }
    destruct ok; injection X as <- <-.
    + assert (g1 : G (on c (fun k => set_worker w (set_evc false k)) s)) by (apply G_on; auto; cbn; congruence).
      assert (H1 : okhome (AFeed c) (W w) (on c (fun k => set_worker w (set_evc false k)) s)) by (apply (okhome_W _ _ c); auto; cbn; rewrite upd_same; reflexivity).
      split; [constructor; auto; apply G_post; auto; try discriminate|]. intros c'. destruct (Nat.eq_dec c' c) as [->|N].
      * right. left. split; [exact L|]. rewrite see_post by (auto; exact (proj1 H1)). rewrite see_worker by assumption. apply vs_ready; [| |apply idle_tasks; assumption|exact EV|exact HW].
        -- intros Y c' I. apply (CM Y). cbn [see v_d] in I. apply V_In in I. destruct I as (I & E1 & _). injection E1 as ->. rewrite GD in I. exact I.
        -- intros c' I. cbn [see v_d] in I. apply V_In in I. destruct I as (I & E1 & _). injection E1 as ->. rewrite GD in I. exact (g_del s g _ _ I HW).
      * left. split; [rewrite see_post_other by (cbn; congruence); apply see_on_other; congruence|reflexivity].
    + assert (g1 : G (on c (set_evc (negb tmo)) s)) by (apply G_on; auto; cbn; intros; assumption). destruct (sim_dterm c _ g1 L) as (g2 & S1 & S2).
      assert (Y : forall s0, s_tls (disp_terminate c s0) = s_tls s0 /\ s_dead (disp_terminate c s0) = s_dead s0 /\ s_nc (disp_terminate c s0) = s_nc s0) by (intros s0; unfold disp_terminate; destruct (c_worker (s_conn s0 c)); repeat split).
      destruct (Y (on c (set_evc (negb tmo)) s)) as (Y1 & Y2 & Y3).
      split; [constructor; cbn [post w_q s_tls s_dead s_nc]; [apply G_post; auto using okhome_err; try discriminate|exact Y1|rewrite Y2; auto|rewrite Y3; cbn; lia]|]. intros c'. destruct (Nat.eq_dec c' c) as [->|N].
      * right. left. split; [exact L|]. rewrite see_post_other by discriminate. rewrite S1, see_on by reflexivity. apply vs_unready; [apply idle_tasks; assumption|exact EV].
      * left. split; [rewrite see_post_other by discriminate; rewrite S2 by exact N; apply see_on_other; congruence|reflexivity].
  - destruct (c_worker (s_conn s c)) as [w|] eqn:HW; [|discriminate]. destruct (idle (W w) s && c_evs (s_conn s c) && c_arm (s_conn s c)) eqn:GD; [|discriminate]. apply andb_true_iff in GD. destruct GD as (GD & AR). apply andb_true_iff in GD. destruct GD as (GD & EV). apply idle_cur in GD.
    assert (L : c < s_nc s). { destruct (le_lt_dec (s_nc s) c) as [Y|Y]; [|exact Y]. destruct (g_new s g c Y) as (Z & _). rewrite Z in EV. discriminate. }
    destruct (sim_io _ _ _ _ _ _ g L X) as (SR & S1 & S2). split; [exact SR|]. intros c'. destruct (Nat.eq_dec c' c) as [->|N]; [|left; auto].
    right. left. split; [exact L|]. apply vs_io with i; cbn [see v_w v_k]; auto; [|congruence]. unfold vw. rewrite HW. apply idle_tasks; assumption.
  - destruct (c_worker (s_conn s c)) as [w|] eqn:HW; [|discriminate]. destruct (idle (W w) s && c_evs (s_conn s c) && c_rs (s_conn s c)) eqn:GD; [|discriminate]. apply andb_true_iff in GD. destruct GD as (GD & AR). apply andb_true_iff in GD. destruct GD as (GD & EV). apply idle_cur in GD.
    assert (L : c < s_nc s). { destruct (le_lt_dec (s_nc s) c) as [Y|Y]; [|exact Y]. destruct (g_new s g c Y) as (Z & _). rewrite Z in EV. discriminate. }
    injection X as <- <-. split; [constructor; auto; apply G_on; auto; cbn; apply (g_evc s g)|]. intros c'. destruct (Nat.eq_dec c' c) as [->|N].
    + right. left. split; [exact L|]. rewrite see_on by reflexivity. apply vs_sendq; cbn; auto; congruence.
    + left. split; [apply see_on_other; congruence|reflexivity].
  - destruct (idle t s); [|discriminate]. injection X as <- <-. split; [constructor; auto; apply (G_same s); auto|]. intros c. left. split; reflexivity.
  - destruct (s_cur s t) as [|a0 r0] eqn:EC; [|discriminate]. destruct (s_left s t) as [|n]; [discriminate|]. destruct (s_q s t) as [|a q] eqn:EQ.
    + injection X as <- <-. split; [constructor; auto; apply (G_same s); auto|]. intros c. left. split; reflexivity.
    + assert (IA : In a (s_cur s t ++ s_q s t)) by (rewrite EC, EQ; left; reflexivity). assert (TA : istask a = true) by (apply (g_task s g t); rewrite EQ; left; reflexivity).
      assert (gq : G (w_q (updt (s_q s) t q) s)).
      { destruct g as [g1 g2 g3 g4 g5 g6 g7 g8 g9 gd g10]. assert (SUB : forall t' b, In b (updt (s_q s) t q t') -> In b (s_q s t')). { intros t' b I. unfold updt in I. destruct (tid_eqb_spec t' t) as [->|N]; [rewrite EQ; right; exact I|exact I]. }
        constructor; auto; cbn [w_q s_cur s_q]; intros t' b; [intros I; apply (g1 t'); apply in_app_or in I; apply in_or_app; destruct I; auto|intros c I; apply (g2 t' b); apply in_app_or in I; apply in_or_app; destruct I; auto|intros I; apply (g4 t'); auto|intros I; apply (gd t'); auto]. }
      set (s1 := w_left (updt (s_left s) t n) (w_q (updt (s_q s) t q) s)) in *.
      assert (g1 : G s1) by (apply (G_same (w_q (updt (s_q s) t q) s)); auto).
      assert (TAKE : simr s (go t [a] s1) [] /\ forall c, quiet s (go t [a] s1) [] c).
      { split; [constructor; auto|].
        - apply G_go; auto; [constructor; exact TA| |intros c [I|[]]; subst a; discriminate]. intros b [<-|[]]. split; [exact (g_home s g _ _ IA)|intros c C; exact (g_lt s g _ _ _ IA C)].
        - intros c. split; [|reflexivity]. rewrite <- (see_next t a q s c EC EQ). reflexivity. }
      assert (Z : (s', o) = (go t [a] s1, []) \/ ((s', o) = (s1, []) /\ s_dead s = true /\ t = D)).
      { destruct t as [|[|w]]; [left|destruct (s_dead s); [right|left]|left]; try split; try split; congruence. }
      destruct Z as [Z|(Z & DD & TD)]; injection Z as -> ->.
      * destruct TAKE as (T1 & T2). split; [exact T1|]. intros c. left. apply T2.
      * split; [constructor; auto|]. intros c. destruct (conn_of a) as [c'|] eqn:C; [destruct (Nat.eq_dec c' c) as [->|N]|].
        -- right. left. split; [exact (g_lt s g _ _ _ IA C)|]. destruct (see_drop t a q s c EC EQ C (g_home s g _ _ IA)) as (Y1 & Y2). change (see s1 c) with (see (w_q (updt (s_q s) t q) s) c). rewrite Y2. cbn [filter]. eapply vs_drop; eauto.
           { intros K. pose proof (g_home s g _ _ IA) as HM. unfold home in HM. rewrite K in HM. congruence. }
           { intros ->. apply (g_del s g t). rewrite EQ. left. reflexivity. }
        -- left. split; [|reflexivity]. rewrite <- (see_drop_other t a q s c EC EQ) by congruence. reflexivity.
        -- left. split; [|reflexivity]. rewrite <- (see_drop_other t a q s c EC EQ) by congruence. reflexivity.
  - destruct (s_cur s t) as [|a rest] eqn:EC; [discriminate|]. destruct ch as [ok thr fd]. pose proof (G_pop _ _ _ _ g EC) as g1.
    assert (IA : In a (s_cur s t ++ s_q s t)) by (rewrite EC; left; reflexivity). pose proof (g_home s g _ _ IA) as HM.
    destruct (sim_act t a ok thr fd (go t rest s) s' o g1) as (SR & S1 & S2); auto.
    + split; [exact HM|]. intros c C. exact (g_lt s g _ _ _ IA C).
    + cbn [go w_cur s_cur]. rewrite updt_same, <- EC. apply (g_shape s g).
    + intros c ->. change (live c s = true). apply HD. cbn [see v_d]. cbn in HM. subst t. apply V_In'; auto.
    + intros c ->. apply (g_rel s g). cbn in HM. subst t. rewrite EC. left. reflexivity.
    + split; [destruct SR; constructor; auto|]. intros c. destruct (conn_of a) as [c'|] eqn:C; [destruct (Nat.eq_dec c' c) as [->|N]|].
      * right. left. split; [exact (g_lt s g _ _ _ IA C)|]. destruct (see_pop t a rest s c EC C HM) as (Y1 & Y2). eapply vs_act; [|exact Y1|exact C|].
        { intros F0 ->. specialize (FO F0). cbn in FO. rewrite EC in FO. exact FO. } rewrite <- Y2. apply S2. reflexivity.
      * destruct (S1 c) as [(Q1 & Q2)|F]; [congruence| |right; right; exact F]. left. split; [|exact Q2]. rewrite Q1. apply see_pop_other with a; congruence.
      * destruct (S1 c) as [(Q1 & Q2)|F]; [congruence| |right; right; exact F]. left. split; [|exact Q2]. rewrite Q1. apply see_pop_other with a; congruence.
Qed.
End Sim.

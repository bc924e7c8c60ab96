(** Invariants of a node that dials and a node that waits (PeerPair.v), for ReconProps.v. *)
From Coq Require Import Arith NArith ZArith List Bool Lia.
From Verif Require Import PeerModel PeerPair DialProps ReconSpec ReconNode.
Import ListNotations.

Notation pr s := (s_peer s 0).

(** ** What is sent *)
Definition outl1 (n : bool) (L : list link) (x : obs) : list link :=
  match x with
  | OPing c h => map (put n c (MPing h)) L
  | OPong c h => map (put n c (MPong h)) L
  | ODial _ c a => if (a =? addr_of (negb n))%N then L ++ [mkLink n c None [] []] else L
  | _ => L
  end.
Definition outk1 (n : bool) (K : list (bool * nat)) (x : obs) := match x with OKill c => (n, c) :: K | _ => K end.
Definition outl n e L := fold_left (outl1 n) e L.
Definition outk n e K := fold_left (outk1 n) e K.

Lemma route_out n o : forall y, fold_left (fun y x => route n x y) o y = mkSys (y_a y) (y_b y) (outl n (eff o) (y_l y)) (outk n (eff o) (y_kill y)).
Proof.
  induction o as [|x o IH]; intros y; [destruct y; reflexivity|]. cbn [fold_left]. rewrite IH. unfold eff. cbn [filter]. destruct x; cbn [acts]; try reflexivity.
  cbn [route]. unfold outl. cbn [fold_left outl1]. destruct (a =? addr_of (negb n))%N; reflexivity.
Qed.

(** The messages sent to connection c. *)
Definition msgs (e : list obs) (c : nat) : list msg :=
  flat_map (fun x => match x with OPing d h => if d =? c then [MPing h] else [] | OPong d h => if d =? c then [MPong h] else [] | _ => [] end) e.
Definition nodial (e : list obs) : Prop := forall x, In x e -> match x with ODial _ _ _ => False | _ => True end.
Definition addf (e : list obs) (l : link) : link := mkLink (l_by l) (l_c l) (l_d l) (l_fwd l ++ msgs e (l_c l)) (l_bwd l).
Definition addb (e : list obs) (l : link) : link := mkLink (l_by l) (l_c l) (l_d l) (l_fwd l) (l_bwd l ++ match l_d l with Some d => msgs e d | None => [] end).
Definition addm (n : bool) := if n then addb else addf.

Lemma put_add n c m x l : l_by l = false -> (forall d, msgs [x] d = if c =? d then [m] else []) -> put n c m l = addm n [x] l.
Proof.
  intros B M. destruct l as [b c' d f g]. cbn in B. subst b. unfold put, addm. cbn -[msgs]. destruct n; cbn -[msgs].
  - unfold addb. cbn -[msgs]. destruct d as [d|]; cbn -[msgs]; [|rewrite app_nil_r; reflexivity]. rewrite (M d). rewrite (Nat.eqb_sym d c). destruct (c =? d); [reflexivity|rewrite app_nil_r; reflexivity].
  - unfold addf. cbn -[msgs]. rewrite (M c'), (Nat.eqb_sym c' c). destruct (c =? c'); [reflexivity|rewrite app_nil_r; reflexivity].
Qed.
Lemma addm_by n e l : l_by (addm n e l) = l_by l.
Proof. destruct n; reflexivity. Qed.
Lemma msgs_app e f c : msgs (e ++ f) c = msgs e c ++ msgs f c.
Proof. apply flat_map_app. Qed.
Lemma addm_app n e f l : addm n f (addm n e l) = addm n (e ++ f) l.
Proof. destruct n; unfold addm, addf, addb; cbn; [destruct (l_d l)|]; rewrite ?msgs_app, ?app_assoc; rewrite ?app_nil_r; reflexivity. Qed.
Lemma addm_nil n l : addm n [] l = l.
Proof. destruct l as [b c d f g], n; unfold addm, addf, addb; cbn; rewrite ?app_nil_r; [destruct d|]; rewrite ?app_nil_r; reflexivity. Qed.
Lemma addm_none n x l : (forall d, msgs [x] d = []) -> addm n [x] l = l.
Proof. intros M. destruct l as [b c d f g], n; unfold addm, addf, addb; cbn [l_by l_c l_d l_fwd l_bwd]; [destruct d|]; rewrite ?M, ?app_nil_r; reflexivity. Qed.
Lemma outl_map n e : forall L, nodial e -> (forall l, In l L -> l_by l = false) -> outl n e L = map (addm n e) L.
Proof.
  induction e as [|x e IH]; intros L D B.
  - cbn. symmetry. rewrite <- (map_id L) at 2. apply map_ext. intros; apply addm_nil.
  - assert (X : outl1 n L x = map (addm n [x]) L).
    { assert (D1 := D x (or_introl eq_refl)). destruct x; try contradiction D1; cbn [outl1];
        try (symmetry; rewrite <- (map_id L) at 2; apply map_ext; intros; apply addm_none; intros; reflexivity);
        apply map_ext_in; intros l H; apply put_add; auto; intros d; cbn; destruct (c =? d); reflexivity. }
    unfold outl in *. cbn [fold_left]. rewrite X, IH.
    + rewrite map_map. apply map_ext. intros l. apply (addm_app n [x] e).
    + intros z H. apply D. right. exact H.
    + intros l H. apply in_map_iff in H as (l0 & <- & H). rewrite addm_by. auto.
Qed.
Lemma outk_in n e : forall K x, In x (outk n e K) <-> In x K \/ exists c, x = (n, c) /\ In (OKill c) e.
Proof.
  induction e as [|o e IH]; intros K x; cbn.
  - split; [auto|]. intros [H|(c & _ & [])]. exact H.
  - unfold outk in *. rewrite IH. split.
    + intros [H|(c & -> & H)]; [|right; eauto]. destruct o; cbn in H; try (left; exact H). destruct H as [<-|H]; [|auto]. right. eauto.
    + intros [H|(c & -> & [->|H])].
      * left. destruct o; cbn; auto.
      * left. cbn. auto.
      * right. eauto.
Qed.

(** ** The invariant of each node *)
Definition linked (b : st) (d : nat) : Prop := k_torn (s_conn b d) = true \/ k_peer (s_conn b d) = Some 0.
Definition hot (s : st) : Prop := p_ptok (pr s) <> None.
Definition heart (P : peer) : Prop := p_ptok P = None /\ p_pmok P = None /\ p_ping P = false \/ p_ptok P <> None /\ p_pmok P <> None /\ p_chosen P <> None.
Definition within (s : st) (c : nat) : Prop := 1 <= c < s_nc s.
Definition non (n : N) : Prop := (0 < n < passive_nonce)%N.

Record NA (z : Z) (s : st) : Prop := {
  a_b : base 2%N s;
  a_k : forall c, within s c -> let k := s_conn s c in k_mode k = Active /\ k_cert k = None /\ k_addr k = 2%N /\ k_manual k = false /\ (k_peer k = None \/ k_peer k = Some 0) /\ (k_torn k = true -> k_term k = true);
  a_p : let P := pr s in p_addr P = 2%N /\ p_id P = 2%N /\ (p_nonce P < passive_nonce)%N /\ p_ntry P = z /\ p_cur P = z /\ p_timer P = true /\ p_in P = None /\ p_pre P = None /\ p_state P <> Reset /\ exists x, p_conn P = Some x;
  a_o : forall c, p_out (pr s) = Some c -> within s c;
  a_d : p_state (pr s) = Disconnected -> p_ton (pr s) = true;
  a_c : p_state (pr s) = Connected -> p_ton (pr s) = false /\ p_out (pr s) = None /\ hot s /\ exists c, p_conn (pr s) = Some c /\ p_chosen (pr s) = Some c /\ within s c /\ k_peer (s_conn s c) = Some 0 /\ k_torn (s_conn s c) = false;
  a_h : heart (pr s);
  a_u : forall t, In t (s_uq s) -> exists p c b, t = UCb p c b }.

Record NB (s : st) : Prop := {
  b_b : base 1%N s;
  b_k : forall c, within s c -> let k := s_conn s c in k_mode k = Passive /\ k_cert k = None /\ (k_peer k = None \/ k_peer k = Some 0) /\ (k_torn k = true -> k_term k = true);
  b_p : let P := pr s in p_nonce P = passive_nonce /\ p_ntry P = 0%Z /\ p_cur P = 0%Z /\ p_timer P = false /\ p_out P = None /\ p_state P <> Reset;
  b_d : p_state (pr s) = Disconnected -> p_pre (pr s) = None /\ p_in (pr s) = None /\ exists x, p_conn (pr s) = Some x /\ k_torn (s_conn s x) = true /\ x < s_nc s;
  b_c : p_state (pr s) = Connected -> hot s /\ (exists d, p_conn (pr s) = Some d /\ p_chosen (pr s) = Some d /\ within s d /\ k_peer (s_conn s d) = Some 0 /\ k_torn (s_conn s d) = false) /\
        (p_pre (pr s) = None \/ exists n d, p_pre (pr s) = Some (1%N, n) /\ non n /\ p_in (pr s) = Some d /\ within s d);
  b_l : forall d, within s d -> k_peer (s_conn s d) = Some 0 -> k_torn (s_conn s d) = false -> p_state (pr s) = Connected /\ p_conn (pr s) = Some d;
  b_h : heart (pr s);
  b_u : forall t, In t (s_uq s) -> (exists p c b, t = UCb p c b) \/ exists p c n d, t = UPre p c 1%N n (Some d) /\ non n /\ within s d;
  b_e : forall a d, In (a, d) (s_pend s) -> within s d /\ k_addr (s_conn s d) = a }.

(** ** Steps of a node *)
Inductive mild (i : pid) (s s' : st) : list obs -> Prop :=
| M_post t : harm t -> now i s' (pr s) (s_conn s) (s_nc s) (s_q s ++ [t]) (s_uq s) (s_pend s) -> mild i s s' []
| M_pop t q : s_q s = t :: q -> harm t -> now i s' (pr s) (s_conn s) (s_nc s) q (s_uq s) (s_pend s) -> mild i s s' []
| M_ping c q : s_q s = TPing (Some c) 0%N 0%N :: q -> now i s' (pr s) (s_conn s) (s_nc s) q (s_uq s) (s_pend s) -> mild i s s' (if k_term (s_conn s c) then [] else [OPong c None])
| M_beat P q e : (s_q s = q \/ exists c, s_q s = TPong c 0%N 0%N :: q) -> hot s -> beat (pr s) P -> now i s' P (s_conn s) (s_nc s) q (s_uq s) (s_pend s) -> (e = [] \/ exists c, e = [OPing c None]) -> mild i s s' e
| M_user p c b u : s_uq s = UCb p c b :: u -> now i s' (pr s) (s_conn s) (s_nc s) (s_q s) u (s_pend s) -> mild i s s' [].

Definition setk (k : nat -> conn) (c : nat) := upd k c (k_flags (k_term (k c)) true (k_torn (k c)) (k c)).
Definition tornk (k : nat -> conn) (c : nat) := upd k c (k_flags true (k_set (k c)) true (k c)).
Definition termk (k : nat -> conn) (c : nat) := upd k c (k_flags true (k_set (k c)) (k_torn (k c)) (k c)).

Inductive stepA (s s' : st) : list obs -> Prop :=
| A_mild e : mild 2%N s s' e -> stepA s s' e
| A_idle c q : s_q s = TPong c 2%N passive_nonce :: q -> (k_term (s_conn s c) = true \/ p_state (pr s) = Connected) -> now 2%N s' (pr s) (s_conn s) (s_nc s) q (s_uq s) (s_pend s) -> stepA s s' []
| A_set c n : within s c -> k_set (s_conn s c) = false -> k_torn (s_conn s c) = false -> non n -> now 2%N s' (p_setnonce n (pr s)) (setk (s_conn s) c) (s_nc s) (s_q s) (s_uq s) (s_pend s) -> stepA s s' [OPing c (Some n)]
| A_tear0 c pe : within s c -> k_term (s_conn s c) = true -> k_torn (s_conn s c) = false -> k_peer (s_conn s c) = None -> now 2%N s' (pr s) (tornk (s_conn s) c) (s_nc s) (s_q s) (s_uq s) pe -> stepA s s' []
| A_tear c pe : within s c -> k_term (s_conn s c) = true -> k_torn (s_conn s c) = false -> k_peer (s_conn s c) = Some 0 -> now 2%N s' (ended (pr s)) (tornk (s_conn s) c) (s_nc s) (s_q s) (s_uq s ++ [UCb 0 c false]) pe -> stepA s s' []
| A_pong c q n pe : s_q s = TPong c 2%N passive_nonce :: q -> within s c -> k_term (s_conn s c) = false -> p_state (pr s) = Disconnected -> (n < passive_nonce)%N ->
    now 2%N s' (done c (p_setnonce n (pr s))) (own c (clr (p_conn (pr s)) (clr (Some c) (s_conn s)))) (s_nc s) q (s_uq s ++ [UCb 0 c true]) pe ->
    stepA s s' ((match p_out (pr s) with Some d => if d =? c then [] else [OKill d] | None => [] end) ++ [OPing c None]).

Inductive stepB (s s' : st) : list obs -> Prop :=
| B_mild e : mild 1%N s s' e -> stepB s s' e
| B_idle c n q : s_q s = TPing (Some c) 1%N n :: q -> k_term (s_conn s c) = true -> now 1%N s' (pr s) (s_conn s) (s_nc s) q (s_uq s) (s_pend s) -> stepB s s' []
| B_pre p c n d u : s_uq s = UPre p c 1%N n (Some d) :: u -> now 1%N s' (pr s) (s_conn s) (s_nc s) (s_q s ++ [TPing (Some d) 1%N n]) u (s_pend s) -> stepB s s' []
| B_set c pe : within s c -> k_set (s_conn s c) = false -> k_torn (s_conn s c) = false -> now 1%N s' (pr s) (setk (s_conn s) c) (s_nc s) (s_q s) (s_uq s) pe ->
    (forall x, In x pe -> x = (k_addr (s_conn s c), c) \/ In x (s_pend s)) -> stepB s s' []
| B_tear0 c pe : within s c -> k_term (s_conn s c) = true -> k_torn (s_conn s c) = false -> k_peer (s_conn s c) = None -> now 1%N s' (pr s) (tornk (s_conn s) c) (s_nc s) (s_q s) (s_uq s) pe -> incl pe (s_pend s) -> stepB s s' []
| B_tear c pe : within s c -> k_term (s_conn s c) = true -> k_torn (s_conn s c) = false -> k_peer (s_conn s c) = Some 0 -> now 1%N s' (ended (pr s)) (tornk (s_conn s) c) (s_nc s) (s_q s) (s_uq s ++ [news c (pr s)]) pe -> incl pe (s_pend s) -> stepB s s' []
| B_ping1 c n q d : s_q s = TPing (Some c) 1%N n :: q -> within s c -> non n -> k_term (s_conn s c) = false -> p_state (pr s) = Connected -> p_conn (pr s) = Some d ->
    now 1%N s' (p_setnonce passive_nonce (p_setlinks (p_chosen (pr s)) (Some c) (p_out (pr s)) (p_setpre (Some (1%N, n)) (pr s)))) (s_conn s) (s_nc s) q (s_uq s) (s_pend s) -> stepB s s' [OKill d]
| B_ping2 c n q pe : s_q s = TPing (Some c) 1%N n :: q -> within s c -> k_term (s_conn s c) = false -> p_state (pr s) = Disconnected ->
    now 1%N s' (done c (pr s)) (shake c (pr s) (s_conn s)) (s_nc s) q (s_uq s ++ [UCb 0 c true]) pe -> incl pe (s_pend s) -> stepB s s' [OPong c (Some passive_nonce); OPing c None].

(** ** Steps of the two *)
Definition mates (n : bool) (c : nat) (y : sys) : Prop :=
  exists l d, In l (y_l y) /\ l_d l = Some d /\ if n then c = d /\ k_term (s_conn (y_a y) (l_c l)) = true else c = l_c l /\ k_term (s_conn (y_b y) d) = true.

Inductive tr (y : sys) : sys -> Prop :=
| T_A a e : stepA (y_a y) a e -> tr y (mkSys a (y_b y) (outl false e (y_l y)) (outk false e (y_kill y)))
| T_B b e : stepB (y_b y) b e -> tr y (mkSys (y_a y) b (outl true e (y_l y)) (outk true e (y_kill y)))
| T_termA a c : (In (false, c) (y_kill y) \/ mates false c y) -> within (y_a y) c -> k_term (s_conn (y_a y) c) = false -> now 2%N a (pr (y_a y)) (termk (s_conn (y_a y)) c) (s_nc (y_a y)) (s_q (y_a y)) (s_uq (y_a y)) (s_pend (y_a y)) -> tr y (mkSys a (y_b y) (y_l y) (y_kill y))
| T_termB b c : (In (true, c) (y_kill y) \/ mates true c y) -> within (y_b y) c -> k_term (s_conn (y_b y) c) = false -> now 1%N b (pr (y_b y)) (termk (s_conn (y_b y)) c) (s_nc (y_b y)) (s_q (y_b y)) (s_uq (y_b y)) (s_pend (y_b y)) -> tr y (mkSys (y_a y) b (y_l y) (y_kill y))
| T_accept i l b : nth_error (y_l y) i = Some l -> l_d l = None -> k_term (s_conn (y_a y) (l_c l)) = false ->
    now 1%N b (pr (y_b y)) (upd (s_conn (y_b y)) (s_nc (y_b y)) (mkConn Passive (100 + N.of_nat i)%N None true None false false false)) (S (s_nc (y_b y))) (s_q (y_b y)) (s_uq (y_b y)) (s_pend (y_b y)) ->
    tr y (mkSys (y_a y) b (set_nth i (mkLink false (l_c l) (Some (s_nc (y_b y))) (l_fwd l) (l_bwd l)) (y_l y)) (y_kill y))
| T_getA i l d m g a : nth_error (y_l y) i = Some l -> l_d l = Some d -> l_bwd l = m :: g -> k_set (s_conn (y_a y) (l_c l)) = true -> now 2%N a (pr (y_a y)) (s_conn (y_a y)) (s_nc (y_a y)) (s_q (y_a y) ++ [incoming false (l_c l) m]) (s_uq (y_a y)) (s_pend (y_a y)) ->
    tr y (mkSys a (y_b y) (set_nth i (mkLink false (l_c l) (Some d) (l_fwd l) g) (y_l y)) (y_kill y))
| T_getB i l d m f b : nth_error (y_l y) i = Some l -> l_d l = Some d -> l_fwd l = m :: f -> k_set (s_conn (y_b y) d) = true -> now 1%N b (pr (y_b y)) (s_conn (y_b y)) (s_nc (y_b y)) (s_q (y_b y) ++ [incoming true d m]) (s_uq (y_b y)) (s_pend (y_b y)) ->
    tr y (mkSys (y_a y) b (set_nth i (mkLink false (l_c l) (Some d) f (l_bwd l)) (y_l y)) (y_kill y)).

(** A connection breaks, or is refused. *)
Inductive cut (y : sys) : sys -> Prop :=
| C_A a c : within (y_a y) c -> k_term (s_conn (y_a y) c) = false -> now 2%N a (pr (y_a y)) (termk (s_conn (y_a y)) c) (s_nc (y_a y)) (s_q (y_a y)) (s_uq (y_a y)) (s_pend (y_a y)) -> cut y (mkSys a (y_b y) (y_l y) (y_kill y))
| C_B b c : within (y_b y) c -> k_term (s_conn (y_b y) c) = false -> now 1%N b (pr (y_b y)) (termk (s_conn (y_b y)) c) (s_nc (y_b y)) (s_q (y_b y)) (s_uq (y_b y)) (s_pend (y_b y)) -> cut y (mkSys (y_a y) b (y_l y) (y_kill y)).

(** A dial. *)
Definition kdial (s : st) := upd (s_conn s) (s_nc s) (mkConn Active 2%N None false (Some 0) false false false).
Inductive dial (y : sys) : sys -> Prop :=
| D_A a : p_ton (pr (y_a y)) = true -> now 2%N a (p_settimer true true (p_setlinks (p_chosen (pr (y_a y))) (p_in (pr (y_a y))) (Some (s_nc (y_a y))) (pr (y_a y)))) (kdial (y_a y)) (S (s_nc (y_a y))) (s_q (y_a y)) (s_uq (y_a y)) (s_pend (y_a y)) ->
    dial y (mkSys a (y_b y) (y_l y ++ [mkLink false (s_nc (y_a y)) None [] []]) (outk false (out_kill (p_out (pr (y_a y)))) (y_kill y))).

(** ** The invariant of the two *)
Definition okf (ha hb : Prop) (m : msg) : Prop := match m with MPing (Some n) => non n | MPing None => ha | MPong (Some _) => False | MPong None => hb end.
Definition okb (ha hb lk : Prop) (m : msg) : Prop := match m with MPing (Some _) => False | MPing None => hb | MPong (Some n) => n = passive_nonce /\ lk | MPong None => ha end.
Definition heard (b : st) (l : link) : Prop := exists d, l_d l = Some d /\ linked b d.
Definition spoke (L : list link) (b : st) (c : nat) : Prop := exists l, In l L /\ l_c l = c /\ heard b l.
Definition okqa (a b : st) (L : list link) (t : dtask) : Prop :=
  harm t \/ exists c, within a c /\ (t = TPing (Some c) 0%N 0%N /\ hot b \/ t = TPong c 0%N 0%N /\ hot a \/ t = TPong c 2%N passive_nonce /\ spoke L b c).
Definition okqb (a b : st) (t : dtask) : Prop :=
  harm t \/ exists d, within b d /\ (t = TPing (Some d) 0%N 0%N /\ hot a \/ t = TPong d 0%N 0%N /\ hot b \/ exists n, t = TPing (Some d) 1%N n /\ non n).
Definition okl (a b : st) (i : nat) (l : link) : Prop :=
  l_by l = false /\ l_c l = S i /\ (forall d, l_d l = Some d -> within b d /\ k_addr (s_conn b d) = (100 + N.of_nat i)%N) /\
  (forall m, In m (l_fwd l) -> okf (hot a) (hot b) m) /\ (forall m, In m (l_bwd l) -> okb (hot a) (hot b) (heard b l) m).

Record INV (z : Z) (y : sys) : Prop := {
  i_a : NA z (y_a y); i_b : NB (y_b y);
  i_n : S (length (y_l y)) = s_nc (y_a y);
  i_l : forall i l, nth_error (y_l y) i = Some l -> okl (y_a y) (y_b y) i l;
  i_d : forall d, within (y_b y) d -> exists l, In l (y_l y) /\ l_d l = Some d;
  i_qa : forall t, In t (s_q (y_a y)) -> okqa (y_a y) (y_b y) (y_l y) t;
  i_qb : forall t, In t (s_q (y_b y)) -> okqb (y_a y) (y_b y) t;
  i_c : p_state (pr (y_a y)) = Connected -> forall c, p_conn (pr (y_a y)) = Some c -> spoke (y_l y) (y_b y) c;
  i_o : forall c, within (y_a y) c -> k_peer (s_conn (y_a y) c) = Some 0 -> k_torn (s_conn (y_a y) c) = false ->
        p_conn (pr (y_a y)) = Some c \/ p_out (pr (y_a y)) = Some c \/ k_term (s_conn (y_a y) c) = true \/ In (false, c) (y_kill y);
  i_p : forall d, p_pre (pr (y_b y)) <> None -> p_conn (pr (y_b y)) = Some d -> k_term (s_conn (y_b y) d) = true \/ In (true, d) (y_kill y);
  i_k : forall n c, In (n, c) (y_kill y) -> c < s_nc (node n y) }.

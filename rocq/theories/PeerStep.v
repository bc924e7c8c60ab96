(** The steps of PeerModel.v one by one: every step of a well-formed state is
    one of the cases of [leaf], each with the state it leads to spelt out. *)
From Coq Require Import Arith NArith ZArith List Bool Lia.
From Verif Require Import PeerModel PeerInv.
Import ListNotations.

(** The effects on one peer. *)
Definition x_conn n x := p_settimer true false (p_setnonce 0%N (p_sethb false (p_ptok x) (p_pmok x) (p_setlinks (p_chosen x) None None (p_settry n n x)))).
Definition x_arm x := p_settimer true true x.
Definition x_in c x := p_setlinks (p_chosen x) (Some c) (p_out x) x.
Definition x_out c x := p_setlinks (p_chosen x) (p_in x) (Some c) x.
Definition x_ch c x := p_setlinks (Some c) (p_in x) (p_out x) x.
Definition x_pre c a n x := p_setnonce passive_nonce (p_setlinks (p_chosen x) (Some c) (p_out x) (p_setpre (Some (a, n)) x)).
Definition x_ping x := p_sethb true (Some false) (Some false) x.
Definition x_end x := match p_state x with Disconnected => x | _ => p_sethb false (p_ptok x) (p_pmok x) (p_setlinks (p_chosen x) (p_in x) None (p_setstate Disconnected x)) end.
Definition x_unpre x := p_setlinks (p_chosen x) None (p_out x) (p_setpre None x).
Definition x_cur x := if (0 <? p_cur x)%Z then (p_cur x - 1)%Z else p_cur x.
Definition x_lost x := let y := p_settry (p_ntry x) (x_cur x) (p_setlinks (p_chosen x) None (p_out x) x) in
  if (x_cur x =? 0)%Z then p_setnonce passive_nonce y else p_settimer true true (p_setnonce 0%N y).

Definition st_new k s := mkSt (upd (s_conn s) (s_nc s) k) (S (s_nc s)) (s_peer s) (s_np s) (s_known s) (s_pend s) (s_q s) (s_uq s) (s_halt s).
Definition st_add i s := mkSt (upd (s_conn s) (s_nc s) (mkConn Passive 0%N None true (Some (s_np s)) true false true)) (S (s_nc s))
  (upd (s_peer s) (s_np s) (p_setconn (Some (s_nc s)) (new_peer i))) (S (s_np s)) ((i, s_np s) :: s_known s) (s_pend s) (s_q s) (s_uq s) (s_halt s).
Definition st_del i p c s := onp p p_dead (w_known (drop_by i (s_known s)) (clear_peer_of (p_out (s_peer s p)) (clear_peer_of (p_in (s_peer s p)) (onc c (k_setpeer None) s)))).

(** Observations that no state change goes with. *)
Definition mild (o : list obs) : Prop := forall x, In x o -> match x with OExec _ | OUb _ | OFatal | ODial _ _ _ | OMove _ _ | OCb _ _ _ => False | _ => True end.

Ltac sel := cbn [s_conn s_nc s_peer s_np s_known s_pend s_q s_uq s_halt onp onc w_peer w_conn w_known w_pend w_q w_uq upost halt st_new st_add st_del].
Ltac eqvt := constructor; sel; try reflexivity; try assumption; try (let p := fresh "p" in intros p); unfold upd; repeat (rewrite ?Nat.eqb_refl; match goal with |- context [?a =? ?b] => destruct (Nat.eqb_spec a b); subst end); rewrite ?Nat.eqb_refl; try reflexivity; try congruence.
Ltac mildt := let x := fresh in let I := fresh in intros x I; cbn [In app] in I; repeat (destruct I as [I|I]; [subst x; exact Logic.I|]); destruct I.
Ltac okpt OK := let a := fresh in destruct OK; constructor; cbn; auto; try discriminate; try congruence.

(** Operations that fail, and those that only look. *)
Definition idle (s : st) (t : dtask) : Prop :=
  match t with
  | TAdd _ i => find_by i (s_known s) <> None
  | TDel _ i | TSetAddr _ i _ => find_by i (s_known s) = None
  | TConn _ i _ => match find_by i (s_known s) with Some p => p_addr (s_peer s p) = 0%N | None => True end
  | _ => True
  end.

Section L.
Variable hash : addr -> pid.

Inductive leaf : ev -> st -> st -> list obs -> Prop :=
| L_post t s : postable s t = true -> leaf (EPost t) s (w_q (s_q s ++ [t]) s) []
| L_accept a k s : leaf (EAccept a k) s (st_new (mkConn Passive a k true None false false false) s) []
| L_dialm a k s : leaf (EDial a k) s (st_new (mkConn Active a k true None false false false) s) []
| L_term c s : c < s_nc s -> k_term (s_conn s c) = false -> leaf (ETerm c) s (onc c (k_flags true (k_set (s_conn s c)) (k_torn (s_conn s c))) s) []
(* the user's loop *)
| L_ucb p c b q s : s_uq s = UCb p c b :: q -> leaf EUser s (w_uq q s) [OCb p c b]
| L_upre p c a n inb q s : s_uq s = UPre p c a n inb :: q -> leaf EUser s (w_q (s_q s ++ [TPing inb a n]) (w_uq q s)) [OCb p c false]
| L_uunk a c q s : s_uq s = UUnknown a c :: q -> leaf EUser s (w_uq q s) [OUnknown a c]
(* set-up *)
| L_setup c g s o : c < s_nc s -> k_set (s_conn s c) = false -> k_torn (s_conn s c) = false -> mild o ->
    leaf (ESetup c g) s (onc c (k_flags (k_term (s_conn s c)) true false) s) o
| L_setup_nonce c g p n s s1 : c < s_nc s -> k_set (s_conn s c) = false -> k_torn (s_conn s c) = false -> k_mode (s_conn s c) = Active ->
    find_by (ident hash (s_conn s c) (k_addr (s_conn s c))) (s_known s) = Some p ->
    get_nonce g p (onc c (k_flags (k_term (s_conn s c)) true false) s) = Some (s1, n) ->
    leaf (ESetup c g) s s1 [OPing c (Some n)]
| L_setup_pend c g s o l : l = (k_addr (s_conn s c), c) :: drop_by (k_addr (s_conn s c)) (s_pend s) -> c < s_nc s -> k_set (s_conn s c) = false -> k_torn (s_conn s c) = false -> k_mode (s_conn s c) = Passive -> mild o ->
    leaf (ESetup c g) s (w_pend l (onc c (k_flags (k_term (s_conn s c)) true false) s)) o
(* tear-down *)
| L_tear_free c s p : c < s_nc s -> k_term (s_conn s c) = true -> k_torn (s_conn s c) = false ->
    k_peer (s_conn s c) = Some p -> p_live (s_peer s p) = false ->
    leaf (ETear c) s (halt (w_pend (drop_by (k_addr (s_conn s c)) (s_pend s)) (onc c (k_flags true (k_set (s_conn s c)) true) s))) [OUb Freed]
| L_tear_none c s : c < s_nc s -> k_term (s_conn s c) = true -> k_torn (s_conn s c) = false ->
    (k_peer (s_conn s c) = None \/ (k_mode (s_conn s c) = Active /\ k_manual (s_conn s c) = true)) ->
    leaf (ETear c) s (w_pend (drop_by (k_addr (s_conn s c)) (s_pend s)) (onc c (k_flags true (k_set (s_conn s c)) true) s)) []
| L_tear_pre c p a n s o : c < s_nc s -> k_term (s_conn s c) = true -> k_torn (s_conn s c) = false ->
    k_peer (s_conn s c) = Some p -> ~ (k_mode (s_conn s c) = Active /\ k_manual (s_conn s c) = true) -> p_live (s_peer s p) = true ->
    p_pre (s_peer s p) = Some (a, n) -> mild o -> (In OAssert o <-> p_state (s_peer s p) <> Disconnected /\ p_conn (s_peer s p) <> Some c) ->
    leaf (ETear c) s (upost (UPre p c a n (p_in (s_peer s p))) (onp p (fun x => x_unpre (x_end x)) (w_pend (drop_by (k_addr (s_conn s c)) (s_pend s)) (onc c (k_flags true (k_set (s_conn s c)) true) s)))) o
| L_tear_lost c p s o : c < s_nc s -> k_term (s_conn s c) = true -> k_torn (s_conn s c) = false ->
    k_peer (s_conn s c) = Some p -> ~ (k_mode (s_conn s c) = Active /\ k_manual (s_conn s c) = true) -> p_live (s_peer s p) = true ->
    p_pre (s_peer s p) = None -> mild o -> (In OAssert o <-> p_state (s_peer s p) <> Disconnected /\ p_conn (s_peer s p) <> Some c) ->
    leaf (ETear c) s (upost (UCb p c false) (onp p (fun x => x_lost (x_end x)) (w_pend (drop_by (k_addr (s_conn s c)) (s_pend s)) (onc c (k_flags true (k_set (s_conn s c)) true) s)))) o
(* timers *)
| L_retry_fatal p g s : p_live (s_peer s p) = true -> p_timer (s_peer s p) = true -> p_ton (s_peer s p) = true ->
    g_ok g = false -> leaf (ERetry p g) s (halt (onp p (p_settimer true false) s)) [OFatal]
| L_retry p g s o : p_live (s_peer s p) = true -> p_timer (s_peer s p) = true -> p_ton (s_peer s p) = true -> g_ok g = true ->
    mild o ->
    leaf (ERetry p g) s (onp p (fun x => x_arm (x_out (s_nc s) x)) (st_new (mkConn Active (p_addr (s_peer s p)) (g_cert g) false (Some p) false false false) s))
         ((if (p_addr (s_peer s p) =? 0)%N then [OAssert] else []) ++ ODial (p_id (s_peer s p)) (s_nc s) (p_addr (s_peer s p)) :: o)
| L_pt_flag p s : p_live (s_peer s p) = true -> p_ping (s_peer s p) = true -> p_pmok (s_peer s p) = Some false ->
    leaf (EPingT p) s (onp p (fun x => p_sethb false (Some true) (p_pmok x) x) s) []
| L_pt_ping p c s : p_live (s_peer s p) = true -> p_ping (s_peer s p) = true -> p_pmok (s_peer s p) = Some true -> p_chosen (s_peer s p) = Some c ->
    leaf (EPingT p) s (onp p x_ping s) [OPing c None]
(* tasks *)
| L_same g t q s o : s_q s = t :: q -> task hash g t (w_q q s) = (w_q q s, o) -> idle s t -> mild o -> leaf (EDisp g) s (w_q q s) (OExec t :: o)
| L_add g id i q s : s_q s = TAdd id i :: q -> find_by i (s_known s) = None -> leaf (EDisp g) s (st_add i (w_q q s)) [OExec (TAdd id i)]
| L_del g id i p c q s : s_q s = TDel id i :: q -> find_by i (s_known s) = Some p -> p_conn (s_peer s p) = Some c ->
    leaf (EDisp g) s (st_del i p c (w_q q s)) (OExec (TDel id i) :: OKill c :: out_kill (p_in (s_peer s p)) ++ out_kill (p_out (s_peer s p)))
| L_addr g id i a p q s : s_q s = TSetAddr id i a :: q -> find_by i (s_known s) = Some p -> leaf (EDisp g) s (onp p (p_setaddr a) (w_q q s)) [OExec (TSetAddr id i a)]
| L_conn g id i n p q s : s_q s = TConn id i n :: q -> find_by i (s_known s) = Some p -> p_addr (s_peer s p) <> 0%N -> p_state (s_peer s p) = Disconnected ->
    leaf (EDisp g) s (onp p (fun x => if (n =? 0)%Z then x_conn n x else x_arm (x_conn n x)) (w_q q s)) [OExec (TConn id i n)]
| L_conn_up g id i n p c q s : s_q s = TConn id i n :: q -> find_by i (s_known s) = Some p -> p_addr (s_peer s p) <> 0%N -> p_state (s_peer s p) = Connected ->
    p_conn (s_peer s p) = Some c ->
    leaf (EDisp g) s (onp p (fun x => p_setstate Reset (x_conn n x)) (w_q q s)) [OExec (TConn id i n); OKill c]
| L_conn_re g id i n p q s : s_q s = TConn id i n :: q -> find_by i (s_known s) = Some p -> p_addr (s_peer s p) <> 0%N -> p_state (s_peer s p) = Reset ->
    leaf (EDisp g) s (onp p (x_conn n) (w_q q s)) [OExec (TConn id i n)]
| L_peer_free g c p q s : s_q s = TPeer c :: q -> k_peer (s_conn s c) = Some p -> p_live (s_peer s p) = false -> leaf (EDisp g) s (halt (w_q q s)) [OExec (TPeer c); OUb Freed]
| L_ping_null g a n q s : s_q s = TPing None a n :: q -> leaf (EDisp g) s (halt (w_q q s)) [OExec (TPing None a n); OUb Null]
| L_ping_unk g c a n q s : s_q s = TPing (Some c) a n :: q -> leaf (EDisp g) s (upost (UUnknown a c) (w_q q s)) [OExec (TPing (Some c) a n); OKill c]
| L_ping_pre g c a n p o q s : s_q s = TPing (Some c) a n :: q -> c < s_nc s -> k_term (s_conn s c) = false -> a <> 0%N -> k_mode (s_conn s c) = Passive -> find_by (ident hash (s_conn s c) a) (s_known s) = Some p ->
    n <> 0%N -> p_state (s_peer s p) = Connected -> p_conn (s_peer s p) = Some o ->
    leaf (EDisp g) s (onp p (x_pre c a n) (w_q q s)) [OExec (TPing (Some c) a n); OKill o]
| L_ping_fatal g c a n p q s : s_q s = TPing (Some c) a n :: q -> find_by (ident hash (s_conn s c) a) (s_known s) = Some p ->
    g_rnd g = None -> leaf (EDisp g) s (halt (w_q q s)) [OExec (TPing (Some c) a n); OFatal]
| L_ping_ref g c a n p mine o q s s1 : s_q s = TPing (Some c) a n :: q -> c < s_nc s -> k_term (s_conn s c) = false -> a <> 0%N -> k_mode (s_conn s c) = Passive -> find_by (ident hash (s_conn s c) a) (s_known s) = Some p ->
    n <> 0%N -> p_state (s_peer s p) = Disconnected -> get_nonce g p (w_q q s) = Some (s1, mine) -> (mine <= n)%N -> p_addr (s_peer s p) <> 0%N -> mild o ->
    leaf (EDisp g) s (onp p (x_in c) s1) (OExec (TPing (Some c) a n) :: OPong c (Some mine) :: o ++ [OKill c])
| L_ping_fin g c a n p u mine o o' q s s1 s' : s_q s = TPing (Some c) a n :: q -> c < s_nc s -> k_term (s_conn s c) = false -> a <> 0%N -> k_mode (s_conn s c) = Passive -> find_by (ident hash (s_conn s c) a) (s_known s) = Some p ->
    n <> 0%N -> p_state (s_peer s p) = Disconnected -> get_nonce g p (w_q q s) = Some (s1, mine) -> ((n < mine)%N \/ p_addr (s_peer s p) = 0%N) -> mild o ->
    p_conn (s_peer s p) = Some u -> finished p c u (onp p (x_ch c) (onp p (x_in c) s1)) s' ->
    o' = OPing c None :: (if k_term (s_conn s u) then [] else [OAssert]) ++ [OMove u c] ->
    leaf (EDisp g) s s' (OExec (TPing (Some c) a n) :: OPong c (Some mine) :: o ++ o')
| L_pong_free g c n p q s : s_q s = TPong c 0%N n :: q -> k_term (s_conn s c) = false -> k_peer (s_conn s c) = Some p -> p_live (s_peer s p) = false ->
    leaf (EDisp g) s (halt (w_q q s)) [OExec (TPong c 0%N n); OUb Freed]
| L_pong_uninit g c n p q s : s_q s = TPong c 0%N n :: q -> k_term (s_conn s c) = false -> k_peer (s_conn s c) = Some p -> p_live (s_peer s p) = true -> p_ptok (s_peer s p) = None ->
    leaf (EDisp g) s (halt (onp p (fun x => p_sethb (p_ping x) (p_ptok x) (Some true) x) (w_q q s))) [OExec (TPong c 0%N n); OUb Uninit]
| L_pong_flag g c n p q s : s_q s = TPong c 0%N n :: q -> k_term (s_conn s c) = false -> k_peer (s_conn s c) = Some p -> p_live (s_peer s p) = true -> p_ptok (s_peer s p) = Some false ->
    leaf (EDisp g) s (onp p (fun x => p_sethb (p_ping x) (p_ptok x) (Some true) x) (w_q q s)) [OExec (TPong c 0%N n)]
| L_pong_ping g c n p d q s : s_q s = TPong c 0%N n :: q -> k_term (s_conn s c) = false -> k_peer (s_conn s c) = Some p -> p_live (s_peer s p) = true -> p_ptok (s_peer s p) = Some true ->
    p_chosen (s_peer s p) = Some d ->
    leaf (EDisp g) s (onp p x_ping (w_q q s)) [OExec (TPong c 0%N n); OPing d None]
| L_pong_fatal g c a n p o q s : s_q s = TPong c a n :: q -> c < s_nc s -> find_by (ident hash (s_conn s c) (k_addr (s_conn s c))) (s_known s) = Some p -> mild o ->
    g_rnd g = None -> leaf (EDisp g) s (halt (onp p (x_out c) (w_q q s))) (OExec (TPong c a n) :: o ++ [OFatal])
| L_pong_ref g c a n p mine o q s s1 : s_q s = TPong c a n :: q -> c < s_nc s -> k_term (s_conn s c) = false -> a <> 0%N -> k_mode (s_conn s c) = Active -> find_by (ident hash (s_conn s c) (k_addr (s_conn s c))) (s_known s) = Some p ->
    p_state (s_peer s p) = Disconnected -> p_addr (s_peer s p) = a -> get_nonce g p (onp p (x_out c) (w_q q s)) = Some (s1, mine) -> (n <= mine)%N -> mild o ->
    leaf (EDisp g) s s1 (OExec (TPong c a n) :: o ++ [OKill c])
| L_pong_fin g c a n p u mine o o' q s s1 s' : s_q s = TPong c a n :: q -> c < s_nc s -> k_term (s_conn s c) = false -> a <> 0%N -> k_mode (s_conn s c) = Active -> find_by (ident hash (s_conn s c) (k_addr (s_conn s c))) (s_known s) = Some p ->
    p_state (s_peer s p) = Disconnected -> p_addr (s_peer s p) = a -> get_nonce g p (onp p (x_out c) (w_q q s)) = Some (s1, mine) -> (mine < n)%N -> mild o ->
    p_conn (s_peer s p) = Some u -> finished p c u (reset_ping_timer p (onp p (x_ch c) s1)) s' ->
    o' = OPing c None :: (if k_term (s_conn s u) then [] else [OAssert]) ++ [OMove u c] ->
    leaf (EDisp g) s s' (OExec (TPong c a n) :: o ++ o').

(** Equal states, functions compared pointwise. *)
Record eqv (s s' : st) : Prop := mkEqv {
  q_conn : forall c, s_conn s c = s_conn s' c; q_nc : s_nc s = s_nc s';
  q_peer : forall p, s_peer s p = s_peer s' p; q_np : s_np s = s_np s';
  q_known : s_known s = s_known s'; q_pend : s_pend s = s_pend s'; q_q : s_q s = s_q s'; q_uq : s_uq s = s_uq s'; q_halt : s_halt s = s_halt s' }.

Lemma eqv_refl s : eqv s s.
Proof. constructor; reflexivity. Qed.


Definition stepped (e : ev) (s s' : st) (o : list obs) : Prop := exists s1, leaf e s s1 o /\ eqv s1 s'.

Lemma mild_nil : mild []. Proof. intros x []. Qed.
Lemma mild_app a b : mild a -> mild b -> mild (a ++ b).
Proof. intros H K x I. apply in_app_or in I. destruct I as [I|I]; [exact (H x I)|exact (K x I)]. Qed.
Lemma mild_check (b : bool) : mild (if b then [] else [OAssert]).
Proof. destruct b; intros x I; cbn in I; [destruct I|destruct I as [<-|[]]; exact Logic.I]. Qed.

Lemma wf_wq s t q : WF s -> s_q s = t :: q -> WF (w_q q s).
Proof. intros W E. apply wf_q; [exact W|]. intros u I. apply (w_task s W). rewrite E. right. exact I. Qed.

Lemma seq_go x f s o : x = (s, o) -> s_halt s = false -> seq x f = let '(s', o') := f s in (s', o ++ o').
Proof. intros -> H. unfold seq. rewrite H. reflexivity. Qed.

Lemma step_setup c g s s' o : s_halt s = false -> step hash (ESetup c g) s = Some (s', o) -> stepped (ESetup c g) s s' o.
Proof.
  intros HH E. unfold step in E. rewrite HH in E.
  destruct ((c <? s_nc s) && negb (k_set (s_conn s c)) && negb (k_torn (s_conn s c))) eqn:G; [|discriminate].
  rewrite !andb_true_iff, !negb_true_iff, Nat.ltb_lt in G. destruct G as ((G1 & G2) & G3). rewrite G3 in E.
  unfold setup in E. set (s0 := onc c (k_flags (k_term (s_conn s c)) true false) s) in *.
  assert (K1 : k_mode (s_conn s0 c) = k_mode (s_conn s c)) by (unfold s0; sel; rewrite upd_same; reflexivity).
  assert (K2 : ident hash (s_conn s0 c) (k_addr (s_conn s0 c)) = ident hash (s_conn s c) (k_addr (s_conn s c))) by (unfold s0; sel; rewrite upd_same; reflexivity).
  assert (K3 : k_manual (s_conn s0 c) = k_manual (s_conn s c)) by (unfold s0; sel; rewrite upd_same; reflexivity).
  change (s_known s0) with (s_known s) in E. rewrite K1, K2, K3 in E.
  destruct (k_mode (s_conn s c)) eqn:M.
  - destruct (find_by _ (s_known s)) as [p|] eqn:F.
    + destruct (get_nonce g p s0) as [[s1 n]|] eqn:N; injection E as <- <-.
      * exists s1. split; [|apply eqv_refl]. eapply L_setup_nonce; eauto.
      * exists s0. split; [|apply eqv_refl]. apply L_setup; auto. mildt.
    + exists s0. destruct (k_manual (s_conn s c)); injection E as <- <-; (split; [apply L_setup; auto; mildt|apply eqv_refl]).
  - unfold replace_pending_conn in E. assert (K4 : k_addr (s_conn s0 c) = k_addr (s_conn s c)) by (unfold s0; sel; rewrite upd_same; reflexivity). rewrite K4 in E. destruct (find_by _ (s_pend s0)) as [d|] eqn:F.
    + destruct (d =? c); injection E as <- <-.
      * exists s0. split; [apply L_setup; auto; mildt|apply eqv_refl].
      * eexists. split; [apply L_setup_pend; auto; mildt|apply eqv_refl].
    + injection E as <- <-. exists (w_pend ((k_addr (s_conn s c), c) :: drop_by (k_addr (s_conn s c)) (s_pend s)) s0). split; [apply L_setup_pend; auto; mildt|].
      rewrite drop_by_none by exact F. apply eqv_refl.
Qed.

Lemma step_tear c s s' o : WF s -> s_halt s = false -> step hash (ETear c) s = Some (s', o) -> stepped (ETear c) s s' o.
Proof.
  intros W HH E. unfold step in E. rewrite HH in E.
  destruct ((c <? s_nc s) && k_term (s_conn s c) && negb (k_torn (s_conn s c))) eqn:G; [|discriminate].
  rewrite !andb_true_iff, !negb_true_iff, Nat.ltb_lt in G. destruct G as ((G1 & G2) & G3).
  unfold teardown in E. set (s0 := onc c (k_flags true (k_set (s_conn s c)) true) s) in *.
  assert (K : s_conn s0 c = k_flags true (k_set (s_conn s c)) true (s_conn s c)) by (unfold s0; sel; rewrite upd_same; reflexivity).
  rewrite K in E. cbn [k_addr k_peer k_mode k_manual k_flags] in E.
  destruct (k_peer (s_conn s c)) as [p|] eqn:KP.
  2:{ injection E as <- <-. eexists. split; [apply L_tear_none; auto|apply eqv_refl]. }
  destruct ((match k_mode (s_conn s c) with Active => true | Passive => false end) && k_manual (s_conn s c)) eqn:M.
  { injection E as <- <-. eexists. split; [apply L_tear_none; auto|apply eqv_refl]. right. destruct (k_mode (s_conn s c)); [auto|discriminate M]. }
  assert (M' : ~ (k_mode (s_conn s c) = Active /\ k_manual (s_conn s c) = true)).
  { intros (E1 & E2). rewrite E1, E2 in M. discriminate M. }
  set (s1 := w_pend (drop_by (k_addr (s_conn s c)) (s_pend s0)) s0) in *.
  change (s_peer s1) with (s_peer s) in E.
  destruct (p_live (s_peer s p)) eqn:L; cbn [negb] in E.
  2:{ injection E as <- <-. eexists. split; [|apply eqv_refl]. eapply L_tear_free; eauto. }
  destruct (w_live s W p L) as (_ & _ & OK). destruct (ok_conn _ _ OK) as (u & EU & _).
  (* the first part *)
  set (chk := match p_state (s_peer s p) with Disconnected => [] | _ => if oeq (p_conn (s_peer s p)) (Some c) then [] else [OAssert] end : list obs).
  set (s2 := match p_state (s_peer s p) with Disconnected => s1 | _ => onp p (fun x => p_sethb false (p_ptok x) (p_pmok x) (p_setlinks (p_chosen x) (p_in x) None (p_setstate Disconnected x))) s1 end).
  match type of E with Some (seq ?A ?F) = _ => assert (EA : A = (s2, chk)) end.
  { unfold s2, chk. destruct (p_state (s_peer s p)); [reflexivity| |].
    all: unfold check; rewrite (seq_go _ _ s1 _ eq_refl) by exact HH; change (s_peer s1) with (s_peer s); rewrite EU; cbn [say]; rewrite app_nil_r; reflexivity. }
  assert (H2 : s_halt s2 = false) by (unfold s2; destruct (p_state (s_peer s p)); exact HH).
  rewrite (seq_go _ _ _ _ EA H2) in E. clear EA.
  assert (P2 : s_peer s2 p = x_end (s_peer s p)).
  { unfold s2, x_end. destruct (p_state (s_peer s p)); [reflexivity| |]; sel; rewrite upd_same; reflexivity. }
  assert (CK : mild chk /\ (In OAssert chk <-> p_state (s_peer s p) <> Disconnected /\ p_conn (s_peer s p) <> Some c)).
  { unfold chk. rewrite EU. destruct (p_state (s_peer s p)); (split; [try apply mild_check; apply mild_nil|]); cbn [oeq].
    - split; [intros []|intros (H & _); congruence].
    - destruct (Nat.eqb_spec u c); split.
      + intros [].
      + intros (_ & H). congruence.
      + intros _. split; congruence.
      + intros _. left. reflexivity.
    - destruct (Nat.eqb_spec u c); split.
      + intros [].
      + intros (_ & H). congruence.
      + intros _. split; congruence.
      + intros _. left. reflexivity. }
  destruct CK as (CK1 & CK2).
  assert (PE : forall x, p_pre (x_end x) = p_pre x /\ p_in (x_end x) = p_in x /\ p_cur (x_end x) = p_cur x /\ p_timer (x_end x) = p_timer x).
  { intros x. unfold x_end. destruct (p_state x); auto. }
  destruct (PE (s_peer s p)) as (PE1 & PE2 & PE3 & PE4).
  rewrite P2, PE1 in E.
  destruct (p_pre (s_peer s p)) as [[a n]|] eqn:PP.
  - rewrite PE2 in E. cbn [say] in E. injection E as <- <-. rewrite app_nil_r. eexists. split; [eapply L_tear_pre; eauto|].
    unfold s2, x_unpre. destruct (p_state (s_peer s p)) eqn:ST.
    all: constructor; sel; try reflexivity; intros q0; unfold upd; rewrite ?Nat.eqb_refl; destruct (Nat.eqb_spec q0 p); try reflexivity; unfold x_end; rewrite ST; reflexivity.
  - rewrite PE3, PE4 in E. fold (x_cur (s_peer s p)) in E.
    assert (T : (x_cur (s_peer s p) =? 0)%Z = false -> p_timer (s_peer s p) = true).
    { intros C. destruct (p_timer (s_peer s p)) eqn:T; [reflexivity|]. destruct (ok_timer _ _ OK T) as (Z0 & _). unfold x_cur in C. rewrite Z0 in C. discriminate C. }
    assert (XC : x_cur (x_end (s_peer s p)) = x_cur (s_peer s p)) by (unfold x_cur; rewrite PE3; reflexivity).
    destruct (x_cur (s_peer s p) =? 0)%Z eqn:C; [|rewrite (T eq_refl) in E].
    all: cbn [say] in E; injection E as <- <-; rewrite app_nil_r; eexists; (split; [eapply L_tear_lost; eauto|]).
    all: unfold s2; destruct (p_state (s_peer s p)) eqn:ST.
    all: constructor; sel; try reflexivity; intros q0; unfold upd; rewrite ?Nat.eqb_refl; destruct (Nat.eqb_spec q0 p); try reflexivity; unfold x_lost; rewrite XC, C; unfold x_end; rewrite ST; reflexivity.
Qed.

Lemma known_live s i p : WF s -> find_by i (s_known s) = Some p -> p_live (s_peer s p) = true /\ p_id (s_peer s p) = i /\ okp (s_nc s) (s_peer s p) /\ p < s_np s.
Proof. intros W F. destruct (w_kn s W _ _ (find_by_In _ _ _ F)) as (L & I). destruct (w_live s W p L) as (? & ? & ?). auto. Qed.


Ltac same := eexists; split; [eapply L_same; [eassumption| |first [exact I | unfold idle; match goal with F : find_by _ _ = _ |- _ => rewrite F end; first [exact I | reflexivity | discriminate | apply N.eqb_eq; assumption]]|]|apply eqv_refl].

Lemma get_nonce_None g p s : get_nonce g p s = None -> g_rnd g = None.
Proof. unfold get_nonce. destruct (p_nonce (s_peer s p) =? 0)%N; [|intros E; discriminate E]. destruct (g_rnd g); [intros E; discriminate E|reflexivity]. Qed.

Lemma step_ping g c a n q s s' o : WF s -> s_halt s = false -> s_q s = TPing c a n :: q ->
  ping_task hash g c a n (w_q q s) = (s', o) -> stepped (EDisp g) s s' (OExec (TPing c a n) :: o).
Proof.
  intros W HH Q E. pose proof (wf_wq _ _ _ W Q) as W0.
  destruct c as [c|]; [|injection E as <- <-; eexists; split; [eapply L_ping_null; exact Q|apply eqv_refl]].
  assert (CN : c < s_nc s). { pose proof (w_task s W (TPing (Some c) a n)) as H. rewrite Q in H. exact (H (or_introl eq_refl)). }
  pose proof E as E0. unfold ping_task in E. change (s_conn (w_q q s)) with (s_conn s) in E. change (s_known (w_q q s)) with (s_known s) in E. change (s_peer (w_q q s)) with (s_peer s) in E.
  destruct (k_term (s_conn s c)) eqn:KT; [injection E as <- <-; same; [exact E0|mildt]|].
  destruct (a =? 0)%N eqn:A0; [injection E as <- <-; same; [exact E0|mildt]|].
  destruct (k_mode (s_conn s c)) eqn:KM; [injection E as <- <-; same; [exact E0|mildt]|].
  destruct (find_by _ (s_known s)) as [p|] eqn:F.
  2:{ injection E as <- <-. eexists. split; [eapply L_ping_unk; exact Q|apply eqv_refl]. }
  destruct (known_live _ _ _ W F) as (L & ID & OK & _). destruct (ok_conn _ _ OK) as (u & EU & _).
  destruct (n =? 0)%N eqn:N0; [injection E as <- <-; same; [exact E0|mildt]|].
  apply N.eqb_neq in A0, N0.
  destruct (p_state (s_peer s p)) eqn:ST.
  - (* Disconnected *)
    destruct (get_nonce g p (w_q q s)) as [[s1 mine]|] eqn:GN.
    2:{ injection E as <- <-. eexists. split; [eapply L_ping_fatal; eauto|apply eqv_refl]. exact (get_nonce_None _ _ _ GN). }
    destruct (get_nonce_wf _ _ _ _ _ W0 L GN) as (W1 & NC & P1 & H1 & C1 & KN1 & NP1). cbn in NC, P1, H1, C1, KN1, NP1.
    rewrite (seq_go (say [OPong c (Some mine)] s1) _ s1 _ eq_refl) in E by (rewrite H1; exact HH).
    match type of E with (let '(_, _) := seq ?A ?F in _) = _ => assert (EA : exists o1, A = (s1, o1) /\ mild o1) end.
    { rewrite P1. cbn [p_in p_setnonce]. destruct (p_in (s_peer s p)) as [d|]; [|eexists; split; [reflexivity|apply mild_nil]].
      destruct (d =? c); [eexists; split; [reflexivity|apply mild_nil]|].
      unfold check. rewrite (seq_go _ _ s1 _ eq_refl) by (rewrite H1; exact HH). eexists. split; [reflexivity|]. apply mild_app; [apply mild_check|mildt]. }
    destruct EA as (o1 & EA & M1). rewrite (seq_go _ _ _ _ EA) in E by (rewrite H1; exact HH). clear EA.
    change (fun x => p_setlinks (p_chosen x) (Some c) (p_out x) x) with (x_in c) in E.
    replace (p_addr (s_peer (onp p (x_in c) s1) p)) with (p_addr (s_peer s p)) in E by (sel; rewrite upd_same, P1; reflexivity).
    destruct ((n <? mine)%N || (p_addr (s_peer s p) =? 0)%N) eqn:D.
    + set (s2 := onp p (fun x => p_setlinks (Some c) (p_in x) (p_out x) x) (onp p (x_in c) s1)) in *.
      assert (X2 : s_peer s2 p = x_ch c (x_in c (p_setnonce mine (s_peer s p)))) by (unfold s2; sel; rewrite !upd_same, P1; reflexivity).
      pose proof (finish_spec p c u s2) as FS. rewrite X2 in FS. cbn [p_chosen p_conn p_state x_ch x_in p_setlinks p_setnonce] in FS.
      specialize (FS eq_refl EU). change (s_halt s2) with (s_halt s1) in FS. rewrite H1 in FS. specialize (FS HH).
      unfold post in FS. destruct (finish_handshake p s2) as [s3 o3]. cbn [fst snd] in FS. destruct FS as (FS & FO).
      cbv beta iota zeta in E. injection E as <- <-. eexists. split; [|apply eqv_refl].
      change (s_conn s2) with (s_conn s1) in FO. rewrite C1, ST in FO. cbn [app] in FO.
      eapply L_ping_fin; eauto.
      apply orb_true_iff in D. rewrite N.ltb_lt, N.eqb_eq in D. exact D.
    + unfold say in E; cbv beta iota zeta in E. injection E as <- <-. eexists. split; [eapply L_ping_ref; eauto|apply eqv_refl].
      * apply orb_false_iff in D. rewrite N.ltb_ge in D. tauto.
      * apply orb_false_iff in D. rewrite N.eqb_neq in D. tauto.
  - (* Connected *)
    replace (p_conn (s_peer _ p)) with (p_conn (s_peer s p)) in E by (sel; rewrite upd_same; reflexivity).
    rewrite EU in E. injection E as <- <-. eexists. split; [eapply L_ping_pre; eauto|apply eqv_refl].
  - injection E as <- <-; same; [exact E0|mildt].
Qed.

Lemma step_pong g c a n q s s' o : WF s -> s_halt s = false -> s_q s = TPong c a n :: q ->
  pong_task hash g c a n (w_q q s) = (s', o) -> stepped (EDisp g) s s' (OExec (TPong c a n) :: o).
Proof.
  intros W HH Q E. pose proof (wf_wq _ _ _ W Q) as W0.
  assert (CN : c < s_nc s). { pose proof (w_task s W (TPong c a n)) as H. rewrite Q in H. exact (H (or_introl eq_refl)). }
  pose proof E as E0. unfold pong_task in E. change (s_conn (w_q q s)) with (s_conn s) in E. change (s_known (w_q q s)) with (s_known s) in E. change (s_peer (w_q q s)) with (s_peer s) in E.
  destruct (k_term (s_conn s c)) eqn:KT; [injection E as <- <-; same; [exact E0|mildt]|].
  destruct (a =? 0)%N eqn:A0.
  { apply N.eqb_eq in A0. subst a. destruct (k_peer (s_conn s c)) as [p|] eqn:KP; [|injection E as <- <-; same; [exact E0|mildt]].
    destruct (p_live (s_peer s p)) eqn:L; cbn [negb] in E.
    2:{ injection E as <- <-. eexists. split; [eapply L_pong_free; eauto|apply eqv_refl]. }
    destruct (w_live s W p L) as (_ & _ & OK).
    replace (p_ptok (s_peer _ p)) with (p_ptok (s_peer s p)) in E by (sel; rewrite upd_same; reflexivity).
    destruct (p_ptok (s_peer s p)) as [[|]|] eqn:PT.
    - unfold send_ping, reset_ping_timer in E.
      replace (p_chosen (s_peer _ p)) with (p_chosen (s_peer s p)) in E by (sel; rewrite !upd_same; reflexivity).
      destruct (ok_fl _ _ OK) as (_ & CH); [congruence|]. destruct (p_chosen (s_peer s p)) as [d|] eqn:CD; [|congruence].
      injection E as <- <-. eexists. split; [eapply L_pong_ping; eauto|]. eqvt.
    - injection E as <- <-. eexists. split; [eapply L_pong_flag; eauto|apply eqv_refl].
    - injection E as <- <-. eexists. split; [eapply L_pong_uninit; eauto|apply eqv_refl]. }
  apply N.eqb_neq in A0.
  destruct (k_mode (s_conn s c)) eqn:KM; [|injection E as <- <-; same; [exact E0|mildt]].
  destruct (find_by _ (s_known s)) as [p|] eqn:F; [|injection E as <- <-; same; [exact E0|mildt]].
  destruct (known_live _ _ _ W F) as (L & ID & OK & _). destruct (ok_conn _ _ OK) as (u & EU & _).
  unfold check in E at 1. rewrite (seq_go _ _ (w_q q s) _ eq_refl) in E by exact HH. change (s_peer (w_q q s)) with (s_peer s) in E.
  set (o1 := if negb (p_addr (s_peer s p) =? 0)%N && (p_addr (s_peer s p) =? k_addr (s_conn s c))%N then [] else [OAssert]) in *.
  assert (M1 : mild o1) by apply mild_check.
  destruct (p_state (s_peer s p)) eqn:ST; [|injection E as <- <-; rewrite app_nil_r in *; same; [exact E0|exact M1]..].
  destruct (p_addr (s_peer s p) =? a)%N eqn:PA; cbn [negb] in E; [|injection E as <- <-; rewrite app_nil_r in *; same; [exact E0|exact M1]].
  apply N.eqb_eq in PA.
  match type of E with (let '(_, _) := seq ?A ?F in _) = _ => assert (EA : exists o2, A = (w_q q s, o2) /\ mild o2) end.
  { destruct (p_out (s_peer s p)) as [d|]; [|eexists; split; [reflexivity|apply mild_nil]].
    destruct (d =? c); [eexists; split; [reflexivity|apply mild_nil]|].
    unfold check. rewrite (seq_go _ _ (w_q q s) _ eq_refl) by exact HH. eexists. split; [reflexivity|]. apply mild_app; [apply mild_check|mildt]. }
  destruct EA as (o2 & EA & M2). rewrite (seq_go _ _ _ _ EA) in E by exact HH. clear EA.
  change (fun x => p_setlinks (p_chosen x) (p_in x) (Some c) x) with (x_out c) in E.
  assert (M12 : mild (o1 ++ o2)) by (apply mild_app; assumption).
  destruct (get_nonce g p (onp p (x_out c) (w_q q s))) as [[s1 mine]|] eqn:GN.
  2:{ unfold say in E; cbv beta iota zeta in E. injection E as <- <-. eexists. split; [|apply eqv_refl]. rewrite app_assoc. eapply L_pong_fatal; eauto. exact (get_nonce_None _ _ _ GN). }
  assert (W1 : WF (onp p (x_out c) (w_q q s))).
  { apply wf_onp; [exact W0| |exact L]. intros _. split; [exact L|]. split; [reflexivity|]. destruct OK. constructor; cbn; auto. intros d E1. injection E1 as <-. exact CN. }
  assert (L1 : p_live (s_peer (onp p (x_out c) (w_q q s)) p) = true) by (sel; rewrite upd_same; exact L).
  destruct (get_nonce_wf _ _ _ _ _ W1 L1 GN) as (W2 & NC & P1 & H1 & C1 & KN1 & NP1). cbn in NC, P1, H1, C1, KN1, NP1. rewrite upd_same in P1.
  destruct (mine <? n)%N eqn:D.
  - set (s2 := reset_ping_timer p (onp p (fun x => p_setlinks (Some c) (p_in x) (p_out x) x) s1)) in *.
    assert (X2 : s_peer s2 p = p_sethb true (p_ptok (s_peer s p)) (p_pmok (s_peer s p)) (x_ch c (p_setnonce mine (x_out c (s_peer s p))))) by (unfold s2, reset_ping_timer; sel; rewrite !upd_same, P1; reflexivity).
    pose proof (finish_spec p c u s2) as FS. rewrite X2 in FS. cbn [p_chosen p_conn p_state p_sethb x_ch x_out p_setlinks p_setnonce] in FS.
    specialize (FS eq_refl EU). change (s_halt s2) with (s_halt s1) in FS. rewrite H1 in FS. specialize (FS HH).
    unfold post in FS. destruct (finish_handshake p s2) as [s3 o3]. cbn [fst snd] in FS. destruct FS as (FS & FO).
    cbv beta iota zeta in E. injection E as <- <-. eexists. split; [|apply eqv_refl].
    change (s_conn s2) with (s_conn s1) in FO. rewrite C1, ST in FO. cbn [app] in FO.
    rewrite app_assoc. eapply L_pong_fin; eauto. apply N.ltb_lt. exact D.
  - unfold say in E; cbv beta iota zeta in E. injection E as <- <-. rewrite app_assoc. eexists. split; [eapply L_pong_ref; eauto|apply eqv_refl]. apply N.ltb_ge. exact D.
Qed.

Lemma multi_mild g l m s : WF s -> mild (fst (multi g l m s)).
Proof.
  intros W. induction l as [|i l IH]; [apply mild_nil|]. cbn [multi].
  destruct (find_by i (s_known s)) as [p|] eqn:F; [|apply mild_nil].
  destruct (known_live _ _ _ W F) as (_ & _ & OK & _). destruct (ok_conn _ _ OK) as (u & EU & _). rewrite EU.
  destruct (multi g l m s) as [o r]. cbn [fst] in *. apply mild_app; [|exact IH]. destruct (g_write g u); mildt.
Qed.

Lemma step_task g t q s s' o : WF s -> s_halt s = false -> s_q s = t :: q ->
  task hash g t (w_q q s) = (s', o) -> stepped (EDisp g) s s' (OExec t :: o).
Proof.
  intros W HH Q E. pose proof (wf_wq _ _ _ W Q) as W0. pose proof E as E0.
  destruct t as [id i|id i|id i a|id i n|i|i|c|id i m|id l m|c a n|c a n]; cbn [task] in E;
    change (s_conn (w_q q s)) with (s_conn s) in E; change (s_known (w_q q s)) with (s_known s) in E; change (s_peer (w_q q s)) with (s_peer s) in E.
  - destruct (find_by i (s_known s)) as [p|] eqn:F; injection E as <- <-.
    + same; [exact E0|mildt].
    + eexists. split; [eapply L_add; eauto|apply eqv_refl].
  - destruct (find_by i (s_known s)) as [p|] eqn:F.
    + destruct (known_live _ _ _ W F) as (_ & _ & OK & _). destruct (ok_conn _ _ OK) as (u & EU & _). rewrite EU in E.
      injection E as <- <-. eexists. split; [eapply L_del; eauto|].
      unfold st_del. change (s_peer (w_q q s)) with (s_peer s). destruct (p_out (s_peer s p)), (p_in (s_peer s p)); apply eqv_refl.
    + injection E as <- <-. same; [exact E0|mildt].
  - destruct (find_by i (s_known s)) as [p|] eqn:F; injection E as <- <-.
    + eexists. split; [eapply L_addr; eauto|apply eqv_refl].
    + same; [exact E0|mildt].
  - destruct (find_by i (s_known s)) as [p|] eqn:F.
    + destruct (known_live _ _ _ W F) as (_ & _ & OK & _). destruct (ok_conn _ _ OK) as (u & EU & _).
      destruct (p_addr (s_peer s p) =? 0)%N eqn:A; [injection E as <- <-; same; [exact E0|mildt]|]. apply N.eqb_neq in A.
      change (fun x => p_settimer true false (p_setnonce 0%N (p_sethb false (p_ptok x) (p_pmok x) (p_setlinks (p_chosen x) None None (p_settry n n x))))) with (x_conn n) in E.
      replace (p_state (s_peer (onp p (x_conn n) (w_q q s)) p)) with (p_state (s_peer s p)) in E by (sel; rewrite upd_same; reflexivity).
      replace (p_conn (s_peer (onp p (x_conn n) (w_q q s)) p)) with (p_conn (s_peer s p)) in E by (sel; rewrite upd_same; reflexivity).
      destruct (p_state (s_peer s p)) eqn:ST.
      * injection E as <- <-. eexists. split; [eapply L_conn; eauto|]. destruct (n =? 0)%Z; [apply eqv_refl|]. eqvt.
      * rewrite EU in E. injection E as <- <-. eexists. split; [eapply L_conn_up; eauto|]. eqvt.
      * injection E as <- <-. eexists. split; [eapply L_conn_re; eauto|apply eqv_refl].
    + injection E as <- <-. same; [exact E0|mildt].
  - injection E as <- <-. same; [exact E0|mildt].
  - destruct (find_by i (s_known s)) as [p|] eqn:F; injection E as <- <-; (same; [exact E0|mildt]).
  - destruct (k_peer (s_conn s c)) as [p|] eqn:KP; [|injection E as <- <-; same; [exact E0|mildt]].
    destruct (p_live (s_peer s p)) eqn:L; injection E as <- <-; [same; [exact E0|mildt]|].
    eexists. split; [|apply eqv_refl]. eapply L_peer_free; eauto.
  - destruct (find_by i (s_known s)) as [p|] eqn:F; [|injection E as <- <-; same; [exact E0|mildt]].
    destruct (known_live _ _ _ W F) as (_ & _ & OK & _). destruct (ok_conn _ _ OK) as (u & EU & _). rewrite EU in E.
    injection E as <- <-. same; [exact E0|destruct (g_write g u); mildt].
  - pose proof (multi_mild g l m _ W0) as M. destruct (multi g l m (w_q q s)) as [o1 r]. cbn [fst] in M. injection E as <- <-.
    same; [exact E0|]. apply mild_app; [exact M|]. destruct r as [[|]|]; mildt.
  - exact (step_ping _ _ _ _ _ _ _ _ W HH Q E).
  - exact (step_pong _ _ _ _ _ _ _ _ W HH Q E).
Qed.

Theorem step_leaf e s s' o : WF s -> step hash e s = Some (s', o) -> s_halt s = false /\ stepped e s s' o.
Proof.
  intros W E. destruct (s_halt s) eqn:HH; [unfold step in E; rewrite HH in E; discriminate|]. split; [reflexivity|].
  destruct e as [t|g| |a k|a k|c g|c|c|p g|p].
  - unfold step in E; rewrite HH in E. destruct (postable s t) eqn:P; [|discriminate]. injection E as <- <-. eexists. split; [apply L_post; exact P|apply eqv_refl].
  - unfold step in E; rewrite HH in E. destruct (s_q s) as [|t q] eqn:Q; [discriminate|]. destruct (task hash g t (w_q q s)) as [s1 o1] eqn:T. injection E as <- <-.
    exact (step_task _ _ _ _ _ _ W HH Q T).
  - unfold step in E; rewrite HH in E. destruct (s_uq s) as [|[p c b|p c a n inb|a c] q] eqn:Q; [discriminate| | |]; injection E as <- <-.
    + eexists. split; [eapply L_ucb; exact Q|apply eqv_refl].
    + eexists. split; [eapply L_upre; exact Q|apply eqv_refl].
    + eexists. split; [eapply L_uunk; exact Q|apply eqv_refl].
  - unfold step in E; rewrite HH in E. injection E as <- <-. eexists. split; [apply L_accept|]. constructor; sel; auto.
  - unfold step in E; rewrite HH in E. injection E as <- <-. eexists. split; [apply L_dialm|]. constructor; sel; auto.
  - exact (step_setup _ _ _ _ _ HH E).
  - unfold step in E; rewrite HH in E. destruct ((c <? s_nc s) && negb (k_term (s_conn s c))) eqn:G; [|discriminate]. injection E as <- <-.
    rewrite andb_true_iff, negb_true_iff, Nat.ltb_lt in G. eexists. split; [apply L_term; apply G|apply eqv_refl].
  - exact (step_tear _ _ _ _ W HH E).
  - unfold step in E; rewrite HH in E. destruct (p_live (s_peer s p) && p_timer (s_peer s p) && p_ton (s_peer s p)) eqn:G; [|discriminate].
    rewrite !andb_true_iff in G. destruct G as ((G1 & G2) & G3). unfold start_active_conn in E. destruct (g_ok g) eqn:GO.
    + unfold check in E. rewrite (seq_go (onp p (p_settimer true false) s, _) _ _ _ eq_refl) in E by exact HH.
      replace (p_addr (s_peer (onp p (p_settimer true false) s) p)) with (p_addr (s_peer s p)) in E by (sel; rewrite upd_same; reflexivity).
      unfold say in E. unfold seq in E. cbn [s_halt onp w_peer s_peer s_nc s_conn] in E. rewrite HH in E. cbn [s_halt onp w_peer s_peer s_nc s_conn] in E.
      rewrite !upd_same in E. cbn [p_id p_settimer p_out] in E. injection E as <- <-.
      eexists. split; [|]. 2:{ instantiate (1 := onp p (fun x => x_arm (x_out (s_nc s) x)) (st_new (mkConn Active (p_addr (s_peer s p)) (g_cert g) false (Some p) false false false) s)). eqvt. }
      match goal with |- leaf _ _ _ ?oo => replace oo with ((if (p_addr (s_peer s p) =? 0)%N then [OAssert] else []) ++ ODial (p_id (s_peer s p)) (s_nc s) (p_addr (s_peer s p)) ::
        (match p_out (s_peer s p) with Some o => [OKill o] | None => [] end ++ (if match find_by (p_addr (s_peer s p)) (s_pend s) with None => true | Some _ => false end then [] else [OAssert]))) end.
      * apply L_retry; auto. apply mild_app; [destruct (p_out (s_peer s p)); mildt|apply mild_check].
      * rewrite app_nil_r. destruct (p_addr (s_peer s p) =? 0)%N; cbn [negb app]; reflexivity.
    + injection E as <- <-. eexists. split; [apply L_retry_fatal; auto|apply eqv_refl].
  - unfold step in E; rewrite HH in E. destruct (p_live (s_peer s p) && p_ping (s_peer s p)) eqn:G; [|discriminate]. rewrite andb_true_iff in G. destruct G as (G1 & G2).
    destruct (w_live s W p G1) as (_ & _ & OK). pose proof (ok_ping _ _ OK G2) as PT. destruct (ok_fl _ _ OK PT) as (PM & CH).
    destruct (p_pmok (s_peer s p)) as [[|]|] eqn:EM; [| |congruence].
    + unfold send_ping, reset_ping_timer in E.
      replace (p_chosen (s_peer _ p)) with (p_chosen (s_peer s p)) in E by (sel; rewrite !upd_same; reflexivity).
      destruct (p_chosen (s_peer s p)) as [d|] eqn:CD; [|congruence]. injection E as <- <-. eexists. split; [eapply L_pt_ping; eauto|]. eqvt.
    + injection E as <- <-. eexists. split; [eapply L_pt_flag; eauto|apply eqv_refl].
Qed.

(** ** Well-formedness is kept *)

Lemma wf_eqv s s' : eqv s s' -> WF s -> WF s'.
Proof.
  intros [Q1 Q2 Q3 Q4 Q5 Q6 Q7 Q8 Q9] [K1 K2 K3 K4 K5 K6]. constructor.
  - rewrite <- Q5. exact K1.
  - intros i p. rewrite <- Q5, <- Q3. apply K2.
  - intros p. rewrite <- Q5, <- Q3, <- Q4, <- Q2. apply K3.
  - intros c p. rewrite <- Q1, <- Q2, <- Q4. apply K4.
  - intros t. rewrite <- Q7, <- Q2. apply K5.
  - intros t. rewrite <- Q8, <- Q2. apply K6.
Qed.

Lemma wf_fin p c u s s' : WF s -> p_live (s_peer s p) = true -> c < s_nc s -> p_chosen (s_peer s p) = Some c -> finished p c u s s' -> WF s'.
Proof.
  intros W L C CH [F1 F2 F3 F4 F5 F6 F7 F8 F9]. pose proof W as [K1 K2 K3 K4 K5 K6]. constructor.
  - rewrite F5. exact K1.
  - intros i q I. rewrite F5 in I. rewrite F2. destruct (K2 _ _ I) as (A & B). destruct (Nat.eqb_spec q p); [subst|]; cbn; auto.
  - intros q. rewrite F2, F3, F4, F5. destruct (Nat.eqb_spec q p) as [E|]; [subst q|apply K3].
    intros _. destruct (K3 _ L) as (? & ? & O). cbn. split; [assumption|]. split; [assumption|]. destruct O as [O1 O2 O3 O4 O5 O6 O7 O8].
    constructor; cbn; auto; try discriminate; try congruence.
    + eauto.
    + intros T. destruct (O5 T) as (? & ? & ?). auto.
    + intros _. split; congruence.
  - intros d q. rewrite F1, F3, F4. cbn. destruct (Nat.eqb_spec d c).
    + intros E. injection E as <-. subst. split; [exact (proj1 (K3 _ L))|assumption].
    + destruct ((d =? u) || oeq (p_out (s_peer s p)) (Some d)); [discriminate|]. apply K4.
  - intros t. rewrite F6, F3. apply K5.
  - intros t. rewrite F9, F3. intros I. apply in_app_or in I. destruct I as [I|[<-|[]]]; [exact (K6 _ I)|exact Logic.I].
Qed.


Lemma wf_leaf e s s' o : WF s -> leaf e s s' o -> WF s'.
Proof.
  intros W H. destruct H.
  - apply wf_q; [exact W|]. intros u I. apply in_app_or in I. destruct I as [I|[<-|[]]]; [exact (w_task s W _ I)|].
    destruct t as [ | | | | | | | | |[c|]|]; cbn in *; auto; apply andb_true_iff in H; destruct H as (H & _); apply Nat.ltb_lt in H; exact H.
  - apply wf_new; [exact W|]. discriminate.
  - apply wf_new; [exact W|]. discriminate.
  - apply wf_flags. exact W.
  - apply wf_uq; [exact W|]. intros t I. apply (w_ut s W). rewrite H. right. exact I.
  - apply wf_q.
    + apply wf_uq; [exact W|]. intros t I. apply (w_ut s W). rewrite H. right. exact I.
    + intros t I. apply in_app_or in I. destruct I as [I|[<-|[]]]; [exact (w_task s W _ I)|].
      pose proof (w_ut s W (UPre p c a n inb)) as K. rewrite H in K. exact (K (or_introl eq_refl)).
  - apply wf_uq; [exact W|]. intros t I. apply (w_ut s W). rewrite H. right. exact I.
  - apply wf_flags. exact W.
  - destruct (known_live _ _ _ W H3) as (L & _). refine (proj1 (get_nonce_wf _ _ _ _ _ _ _ H4)); [apply wf_flags; exact W|exact L].
  - apply wf_pend, wf_flags. exact W.
  - apply wf_halt, wf_pend, wf_flags. exact W.
  - apply wf_pend, wf_flags. exact W.
  - destruct (w_live s W p H4) as (_ & _ & OK).
    apply wf_upost.
    + apply wf_onp; [apply wf_pend, wf_flags; exact W| |exact H4]. intros _. sel.
      split; [|split]. 1,2: unfold x_unpre, x_end; destruct (p_state (s_peer s p)); cbn; auto.
      destruct OK as [O1 O2 O3 O4 O5 O6 O7 O8]. unfold x_unpre, x_end. destruct (p_state (s_peer s p)) eqn:ST; constructor; cbn; auto; try discriminate; try congruence; try (intros Z; rewrite ST in Z; congruence).
    + cbn. destruct (p_in (s_peer s p)) as [d|] eqn:PI; [|exact Logic.I]. exact (ok_in _ _ OK _ PI).
  - destruct (w_live s W p H4) as (_ & _ & OK).
    apply wf_upost; [|exact Logic.I].
    apply wf_onp; [apply wf_pend, wf_flags; exact W| |exact H4]. intros _. sel.
    split; [|split]. 1,2: unfold x_lost, x_end; destruct (p_state (s_peer s p)), (x_cur _ =? 0)%Z; cbn; auto.
    assert (O : okp (s_nc s) (x_end (s_peer s p))). { destruct OK as [O1 O2 O3 O4 O5 O6 O7 O8]. unfold x_end. destruct (p_state (s_peer s p)) eqn:ST; constructor; cbn; auto; try discriminate; try congruence. }
    destruct O as [O1 O2 O3 O4 O5 O6 O7 O8]. unfold x_lost. destruct (x_cur (x_end (s_peer s p)) =? 0)%Z eqn:C; constructor; cbn; auto; try discriminate; try congruence.
    intros T. destruct (O5 T) as (? & ? & ?). apply Z.eqb_eq in C. auto.
  - apply wf_halt. apply wf_onp; auto. intros _. destruct (w_live s W p H) as (_ & _ & OK). split; [exact H|]. split; [reflexivity|]. okpt OK.
  - destruct (w_live s W p H) as (PN & _ & OK).
    apply wf_onp; [apply wf_new; [exact W|]| |exact H].
    + cbn. intros q E. injection E as <-. exact PN.
    + intros _. split; [exact H|]. split; [reflexivity|]. sel. apply (okp_le _ (S (s_nc s))) in OK; [|lia]. okpt OK. intros c E. injection E as <-. lia.
  - destruct (w_live s W p H) as (PN & _ & OK). apply wf_onp; auto. intros _. split; [exact H|]. split; [reflexivity|]. pose proof (ok_fl _ _ OK (ok_ping _ _ OK H0)) as (? & ?). okpt OK.
  - destruct (w_live s W p H) as (PN & _ & OK). apply wf_onp; auto. intros _. split; [exact H|]. split; [reflexivity|]. okpt OK. intros _. split; congruence.
  - exact (wf_wq _ _ _ W H).
  - (* add *)
    pose proof (wf_wq _ _ _ W H) as W0. pose proof W0 as [K1 K2 K3 K4 K5 K6]. unfold st_add. constructor; sel.
    + cbn. constructor; [|exact K1]. intros I. apply in_map_iff in I. destruct I as ([a b] & E & I). cbn in E. subst a. exact (find_by_None _ _ H0 _ I).
    + intros j p [E|I].
      * injection E as <- <-. rewrite upd_same. cbn. auto.
      * destruct (K2 _ _ I) as (A & B). destruct (K3 _ A) as (C & _). cbn in C. rewrite upd_other by lia. auto.
    + intros p. unfold upd. destruct (Nat.eqb_spec p (s_np s)).
      * subst. intros _. cbn. split; [lia|]. split; [auto|]. constructor; cbn; auto; try discriminate; try congruence. exists (s_nc s). split; [reflexivity|lia].
      * intros L. destruct (K3 _ L) as (A & B & C). cbn in A. split; [lia|]. split; [right; exact B|]. eapply okp_le; [|exact C]. cbn. lia.
    + intros c p. unfold upd. destruct (Nat.eqb_spec c (s_nc s)).
      * subst. cbn. intros E. injection E as <-. lia.
      * intros E. destruct (K4 _ _ E) as (A & B). cbn in A, B. lia.
    + intros t I. eapply okt_le; [|exact (K5 _ I)]. cbn. lia.
    + intros t I. eapply oku_le; [|exact (K6 _ I)]. cbn. lia.
  - (* del *)
    pose proof (wf_wq _ _ _ W H) as W0. pose proof (known_live _ _ _ W H0) as (L & ID & OK & PN).
    assert (W1 : WF (clear_peer_of (p_out (s_peer s p)) (clear_peer_of (p_in (s_peer s p)) (onc c (k_setpeer None) (w_q q s))))).
    { assert (A : WF (onc c (k_setpeer None) (w_q q s))).
      { apply wf_setpeer; [exact W0| |discriminate]. destruct (ok_conn _ _ OK) as (d & E & D). rewrite H1 in E. injection E as <-. exact D. }
      assert (B : WF (clear_peer_of (p_in (s_peer s p)) (onc c (k_setpeer None) (w_q q s)))).
      { destruct (p_in (s_peer s p)) as [d|] eqn:PI; [|exact A]. apply wf_setpeer; [exact A| |discriminate]. exact (ok_in _ _ OK _ PI). }
      destruct (p_out (s_peer s p)) as [d|] eqn:PO; [|exact B]. apply wf_setpeer; [exact B| |discriminate]. pose proof (ok_out _ _ OK _ PO). destruct (p_in (s_peer s p)); assumption. }
    unfold st_del. change (s_peer (w_q q s)) with (s_peer s). change (s_known (w_q q s)) with (s_known s).
    set (s1 := clear_peer_of _ _) in *.
    assert (EK : s_known s1 = s_known s) by (unfold s1; destruct (p_out (s_peer s p)), (p_in (s_peer s p)); reflexivity).
    assert (EP : s_peer s1 = s_peer s) by (unfold s1; destruct (p_out (s_peer s p)), (p_in (s_peer s p)); reflexivity).
    destruct W1 as [K1 K2 K3 K4 K5 K6]. rewrite EP, EK in *. constructor; sel; rewrite ?EP; auto.
    + apply drop_by_NoDup. exact K1.
    + intros j r I. apply drop_by_In in I. destruct I as (I & N). destruct (K2 _ _ I) as (A & B).
      rewrite upd_other; [auto|]. intros ->. congruence.
    + intros r. unfold upd. destruct (Nat.eqb_spec r p); [cbn; discriminate|]. intros LR. destruct (K3 _ LR) as (A & B & C). split; [exact A|]. split; [|exact C].
      apply drop_by_In. split; [exact B|]. intros E. rewrite E in B. rewrite (In_find_by _ _ _ K1 B) in H0. injection H0 as ->. congruence.
  - destruct (known_live _ _ _ W H0) as (L & _ & OK & _). apply wf_onp; [exact (wf_wq _ _ _ W H)| |exact L]. intros _. split; [exact L|]. split; [reflexivity|]. okpt OK.
  - destruct (known_live _ _ _ W H0) as (L & _ & OK & _). apply wf_onp; [exact (wf_wq _ _ _ W H)| |exact L]. intros _.
    split; [destruct (n =? 0)%Z; exact L|]. split; [destruct (n =? 0)%Z; reflexivity|]. destruct (n =? 0)%Z; okpt OK.
  - destruct (known_live _ _ _ W H0) as (L & _ & OK & _). apply wf_onp; [exact (wf_wq _ _ _ W H)| |exact L]. intros _. split; [exact L|]. split; [reflexivity|].
    pose proof (ok_state _ _ OK) as S0. rewrite H2 in S0. okpt OK. intros _. apply S0. discriminate.
  - destruct (known_live _ _ _ W H0) as (L & _ & OK & _). apply wf_onp; [exact (wf_wq _ _ _ W H)| |exact L]. intros _. split; [exact L|]. split; [reflexivity|]. okpt OK.
  - apply wf_halt. exact (wf_wq _ _ _ W H).
  - apply wf_halt. exact (wf_wq _ _ _ W H).
  - apply wf_upost; [exact (wf_wq _ _ _ W H)|exact Logic.I].
  - destruct (known_live _ _ _ W H4) as (L & _ & OK & _). apply wf_onp; [exact (wf_wq _ _ _ W H)| |exact L]. intros _. split; [exact L|]. split; [reflexivity|]. okpt OK.
  - apply wf_halt. exact (wf_wq _ _ _ W H).
  - destruct (known_live _ _ _ W H4) as (L & _ & OK & _). destruct (get_nonce_wf _ _ _ _ _ (wf_wq _ _ _ W H) L H7) as (W1 & NC & P1 & _). cbn in NC, P1.
    apply wf_onp; [exact W1| |rewrite P1; exact L]. intros _. rewrite P1. split; [exact L|]. split; [reflexivity|]. rewrite NC. okpt OK.
  - destruct (known_live _ _ _ W H4) as (L & _ & OK & _). destruct (get_nonce_wf _ _ _ _ _ (wf_wq _ _ _ W H) L H7) as (W1 & NC & P1 & _). cbn in NC, P1.
    eapply wf_fin; [| | | |exact H11].
    + apply wf_onp; [apply wf_onp; [exact W1| |rewrite P1; exact L]| |sel; rewrite upd_same, P1; exact L].
      * intros _. rewrite P1. split; [exact L|]. split; [reflexivity|]. rewrite NC. okpt OK.
      * sel. rewrite upd_same, P1. intros _. split; [exact L|]. split; [reflexivity|]. rewrite NC. pose proof (ok_fl _ _ OK) as PF. okpt OK. intros PT. split; [exact (proj1 (PF PT))|discriminate].
    + sel. rewrite !upd_same, P1. exact L.
    + sel. rewrite NC. assumption.
    + sel. rewrite !upd_same. reflexivity.
  - apply wf_halt. exact (wf_wq _ _ _ W H).
  - destruct (w_live s W p H2) as (_ & _ & OK). apply wf_halt, wf_onp; [exact (wf_wq _ _ _ W H)| |exact H2]. intros _. split; [exact H2|]. split; [reflexivity|]. okpt OK.
  - destruct (w_live s W p H2) as (_ & _ & OK). apply wf_onp; [exact (wf_wq _ _ _ W H)| |exact H2]. intros _. split; [exact H2|]. split; [reflexivity|]. pose proof (ok_fl _ _ OK) as PF. okpt OK. intros PT. split; [discriminate|]. apply PF. exact PT.
  - destruct (w_live s W p H2) as (_ & _ & OK). apply wf_onp; [exact (wf_wq _ _ _ W H)| |exact H2]. intros _. split; [exact H2|]. split; [reflexivity|]. okpt OK. intros _. split; congruence.
  - destruct (known_live _ _ _ W H1) as (L & _ & OK & _). apply wf_halt, wf_onp; [exact (wf_wq _ _ _ W H)| |exact L]. intros _. split; [exact L|]. split; [reflexivity|]. okpt OK.
  - destruct (known_live _ _ _ W H4) as (L & _ & OK & _).
    refine (proj1 (get_nonce_wf _ _ _ _ _ _ _ H7)); [|sel; rewrite upd_same; exact L].
    apply wf_onp; [exact (wf_wq _ _ _ W H)| |exact L]. intros _. split; [exact L|]. split; [reflexivity|]. okpt OK.
  - destruct (known_live _ _ _ W H4) as (L & _ & OK & _).
    assert (W1 : WF (onp p (x_out c) (w_q q s))).
    { apply wf_onp; [exact (wf_wq _ _ _ W H)| |exact L]. intros _. split; [exact L|]. split; [reflexivity|]. okpt OK. }
    assert (L1 : p_live (s_peer (onp p (x_out c) (w_q q s)) p) = true) by (sel; rewrite upd_same; exact L).
    destruct (get_nonce_wf _ _ _ _ _ W1 L1 H7) as (W2 & NC & P1 & _). cbn in NC, P1. rewrite upd_same in P1.
    (* the ping timer may be armed before its flags are set: not well-formed, but finish_handshake does not look *)
    pose (s2 := onp p (fun x => p_sethb false (p_ptok x) (p_pmok x) x) (onp p (x_ch c) s1)).
    apply wf_fin with (p := p) (c := c) (u := u) (s := s2).
    + unfold s2. apply wf_onp; [apply wf_onp; [exact W2| |rewrite P1; exact L]| |sel; rewrite upd_same, P1; exact L].
      * rewrite P1. intros _. split; [exact L|]. split; [reflexivity|]. rewrite NC. pose proof (ok_fl _ _ OK) as PF. okpt OK. intros PT. split; [exact (proj1 (PF PT))|discriminate].
      * sel. rewrite upd_same, P1. intros _. split; [exact L|]. split; [reflexivity|]. rewrite NC. pose proof (ok_fl _ _ OK) as PF. okpt OK. intros PT. split; [exact (proj1 (PF PT))|discriminate].
    + unfold s2. sel. rewrite !upd_same, P1. exact L.
    + unfold s2. sel. rewrite NC. assumption.
    + unfold s2. sel. rewrite !upd_same. reflexivity.
    + destruct H11 as [F1 F2 F3 F4 F5 F6 F7 F8 F9]. unfold reset_ping_timer in *. unfold s2.
      constructor; auto.
      * intros d. rewrite F1. sel. rewrite !upd_same. reflexivity.
      * intros r. rewrite F2. sel. rewrite !upd_same. unfold upd. destruct (r =? p); reflexivity.
Qed.

Lemma wf_step e s s' o : WF s -> step hash e s = Some (s', o) -> WF s'.
Proof. intros W E. destruct (step_leaf _ _ _ _ W E) as (_ & s1 & L & Q). exact (wf_eqv _ _ Q (wf_leaf _ _ _ _ W L)). Qed.

Lemma wf_run es s o : run hash es st0 = Some (s, o) -> WF s.
Proof. apply (post_run hash (fun s _ => WF s)); [exact wf0|]. intros e t o1 s' o' W E. exact (wf_step _ _ _ _ W E). Qed.

Lemma run_inv (P : st -> list obs -> Prop) : P st0 [] ->
  (forall e s o s' o', WF s -> s_halt s = false -> P s o -> leaf e s s' o' -> P s' (o ++ o')) ->
  (forall s s' o, eqv s s' -> P s o -> P s' o) ->
  forall es s o, run hash es st0 = Some (s, o) -> P s o.
Proof.
  intros H0 HS HE es s o E.
  refine (proj2 (post_run hash (fun s o => WF s /\ P s o) _ _ es s o E)); [split; [exact wf0|exact H0]|].
  intros e t o1 s' o' (W & H) E1. split; [exact (wf_step _ _ _ _ W E1)|].
  destruct (step_leaf _ _ _ _ W E1) as (HH & s1 & L & Q). exact (HE _ _ _ Q (HS _ _ _ _ _ W HH H L)).
Qed.

(** The same for runs all of whose steps satisfy Q. *)
Fixpoint along (Q : ev -> st -> Prop) (es : list ev) (s : st) : Prop :=
  match es with
  | [] => True
  | e :: es => Q e s /\ match step hash e s with Some (s1, _) => along Q es s1 | None => True end
  end.

Lemma along_inv (Q : ev -> st -> Prop) (P : st -> list obs -> Prop) : P st0 [] ->
  (forall e s o s' o', WF s -> s_halt s = false -> P s o -> Q e s -> leaf e s s' o' -> P s' (o ++ o')) ->
  (forall s s' o, eqv s s' -> P s o -> P s' o) ->
  forall es s o, run hash es st0 = Some (s, o) -> along Q es st0 -> P s o.
Proof.
  intros H0 HS HE es.
  assert (G : forall s0 o0, WF s0 -> P s0 o0 -> forall s o, run hash es s0 = Some (s, o) -> along Q es s0 -> P s (o0 ++ o)).
  { induction es as [|e es IH]; intros s0 o0 W0 P0 s o E A; cbn [run] in E.
    - injection E as <- <-. rewrite app_nil_r. exact P0.
    - destruct (step hash e s0) as [[s1 o1]|] eqn:E1; [|discriminate E]. destruct (run hash es s1) as [[s2 o2]|] eqn:E2; [|discriminate E]. injection E as <- <-.
      cbn [along] in A. rewrite E1 in A. destruct A as (A1 & A2). rewrite app_assoc. apply (IH s1); auto.
      + exact (wf_step _ _ _ _ W0 E1).
      + destruct (step_leaf _ _ _ _ W0 E1) as (HH & s1' & L & Q1). exact (HE _ _ _ Q1 (HS _ _ _ _ _ W0 HH P0 A1 L)). }
  intros s o E A. exact (G st0 [] wf0 H0 s o E A).
Qed.

Lemma along_app Q es1 es2 s s1 o1 : run hash es1 s = Some (s1, o1) -> along Q (es1 ++ es2) s <-> along Q es1 s /\ along Q es2 s1.
Proof.
  revert s s1 o1. induction es1 as [|e es IH]; intros s s1 o1 E; cbn [run] in E.
  - injection E as <- <-. cbn. tauto.
  - destruct (step hash e s) as [[s2 o2]|] eqn:E1; [|discriminate E]. destruct (run hash es s2) as [[s3 o3]|] eqn:E2; [|discriminate E]. injection E as <- <-.
    cbn [along app]. rewrite E1. rewrite (IH _ _ _ E2). tauto.
Qed.

End L.

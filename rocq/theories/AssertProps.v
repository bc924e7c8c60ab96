(** The assertions of network.h about peers and their connections (C133). *)
From Coq Require Import Arith NArith ZArith List Bool Lia.
From Verif Require Import PeerModel PeerPair PeerInv PeerStep PeerRegProps PeerRetryProps PeerCalmProps.
Import ListNotations.

(** ** Steady histories *)

Section A.
Variable hash : addr -> pid.
(** The addresses at which nodes listen. *)
Variable port : addr -> Prop.
Hypothesis port_null : ~ port 0%N.

(** The library dialled peer i and that connection is not over. *)
Definition open_dial (s : st) (i : pid) : Prop :=
  exists c, c < s_nc s /\ k_mode (s_conn s c) = Active /\ k_manual (s_conn s c) = false /\ k_torn (s_conn s c) = false /\ ident hash (s_conn s c) (k_addr (s_conn s c)) = i.

(** One step of a steady history.  It is calm (PeerCalmProps.v), and
    - peers are given addresses at which nodes listen, and nodes do not dial from those;
    - who is dialled shows the identity the peer is registered under;
    - a peer's address is not set, and no peer is added under its identity, before the connections dialled to it are over;
    - a reply to a handshake comes only on the connection made by the last attempt, unless there is none
      under way. *)
Definition steady (e : ev) (s : st) : Prop :=
  calm hash e s /\
  match e with
  | EAccept a _ => ~ port a
  | ERetry p g => match g_cert g with Some i => i | None => hash (p_addr (s_peer s p)) end = p_id (s_peer s p)
  | EDisp _ =>
    match s_q s with
    | TAdd _ i :: _ => ~ open_dial s i
    | TSetAddr _ i a :: _ => port a /\ ~ open_dial s i
    | TPong c a _ :: _ => a <> 0%N -> forall p, find_by (ident hash (s_conn s c) (k_addr (s_conn s c))) (s_known s) = Some p -> p_out (s_peer s p) = Some c \/ p_out (s_peer s p) = None
    | _ => True
    end
  | _ => True
  end.

Record K (s : st) : Prop := mkK {
  a_addr : forall p, p_live (s_peer s p) = true -> p_addr (s_peer s p) <> 0%N -> port (p_addr (s_peer s p));
  a_tim : forall p, p_live (s_peer s p) = true -> p_timer (s_peer s p) = true -> p_addr (s_peer s p) <> 0%N;
  a_pend : forall a c, In (a, c) (s_pend s) -> ~ port a;
  a_conn : forall c, k_mode (s_conn s c) = Passive -> ~ port (k_addr (s_conn s c));
  a_dial : forall c p, c < s_nc s -> k_mode (s_conn s c) = Active -> k_manual (s_conn s c) = false -> k_torn (s_conn s c) = false ->
    find_by (ident hash (s_conn s c) (k_addr (s_conn s c))) (s_known s) = Some p -> p_addr (s_peer s p) = k_addr (s_conn s c) /\ k_addr (s_conn s c) <> 0%N;
  a_out : forall p c, p_live (s_peer s p) = true -> p_out (s_peer s p) = Some c -> k_mode (s_conn s c) = Active;
  a_in : forall p c, p_live (s_peer s p) = true -> p_state (s_peer s p) = Disconnected -> p_in (s_peer s p) = Some c -> k_peer (s_conn s c) = None }.

(** ** What a step asserts *)

Lemma find_pend a l c : find_by a l = Some c -> In (a, c) l.
Proof. apply find_by_In. Qed.

Lemma multi_noassert g l m s : ~ In OAssert (fst (multi g l m s)).
Proof.
  induction l as [|i l IH]; [intros []|]. cbn [multi]. destruct (find_by i (s_known s)) as [p|]; [|intros []]. destruct (p_conn (s_peer s p)) as [c|]; [|intros [H|[]]; discriminate H].
  destruct (multi g l m s) as [o r]. cbn [fst] in *. intros I. apply in_app_or in I. destruct I as [I|I]; [|exact (IH I)]. destruct (g_write g c); [destruct I as [I|[]]; discriminate I|destruct I].
Qed.

Ltac noa H := cbn [In app] in H; repeat (destruct H as [H|H]; [discriminate H|]); try destruct H.

Lemma setup_noassert g c s s' o : setup hash g c s = (s', o) -> ~ In OAssert o.
Proof.
  unfold setup, replace_pending_conn. intros E I. destruct (k_mode (s_conn s c)).
  - destruct (find_by _ (s_known s)) as [p|].
    + destruct (get_nonce g p s) as [[s1 n]|]; injection E as <- <-; noa I.
    + destruct (k_manual (s_conn s c)); injection E as <- <-; noa I.
  - destruct (find_by _ (s_pend s)) as [d|]; [destruct (d =? c)|]; injection E as <- <-; noa I.
Qed.

Lemma ping_assert g c a n q s s' o : WF s -> s_halt s = false -> s_q s = TPing (Some c) a n :: q -> ping_task hash g (Some c) a n (w_q q s) = (s', o) -> In OAssert o ->
  a <> 0%N /\ k_term (s_conn s c) = false /\ exists p u, find_by (ident hash (s_conn s c) a) (s_known s) = Some p /\ p_state (s_peer s p) = Disconnected /\ p_conn (s_peer s p) = Some u /\
    (k_term (s_conn s u) = false \/ exists d, p_in (s_peer s p) = Some d /\ k_peer (s_conn s d) <> None).
Proof.
  intros W HH Q E I. pose proof (wf_wq _ _ _ W Q) as W0.
  unfold ping_task in E. change (s_conn (w_q q s)) with (s_conn s) in E. change (s_known (w_q q s)) with (s_known s) in E. change (s_peer (w_q q s)) with (s_peer s) in E.
  destruct (k_term (s_conn s c)) eqn:KT; [injection E as <- <-; noa I|].
  destruct (a =? 0)%N eqn:A0; [injection E as <- <-; noa I|].
  destruct (k_mode (s_conn s c)) eqn:KM; [injection E as <- <-; noa I|].
  destruct (find_by _ (s_known s)) as [p|] eqn:F; [|injection E as <- <-; noa I].
  destruct (known_live _ _ _ W F) as (L & ID & OK & _). destruct (ok_conn _ _ OK) as (u & EU & _).
  destruct (n =? 0)%N eqn:N0; [injection E as <- <-; noa I|]. apply N.eqb_neq in A0, N0.
  split; [exact A0|]. split; [reflexivity|]. exists p, u.
  destruct (p_state (s_peer s p)) eqn:ST; [| |injection E as <- <-; noa I].
  2:{ replace (p_conn (s_peer _ p)) with (p_conn (s_peer s p)) in E by (sel; rewrite upd_same; reflexivity). rewrite EU in E. injection E as <- <-. noa I. }
  split; [reflexivity|]. split; [reflexivity|]. split; [exact EU|].
  destruct (get_nonce g p (w_q q s)) as [[s1 mine]|] eqn:GN; [|injection E as <- <-; noa I].
  destruct (get_nonce_wf _ _ _ _ _ W0 L GN) as (W1 & NC & P1 & H1 & C1 & KN1 & NP1). cbn in NC, P1, H1, C1, KN1, NP1.
  rewrite (seq_go (say [OPong c (Some mine)] s1) _ s1 _ eq_refl) in E by (rewrite H1; exact HH).
  match type of E with (let '(_, _) := seq ?A ?F in _) = _ => assert (EA : exists o1, A = (s1, o1) /\ (In OAssert o1 -> exists d, p_in (s_peer s p) = Some d /\ k_peer (s_conn s d) <> None)) end.
  { rewrite P1. cbn [p_in p_setnonce]. destruct (p_in (s_peer s p)) as [d|]; [|eexists; split; [reflexivity|intros []]].
    destruct (d =? c); [eexists; split; [reflexivity|intros []]|].
    unfold check. rewrite (seq_go _ _ s1 _ eq_refl) by (rewrite H1; exact HH). eexists. split; [reflexivity|]. rewrite C1. intros J. exists d. split; [reflexivity|].
    destruct (k_peer (s_conn s d)); [discriminate|]. cbn [oeq app] in J. noa J. }
  destruct EA as (o1 & EA & M1). rewrite (seq_go _ _ _ _ EA) in E by (rewrite H1; exact HH). clear EA.
  change (fun x => p_setlinks (p_chosen x) (Some c) (p_out x) x) with (x_in c) in E.
  destruct ((n <? mine)%N || _) eqn:D.
  - set (s2 := onp p (fun x => p_setlinks (Some c) (p_in x) (p_out x) x) (onp p (x_in c) s1)) in *.
    assert (X2 : s_peer s2 p = x_ch c (x_in c (p_setnonce mine (s_peer s p)))) by (unfold s2; sel; rewrite !upd_same, P1; reflexivity).
    pose proof (finish_spec p c u s2) as FS. rewrite X2 in FS. cbn [p_chosen p_conn p_state x_ch x_in p_setlinks p_setnonce] in FS.
    specialize (FS eq_refl EU). change (s_halt s2) with (s_halt s1) in FS. rewrite H1 in FS. specialize (FS HH).
    unfold post in FS. destruct (finish_handshake p s2) as [s3 o3]. cbn [fst snd] in FS. destruct FS as (FS & FO).
    cbv beta iota zeta in E. injection E as <- <-. change (s_conn s2) with (s_conn s1) in FO. rewrite C1, ST in FO. cbn [app] in FO. subst o3.
    destruct I as [I|I]; [discriminate I|]. apply in_app_or in I. destruct I as [I|I]; [right; exact (M1 I)|]. destruct I as [I|I]; [discriminate I|]. left.
    destruct (k_term (s_conn s u)); [noa I|reflexivity].
  - unfold say in E; cbv beta iota zeta in E. injection E as <- <-. destruct I as [I|I]; [discriminate I|]. apply in_app_or in I. destruct I as [I|I]; [right; exact (M1 I)|noa I].
Qed.

Lemma pong_assert g c a n q s s' o : WF s -> s_halt s = false -> s_q s = TPong c a n :: q -> pong_task hash g c a n (w_q q s) = (s', o) -> In OAssert o ->
  a <> 0%N /\ k_term (s_conn s c) = false /\ k_mode (s_conn s c) = Active /\ exists p u, find_by (ident hash (s_conn s c) (k_addr (s_conn s c))) (s_known s) = Some p /\ p_conn (s_peer s p) = Some u /\
    (p_addr (s_peer s p) = 0%N \/ p_addr (s_peer s p) <> k_addr (s_conn s c) \/ p_state (s_peer s p) = Disconnected /\
     (k_term (s_conn s u) = false \/ exists d, p_out (s_peer s p) = Some d /\ d <> c /\ k_peer (s_conn s d) <> None)).
Proof.
  intros W HH Q E I. pose proof (wf_wq _ _ _ W Q) as W0.
  assert (CN : c < s_nc s). { pose proof (w_task s W (TPong c a n)) as H. rewrite Q in H. exact (H (or_introl eq_refl)). }
  unfold pong_task in E. change (s_conn (w_q q s)) with (s_conn s) in E. change (s_known (w_q q s)) with (s_known s) in E. change (s_peer (w_q q s)) with (s_peer s) in E.
  destruct (k_term (s_conn s c)) eqn:KT; [injection E as <- <-; noa I|].
  destruct (a =? 0)%N eqn:A0.
  { exfalso. destruct (k_peer (s_conn s c)) as [p|] eqn:KP; [|injection E as <- <-; noa I].
    destruct (p_live (s_peer s p)) eqn:L; cbn [negb] in E; [|injection E as <- <-; noa I].
    destruct (p_ptok _) as [[|]|]; [|injection E as <- <-; noa I..].
    unfold send_ping, reset_ping_timer in E. destruct (p_chosen _); injection E as <- <-; noa I. }
  apply N.eqb_neq in A0. split; [exact A0|]. split; [reflexivity|].
  destruct (k_mode (s_conn s c)) eqn:KM; [|injection E as <- <-; noa I]. split; [reflexivity|].
  destruct (find_by _ (s_known s)) as [p|] eqn:F; [|injection E as <- <-; noa I].
  destruct (known_live _ _ _ W F) as (L & ID & OK & _). destruct (ok_conn _ _ OK) as (u & EU & _). exists p, u. split; [reflexivity|]. split; [exact EU|].
  unfold check in E at 1. rewrite (seq_go _ _ (w_q q s) _ eq_refl) in E by exact HH. change (s_peer (w_q q s)) with (s_peer s) in E.
  set (o1 := if negb (p_addr (s_peer s p) =? 0)%N && (p_addr (s_peer s p) =? k_addr (s_conn s c))%N then [] else [OAssert]) in *.
  assert (M1 : In OAssert o1 -> p_addr (s_peer s p) = 0%N \/ p_addr (s_peer s p) <> k_addr (s_conn s c)).
  { unfold o1. destruct (N.eqb_spec (p_addr (s_peer s p)) 0); [auto|]. destruct (N.eqb_spec (p_addr (s_peer s p)) (k_addr (s_conn s c))); [intros []|auto]. }
  assert (M1' : In OAssert o1 -> p_addr (s_peer s p) = 0%N \/ p_addr (s_peer s p) <> k_addr (s_conn s c) \/ p_state (s_peer s p) = Disconnected /\
     (k_term (s_conn s u) = false \/ exists d, p_out (s_peer s p) = Some d /\ d <> c /\ k_peer (s_conn s d) <> None)) by (intros J; destruct (M1 J); auto).
  destruct (p_state (s_peer s p)) eqn:ST; [|injection E as <- <-; rewrite app_nil_r in *; exact (M1' I)..].
  destruct (p_addr (s_peer s p) =? a)%N eqn:PA; cbn [negb] in E; [|injection E as <- <-; rewrite app_nil_r in *; exact (M1' I)].
  match type of E with (let '(_, _) := seq ?A ?F in _) = _ => assert (EA : exists o2, A = (w_q q s, o2) /\ (In OAssert o2 -> exists d, p_out (s_peer s p) = Some d /\ d <> c /\ k_peer (s_conn s d) <> None)) end.
  { destruct (p_out (s_peer s p)) as [d|]; [|eexists; split; [reflexivity|intros []]].
    destruct (Nat.eqb_spec d c) as [_|NE]; [eexists; split; [reflexivity|intros []]|].
    unfold check. rewrite (seq_go _ _ (w_q q s) _ eq_refl) by exact HH. eexists. split; [reflexivity|]. intros J. exists d. split; [reflexivity|]. split; [exact NE|].
    change (s_conn (w_q q s)) with (s_conn s) in J. destruct (k_peer (s_conn s d)); [discriminate|]. cbn [oeq app] in J. noa J. }
  destruct EA as (o2 & EA & M2). rewrite (seq_go _ _ _ _ EA) in E by exact HH. clear EA.
  change (fun x => p_setlinks (p_chosen x) (p_in x) (Some c) x) with (x_out c) in E.
  assert (M12 : forall o3, In OAssert (o1 ++ o2 ++ o3) -> (In OAssert o3 -> k_term (s_conn s u) = false) -> p_addr (s_peer s p) = 0%N \/ p_addr (s_peer s p) <> k_addr (s_conn s c) \/ Disconnected = Disconnected /\
     (k_term (s_conn s u) = false \/ exists d, p_out (s_peer s p) = Some d /\ d <> c /\ k_peer (s_conn s d) <> None)).
  { intros o3 J1 J2. apply in_app_or in J1. destruct J1 as [J1|J1]; [destruct (M1 J1); auto|]. apply in_app_or in J1. destruct J1 as [J1|J1]; right; right; split; auto. }
  destruct (get_nonce g p (onp p (x_out c) (w_q q s))) as [[s1 mine]|] eqn:GN.
  2:{ unfold say in E; cbv beta iota zeta in E. injection E as <- <-. apply (M12 _ I). intros J. noa J. }
  assert (W1 : WF (onp p (x_out c) (w_q q s))).
  { apply wf_onp; [exact W0| |exact L]. intros _. split; [exact L|]. split; [reflexivity|]. destruct OK. constructor; cbn; auto. intros d E1. injection E1 as <-. exact CN. }
  assert (L1 : p_live (s_peer (onp p (x_out c) (w_q q s)) p) = true) by (sel; rewrite upd_same; exact L).
  destruct (get_nonce_wf _ _ _ _ _ W1 L1 GN) as (W2 & NC & P1 & H1 & C1 & KN1 & NP1). cbn in NC, P1, H1, C1, KN1, NP1. rewrite upd_same in P1.
  destruct (mine <? n)%N eqn:D.
  - set (s2 := reset_ping_timer p (onp p (fun x => p_setlinks (Some c) (p_in x) (p_out x) x) s1)) in *.
    assert (X2 : s_peer s2 p = p_sethb true (p_ptok (s_peer s p)) (p_pmok (s_peer s p)) (x_ch c (p_setnonce mine (x_out c (s_peer s p))))) by (unfold s2, reset_ping_timer; sel; rewrite !upd_same, P1; reflexivity).
    pose proof (finish_spec p c u s2) as FS. rewrite X2 in FS. cbn [p_chosen p_conn p_state p_sethb x_ch x_out p_setlinks p_setnonce] in FS.
    specialize (FS eq_refl EU). change (s_halt s2) with (s_halt s1) in FS. rewrite H1 in FS. specialize (FS HH).
    unfold post in FS. destruct (finish_handshake p s2) as [s3 o3]. cbn [fst snd] in FS. destruct FS as (FS & FO).
    cbv beta iota zeta in E. injection E as <- <-. change (s_conn s2) with (s_conn s1) in FO. rewrite C1, ST in FO. cbn [app] in FO. subst o3.
    apply (M12 _ I). intros J. destruct J as [J|J]; [discriminate J|]. destruct (k_term (s_conn s u)); [noa J|reflexivity].
  - unfold say in E; cbv beta iota zeta in E. injection E as <- <-. apply (M12 _ I). intros J. noa J.
Qed.

Lemma task_noassert g t s s' o : task hash g t s = (s', o) -> match t with TPing (Some _) _ _ | TPong _ _ _ => False | _ => True end -> ~ In OAssert o.
Proof.
  intros E T I. destruct t as [id i|id i|id i a|id i n|i|i|c|id i m|id l m|c a n|c a n]; cbn [task] in E; try contradiction.
  - destruct (find_by i (s_known s)); injection E as <- <-; noa I.
  - destruct (find_by i (s_known s)) as [p|]; [|injection E as <- <-; noa I]. destruct (p_conn (s_peer s p)); [|injection E as <- <-; noa I].
    injection E as <- <-. destruct I as [I|I]; [discriminate I|]. destruct (p_in (s_peer s p)), (p_out (s_peer s p)); noa I.
  - destruct (find_by i (s_known s)); injection E as <- <-; noa I.
  - destruct (find_by i (s_known s)) as [p|]; [|injection E as <- <-; noa I]. destruct (p_addr (s_peer s p) =? 0)%N; [injection E as <- <-; noa I|].
    destruct (p_state _); [injection E as <- <-; noa I| |injection E as <- <-; noa I]. destruct (p_conn _); injection E as <- <-; noa I.
  - injection E as <- <-; noa I.
  - destruct (find_by i (s_known s)); injection E as <- <-; noa I.
  - destruct (k_peer _) as [p|]; [destruct (p_live _)|]; injection E as <- <-; noa I.
  - destruct (find_by i (s_known s)) as [p|]; [|injection E as <- <-; noa I]. destruct (p_conn _) as [c|]; [|injection E as <- <-; noa I]. destruct (g_write g c); injection E as <- <-; noa I.
  - pose proof (multi_noassert g l m s) as M. destruct (multi g l m s) as [o1 r]. injection E as <- <-. apply in_app_or in I. destruct I as [I|I]; [exact (M I)|]. destruct r as [[|]|]; noa I.
  - destruct c as [c|]; [contradiction|]. injection E as <- <-; noa I.
Qed.

(** In a steady history no step asserts what is not so. *)
Lemma steady_noassert e s s' o : WF s -> J (s_conn s) (s_peer s) -> K s -> steady e s -> step hash e s = Some (s', o) -> ~ In OAssert o.
Proof.
  intros W JJ KK (CA & SA) E I. destruct (step_leaf _ _ _ _ _ W E) as (HH & s1 & LF & _).
  assert (DT : forall p u, p_live (s_peer s p) = true -> p_state (s_peer s p) = Disconnected -> p_conn (s_peer s p) = Some u -> k_term (s_conn s u) = true).
  { intros p u L S U. exact (j_term _ _ JJ _ (j_down _ _ JJ _ _ L S U)). }
  destruct e as [t|g| |a k|a k|c g|c|c|p g|p].
  - inversion LF; subst. destruct I.
  - unfold step in E. rewrite HH in E. destruct (s_q s) as [|t q] eqn:Q; [discriminate E|]. destruct (task hash g t (w_q q s)) as [s2 o2] eqn:T. injection E as <- <-. destruct I as [I|I]; [discriminate I|].
    unfold calm in CA. rewrite Q in CA. cbn in SA.
    destruct t; try solve [exact (task_noassert _ _ _ _ _ T Logic.I I)].
    + destruct c as [c|]; [|exact (task_noassert _ _ _ _ _ T Logic.I I)]. cbn [task] in T. destruct (ping_assert _ _ _ _ _ _ _ _ W HH Q T I) as (A & KT & p & u & F & S & U & X).
      destruct (known_live _ _ _ W F) as (L & _). destruct X as [X|(d & D1 & D2)]; [rewrite (DT p u L S U) in X; discriminate X|]. exact (D2 (a_in _ KK _ _ L S D1)).
    + cbn [task] in T. destruct (pong_assert _ _ _ _ _ _ _ _ W HH Q T I) as (A & KT & KM & p & u & F & U & X).
      destruct (known_live _ _ _ W F) as (L & _). destruct (CA A p F) as (CM & _ & _).
      assert (TC : k_torn (s_conn s c) = false) by (destruct (k_torn (s_conn s c)) eqn:TC; [rewrite (j_term _ _ JJ c TC) in KT; discriminate KT|reflexivity]).
      assert (CN : c < s_nc s) by (pose proof (w_task s W (TPong c a n)) as H; rewrite Q in H; exact (H (or_introl eq_refl))).
      destruct (a_dial _ KK _ _ CN KM CM TC F) as (A1 & A2). destruct X as [X|[X|(S & X)]]; [congruence|congruence|].
      destruct X as [X|(d & D1 & D2 & D3)]; [rewrite (DT p u L S U) in X; discriminate X|]. destruct (SA A p F); congruence.
  - inversion LF; subst; destruct I as [I|[]]; discriminate I.
  - inversion LF; subst. destruct I.
  - inversion LF; subst. destruct I.
  - unfold step in E. rewrite HH in E. destruct (_ && _) in E; [|discriminate E]. injection E as E. exact (setup_noassert _ _ _ _ _ E I).
  - inversion LF; subst. destruct I.
  - inversion LF; subst; try (noa I); match goal with H : In OAssert _ <-> _ |- _ => apply H in I end; destruct I as (I1 & I2); apply I2; eapply own_up; eauto.
  - unfold step in E. rewrite HH in E. destruct (p_live (s_peer s p) && p_timer (s_peer s p) && p_ton (s_peer s p)) eqn:G; [|discriminate E].
    rewrite !andb_true_iff in G. destruct G as ((G1 & G2) & G3). unfold start_active_conn in E. destruct (g_ok g) eqn:GO; [|injection E as <- <-; noa I].
    unfold check in E. rewrite (seq_go (onp p (p_settimer true false) s, _) _ _ _ eq_refl) in E by exact HH.
    replace (p_addr (s_peer (onp p (p_settimer true false) s) p)) with (p_addr (s_peer s p)) in E by (sel; rewrite upd_same; reflexivity).
    pose proof (a_tim _ KK p G1 G2) as A0. destruct (N.eqb_spec (p_addr (s_peer s p)) 0) as [A1|_]; [contradiction|].
    unfold say in E. unfold seq in E. cbn [s_halt onp w_peer s_peer s_nc s_conn s_pend] in E. rewrite HH in E. cbn [s_halt onp w_peer s_peer s_nc s_conn s_pend] in E.
    rewrite !upd_same in E. cbn [p_id p_settimer p_out] in E. injection E as <- <-. cbn [negb app] in I. rewrite app_nil_r in I. destruct I as [I|I]; [discriminate I|].
    apply in_app_or in I. destruct I as [I|I]; [destruct (p_out (s_peer s p)); noa I|].
    destruct (find_by (p_addr (s_peer s p)) (s_pend s)) as [d|] eqn:F; [|destruct I]. exact (a_pend _ KK _ _ (find_by_In _ _ _ F) (a_addr _ KK p G1 A0)).
  - inversion LF; subst; noa I.
Qed.

(** ** The invariant is kept *)

(** Changes that leave alone what matters here. *)
Definition pkeep (x y : peer) : Prop := p_live y = p_live x /\ p_addr y = p_addr x /\ (p_timer y = true -> p_timer x = true).
Lemma K_frame s s' : K s -> s_nc s' = s_nc s -> s_known s' = s_known s -> (forall a c, In (a, c) (s_pend s') -> In (a, c) (s_pend s)) ->
  (forall p, p_live (s_peer s' p) = true -> p_live (s_peer s p) = true /\ p_addr (s_peer s' p) = p_addr (s_peer s p) /\ (p_timer (s_peer s' p) = true -> p_addr (s_peer s p) <> 0%N) /\
     (forall c, p_out (s_peer s' p) = Some c -> p_out (s_peer s p) = Some c \/ k_mode (s_conn s c) = Active) /\
     (forall c, p_state (s_peer s' p) = Disconnected -> p_in (s_peer s' p) = Some c -> k_peer (s_conn s' c) = None)) ->
  (forall c, k_mode (s_conn s' c) = k_mode (s_conn s c) /\ k_addr (s_conn s' c) = k_addr (s_conn s c) /\ k_cert (s_conn s' c) = k_cert (s_conn s c) /\ k_manual (s_conn s' c) = k_manual (s_conn s c) /\ (k_torn (s_conn s' c) = false -> k_torn (s_conn s c) = false)) ->
  (forall i p, find_by i (s_known s) = Some p -> p_addr (s_peer s' p) = p_addr (s_peer s p)) ->
  K s'.
Proof.
  intros [A1 A2 A3 A4 A5 A6 A7] NC KN PD PR CN FA. constructor.
  - intros p L. destruct (PR p L) as (L0 & -> & _). apply A1, L0.
  - intros p L T. destruct (PR p L) as (L0 & -> & T0 & _). exact (T0 T).
  - intros a c I. exact (A3 a c (PD a c I)).
  - intros c. destruct (CN c) as (-> & -> & _). apply A4.
  - intros c p. destruct (CN c) as (M & AD & CE & MA & TO). unfold ident. rewrite NC, KN, M, AD, CE, MA. intros B X1 X2 X3 X4. rewrite (FA _ _ X4). exact (A5 c p B X1 X2 (TO X3) X4).
  - intros p c L O. destruct (PR p L) as (L0 & _ & _ & O0 & _). destruct (CN c) as (-> & _). destruct (O0 c O) as [H|H]; [exact (A6 p c L0 H)|exact H].
  - intros p c L S I. destruct (PR p L) as (_ & _ & _ & _ & I0). exact (I0 c S I).
Qed.

Lemma K_new k s : WF s -> K s -> (k_mode k = Passive -> ~ port (k_addr k)) ->
  (k_mode k = Active -> k_manual k = false -> forall p, find_by (ident hash k (k_addr k)) (s_known s) = Some p -> p_addr (s_peer s p) = k_addr k /\ k_addr k <> 0%N) -> K (st_new k s).
Proof.
  intros W [A1 A2 A3 A4 A5 A6 A7] P A. constructor; sel; auto.
  - intros c. unfold upd. destruct (c =? s_nc s); [exact P|apply A4].
  - intros c p. unfold upd. destruct (Nat.eqb_spec c (s_nc s)) as [_|N]; [intros _ X1 X2 _; exact (A X1 X2 p)|]. intros B. apply A5. lia.
  - intros p c L O. rewrite upd_other; [eauto|]. intros ->. exact (proj2 (proj2 (fresh _ W p L)) O).
  - intros p c L S I. rewrite upd_other; [eauto|]. intros ->. exact (proj1 (proj2 (fresh _ W p L)) I).
Qed.

Lemma K_ext s s' : eqv s s' -> K s -> K s'.
Proof.
  intros [Q1 Q2 Q3 Q4 Q5 Q6 Q7 Q8 Q9] [A1 A2 A3 A4 A5 A6 A7]. constructor; intros *; rewrite <- ?Q1, <- ?Q2, <- ?Q3, <- ?Q5, <- ?Q6; eauto.
Qed.

(** One peer changed, connections only in their flags. *)
Lemma K_onp p f s : K s -> (p_live (s_peer s p) = true -> p_live (f (s_peer s p)) = true -> (p_timer (f (s_peer s p)) = true -> p_addr (s_peer s p) <> 0%N) /\
     (forall c, p_out (f (s_peer s p)) = Some c -> p_out (s_peer s p) = Some c \/ k_mode (s_conn s c) = Active) /\
     (forall c, p_state (f (s_peer s p)) = Disconnected -> p_in (f (s_peer s p)) = Some c -> k_peer (s_conn s c) = None)) ->
  p_live (f (s_peer s p)) = p_live (s_peer s p) -> p_addr (f (s_peer s p)) = p_addr (s_peer s p) -> K (onp p f s).
Proof.
  intros KK H LV AD. apply (K_frame s); auto.
  - intros q. sel. unfold upd. destruct (Nat.eqb_spec q p) as [->|_]; intros L.
    + rewrite LV in L. destruct (H L ltac:(congruence)) as (H1 & H2 & H3). auto 10.
    + split; [exact L|]. split; [reflexivity|]. split; [exact (a_tim _ KK q L)|]. split; [auto|]. intros c. exact (a_in _ KK q c L).
  - intros i q _. sel. unfold upd. destruct (Nat.eqb_spec q p) as [->|_]; auto.
Qed.
Lemma K_onp_same p f s : K s -> p_live (f (s_peer s p)) = p_live (s_peer s p) -> p_addr (f (s_peer s p)) = p_addr (s_peer s p) -> p_timer (f (s_peer s p)) = p_timer (s_peer s p) ->
  p_out (f (s_peer s p)) = p_out (s_peer s p) -> p_in (f (s_peer s p)) = p_in (s_peer s p) -> p_state (f (s_peer s p)) = p_state (s_peer s p) -> K (onp p f s).
Proof.
  intros KK LV AD TI OU IN ST. apply K_onp; auto. intros L _. rewrite TI, OU, IN, ST. split; [exact (a_tim _ KK p L)|]. split; [auto|]. intros c. exact (a_in _ KK p c L).
Qed.
Lemma K_flags c t u z s : K s -> (z = false -> k_torn (s_conn s c) = false) -> K (onc c (k_flags t u z) s).
Proof.
  intros KK Z. apply (K_frame s); auto.
  - intros q L. sel. split; [exact L|]. split; [reflexivity|]. split; [exact (a_tim _ KK q L)|]. split; [auto|]. intros d S I. pose proof (a_in _ KK q d L S I) as H. unfold upd. destruct (Nat.eqb_spec d c) as [->|_]; exact H.
  - intros d. sel. unfold upd. destruct (Nat.eqb_spec d c) as [->|_]; cbn; auto 10.
Qed.
Lemma K_wq l s : K s -> K (w_q l s).
Proof. intros [A1 A2 A3 A4 A5 A6 A7]. constructor; auto. Qed.
Lemma K_wuq l s : K s -> K (w_uq l s).
Proof. intros [A1 A2 A3 A4 A5 A6 A7]. constructor; auto. Qed.
Lemma K_pend l s : K s -> (forall a c, In (a, c) l -> ~ port a) -> K (w_pend l s).
Proof. intros [A1 A2 A3 A4 A5 A6 A7] H. constructor; auto. Qed.
Lemma K_drop a s : K s -> K (w_pend (drop_by a (s_pend s)) s).
Proof. intros H. apply K_pend; [exact H|]. intros b c I. apply drop_by_In in I. exact (a_pend _ H _ _ (proj1 I)). Qed.
Lemma K_nonce g p s s' n : get_nonce g p s = Some (s', n) -> K s -> K s'.
Proof. intros E H. apply get_nonce_spec in E. destruct E as (-> & _). destruct (p_nonce (s_peer s p) =? 0)%N; [|exact H]. apply K_onp_same; auto. Qed.

Lemma K_fin p c u s s' : finished p c u s s' -> K s -> (forall q, p_live (s_peer s q) = true -> q <> p -> p_in (s_peer s q) <> Some c) -> K s'.
Proof.
  intros [F1 F2 F3 F4 F5 F6 F7 F8 F9] KK O. apply (K_frame s); auto.
  - rewrite F8. intros a d I. apply drop_by_In in I. apply I.
  - intros q. rewrite F2. destruct (Nat.eqb_spec q p) as [->|N]; intros L.
    + cbn in *. split; [exact L|]. split; [reflexivity|]. split; [exact (a_tim _ KK p L)|]. split; discriminate.
    + split; [exact L|]. split; [reflexivity|]. split; [exact (a_tim _ KK q L)|]. split; [auto|]. intros d S I. pose proof (a_in _ KK q d L S I) as H. rewrite F1. cbn.
      destruct (Nat.eqb_spec d c) as [->|_]; [exfalso; exact (O q L N I)|]. destruct (_ || _); [reflexivity|exact H].
  - intros d. rewrite F1. cbn. auto 10.
  - intros i q _. rewrite F2. destruct (Nat.eqb_spec q p) as [->|_]; reflexivity.
Qed.

Lemma steady_leaf e s s' o : WF s -> s_halt s = false -> J (s_conn s) (s_peer s) -> K s -> steady e s -> leaf hash e s s' o -> s_halt s' = true \/ K s'.
Proof.
  intros W HH JJ KK (CA & SA) L.
  destruct L; try solve [left; reflexivity]; right; try solve [apply K_wq, KK]; try solve [apply K_wuq, KK]; try solve [apply K_wuq, K_wq, KK]; try solve [apply K_onp_same; auto]; try solve [apply K_onp_same; auto; apply K_wq, KK].
  - apply K_new; auto. discriminate.
  - apply K_new; auto; discriminate.
  - apply K_flags; auto.
  - apply K_wq, K_wuq, KK.
  - apply K_flags; auto.
  - eapply K_nonce; [eassumption|]. apply K_flags; auto.
  - apply K_pend; [apply K_flags; auto|]. subst l. intros a d [I|I]; [injection I as <- <-; exact (a_conn _ KK c H3)|]. apply drop_by_In in I. exact (a_pend _ KK _ _ (proj1 I)).
  - apply (K_drop (k_addr (s_conn s c)) (onc c _ s)). apply K_flags; auto; discriminate.
  - apply K_wuq. apply K_onp; [apply (K_drop (k_addr (s_conn s c)) (onc c _ s)), K_flags; auto; discriminate| | |]; sel.
    + intros LV _. unfold x_unpre, x_end. split; [|split]; try (destruct (p_state (s_peer s p)); cbn; try discriminate; auto; exact (a_tim _ KK p LV)).
    + unfold x_unpre, x_end. destruct (p_state (s_peer s p)); reflexivity.
    + unfold x_unpre, x_end. destruct (p_state (s_peer s p)); reflexivity.
  - apply K_wuq. apply K_onp; [apply (K_drop (k_addr (s_conn s c)) (onc c _ s)), K_flags; auto; discriminate| | |]; sel.
    + intros LV _. destruct (w_live _ W _ LV) as (_ & _ & OK). set (x := s_peer s p) in *. assert (E1 : p_cur (x_end x) = p_cur x /\ p_timer (x_end x) = p_timer x /\ (forall d, p_out (x_end x) = Some d -> p_out x = Some d)) by (unfold x_end; destruct (p_state x); cbn; repeat split; auto; discriminate).
      destruct E1 as (E1 & E2 & E3). unfold x_lost. destruct (Z.eqb_spec (x_cur (x_end x)) 0) as [Z|Z]; cbn; rewrite ?E2.
      * split; [exact (a_tim _ KK p LV)|]. split; [auto|discriminate].
      * split; [|split; [auto|discriminate]]. intros _. apply (a_tim _ KK p LV). fold x. destruct (p_timer x) eqn:T; [reflexivity|]. exfalso. apply Z. unfold x_cur. rewrite E1, (proj1 (ok_timer _ _ OK T)). reflexivity.
    + unfold x_lost, x_end. destruct (p_state (s_peer s p)), (_ =? 0)%Z; reflexivity.
    + unfold x_lost, x_end. destruct (p_state (s_peer s p)), (_ =? 0)%Z; reflexivity.
  - (* retry *) pose proof (a_tim _ KK p H H0) as A0. apply K_onp; auto.
    + apply K_new; auto; cbn; [discriminate|]. intros _ _ q. unfold ident. cbn. cbn in SA. rewrite SA. intros F.
      assert (F' : find_by (p_id (s_peer s p)) (s_known s) = Some p) by (apply In_find_by; [exact (w_keys _ W)|exact (proj1 (proj2 (w_live _ W _ H)))]).
      rewrite F' in F. injection F as <-. auto.
    + sel. intros _ _. cbn. split; [auto|]. split.
      * intros d E. injection E as <-. right. rewrite upd_same. reflexivity.
      * intros d S I. rewrite upd_other; [exact (a_in _ KK p d H S I)|]. intros ->. exact (proj1 (proj2 (fresh _ W p H)) I).
  - (* add *) unfold steady in SA. rewrite H in SA. pose proof (fresh _ W) as FR.
    assert (NL : forall r, p_live (s_peer s r) = true -> r <> s_np s) by (intros r LQ ->; destruct (w_live _ W _ LQ) as (B & _); lia).
    constructor; sel.
    + intros r. unfold upd. destruct (r =? s_np s); [cbn; congruence|apply (a_addr _ KK)].
    + intros r. unfold upd. destruct (r =? s_np s); [cbn; congruence|apply (a_tim _ KK)].
    + exact (a_pend _ KK).
    + intros c. unfold upd. destruct (c =? s_nc s); [intros _; exact port_null|apply (a_conn _ KK)].
    + intros c r. unfold upd at 1 2 3 4 5 6 7 8. destruct (Nat.eqb_spec c (s_nc s)) as [_|NC]; [cbn; discriminate|]. intros B0 X1 X2 X3. assert (B1 : c < s_nc s) by (cbn in B0; lia). cbn [s_known]. unfold find_by. cbn [find fst].
      destruct (N.eqb_spec i (ident hash (s_conn s c) (k_addr (s_conn s c)))) as [->|_]; [exfalso; apply SA; exists c; auto|].
      fold (find_by (ident hash (s_conn s c) (k_addr (s_conn s c))) (s_known s)). intros F. destruct (a_dial _ KK c r B1 X1 X2 X3 F) as (A & B). split; [|exact B].
      destruct (Nat.eqb_spec r (s_np s)) as [->|_]; [|exact A]. exfalso. exact (NL _ (proj1 (known_live _ _ _ W F)) eq_refl).
    + intros r c. unfold upd at 1 2. destruct (r =? s_np s); [cbn; discriminate|]. intros LQ O. rewrite upd_other; [exact (a_out _ KK _ _ LQ O)|]. intros ->. exact (proj2 (proj2 (FR r LQ)) O).
    + intros r c. unfold upd at 1 2 3. destruct (r =? s_np s); [cbn; discriminate|]. intros LQ S I. rewrite upd_other; [exact (a_in _ KK _ _ LQ S I)|]. intros ->. exact (proj1 (proj2 (FR r LQ)) I).
  - (* del *) 
    assert (PE : forall r, p_live (s_peer (st_del i p c (w_q q s)) r) = true -> r <> p /\ s_peer (st_del i p c (w_q q s)) r = s_peer s r).
    { intros r. unfold st_del. sel. unfold upd. destruct (Nat.eqb_spec r p) as [->|N]; [cbn; discriminate|]. intros _. split; [exact N|]. destruct (p_out (s_peer s p)), (p_in (s_peer s p)); reflexivity. }
    assert (CE : forall d, let k := s_conn (st_del i p c (w_q q s)) d in k_mode k = k_mode (s_conn s d) /\ k_addr k = k_addr (s_conn s d) /\ k_cert k = k_cert (s_conn s d) /\ k_manual k = k_manual (s_conn s d) /\ k_torn k = k_torn (s_conn s d) /\ (k_peer (s_conn s d) = None -> k_peer k = None)).
    { intros d. unfold st_del. sel. destruct (p_out (s_peer s p)), (p_in (s_peer s p)); cbn [clear_peer_of onc w_conn s_conn w_q]; unfold upd; repeat (match goal with |- context [?a =? ?b] => destruct (Nat.eqb_spec a b); subst end; rewrite ?Nat.eqb_refl); cbn; auto 10. }
    assert (KN : s_known (st_del i p c (w_q q s)) = drop_by i (s_known s)) by (unfold st_del; sel; reflexivity).
    assert (PD : s_pend (st_del i p c (w_q q s)) = s_pend s) by (unfold st_del; sel; destruct (p_out (s_peer s p)), (p_in (s_peer s p)); reflexivity).
    constructor.
    + intros r LR. destruct (PE r LR) as (_ & E). rewrite E in *. apply (a_addr _ KK). exact LR.
    + intros r LR. destruct (PE r LR) as (_ & E). rewrite E in *. apply (a_tim _ KK). exact LR.
    + rewrite PD. exact (a_pend _ KK).
    + intros d. destruct (CE d) as (-> & -> & _). apply (a_conn _ KK).
    + intros d r. destruct (CE d) as (M & A & C & MA & T & _). unfold ident. rewrite M, A, C, MA, T, KN. replace (s_nc (st_del i p c (w_q q s))) with (s_nc s) by (unfold st_del; sel; destruct (p_out (s_peer s p)), (p_in (s_peer s p)); reflexivity). intros B1 X1 X2 X3 F.
      fold (ident hash (s_conn s d) (k_addr (s_conn s d))) in F. pose proof (find_by_In _ _ _ F) as F1. apply drop_by_In in F1. destruct F1 as (F1 & N).
      assert (F2 : find_by (ident hash (s_conn s d) (k_addr (s_conn s d))) (s_known s) = Some r) by (apply In_find_by; [exact (w_keys _ W)|exact F1]).
      replace (s_peer (st_del i p c (w_q q s)) r) with (s_peer s r); [exact (a_dial _ KK d r B1 X1 X2 X3 F2)|].
      unfold st_del. sel. rewrite upd_other; [destruct (p_out (s_peer s p)), (p_in (s_peer s p)); reflexivity|]. intros ->. pose proof (known_live _ _ _ W F2) as (_ & I1 & _). pose proof (known_live _ _ _ W H0) as (_ & I2 & _). congruence.
    + intros r d LR. destruct (PE r LR) as (_ & E). rewrite E in *. destruct (CE d) as (-> & _). exact (a_out _ KK r d LR).
    + intros r d LR. destruct (PE r LR) as (_ & E). rewrite E in *. destruct (CE d) as (_ & _ & _ & _ & _ & X). intros S I. apply X. exact (a_in _ KK r d LR S I).
  - (* addr *) unfold steady in SA. rewrite H in SA. destruct SA as (PA & ND). destruct (known_live _ _ _ W H0) as (LP & ID & _).
    assert (NZ : a <> 0%N) by (intros ->; exact (port_null PA)).
    destruct KK as [A1 A2 A3 A4 A5 A6 A7]. constructor; sel; auto.
    + intros r. unfold upd. destruct (Nat.eqb_spec r p) as [->|_]; [cbn; auto|apply A1].
    + intros r. unfold upd. destruct (Nat.eqb_spec r p) as [->|_]; [cbn; auto|apply A2].
    + intros c r B1 X1 X2 X3 F. unfold upd. destruct (Nat.eqb_spec r p) as [->|_]; [|exact (A5 c r B1 X1 X2 X3 F)]. exfalso. apply ND. exists c. repeat split; auto. pose proof (known_live _ _ _ W F) as (_ & I1 & _). congruence.
    + intros r c. unfold upd. destruct (Nat.eqb_spec r p) as [->|_]; apply A6.
    + intros r c. unfold upd. destruct (Nat.eqb_spec r p) as [->|_]; apply A7.
  - (* conn *) apply K_onp; [apply K_wq, KK| | |]; sel; try (destruct (n =? 0)%Z; reflexivity). intros LV _. destruct (n =? 0)%Z; cbn; repeat split; auto; discriminate.
  - apply K_onp; [apply K_wq, KK| | |]; sel; auto. intros LV _. cbn. repeat split; auto; discriminate.
  - apply K_onp; [apply K_wq, KK| | |]; sel; auto. intros LV _. cbn. repeat split; auto; discriminate.
  - (* pre *) apply K_onp; [apply K_wq, KK| | |]; sel; auto. intros LV _. cbn. split; [exact (a_tim _ KK p LV)|]. split; [auto|]. congruence.
  - (* refused *) unfold calm in CA. rewrite H in CA. assert (CB := fun r => CA H2 p r H4). clear CA. destruct (known_live _ _ _ W H4) as (LV & _).
    pose proof (K_nonce _ _ _ _ _ H7 (K_wq q s KK)) as K1. destruct (J_nonce _ _ _ _ _ H7 JJ) as (_ & C1 & Q1). change (s_conn (w_q q s)) with (s_conn s) in C1. change (s_peer (w_q q s)) with (s_peer s) in Q1.
    apply K_onp; auto. rewrite C1. intros LP _. cbn. split; [exact (a_tim _ K1 p LP)|]. split; [auto|]. intros d _ E. injection E as <-.
    destruct (k_peer (s_conn s c)) as [r|] eqn:P; [|reflexivity]. exfalso. destruct (j_own_nt c _ JJ H1 r P) as (LR & X). assert (r = p) by (apply CB; [exact LR|left; exact P]). subst r.
    destruct X as [X|X]; [pose proof (j_term _ _ JJ _ (j_down _ _ JJ _ _ LR H6 X)); congruence|]. rewrite (a_out _ KK _ _ LR X) in H3. discriminate H3.
  - (* chosen *) unfold calm in CA. rewrite H in CA. assert (CB := fun r => CA H2 p r H4). clear CA. destruct (known_live _ _ _ W H4) as (LV & _).
    pose proof (K_nonce _ _ _ _ _ H7 (K_wq q s KK)) as K1. destruct (J_nonce _ _ _ _ _ H7 JJ) as (_ & C1 & Q1). change (s_conn (w_q q s)) with (s_conn s) in C1. change (s_peer (w_q q s)) with (s_peer s) in Q1.
    refine (K_fin p c u _ _ H11 _ _).
    + apply K_onp_same; auto. apply K_onp; auto. rewrite C1. intros LP _. cbn. split; [exact (a_tim _ K1 p LP)|]. split; [auto|]. intros d _ E. injection E as <-.
      destruct (k_peer (s_conn s c)) as [r|] eqn:P; [|reflexivity]. exfalso. destruct (j_own_nt c _ JJ H1 r P) as (LR & X). assert (r = p) by (apply CB; [exact LR|left; exact P]). subst r.
      destruct X as [X|X]; [pose proof (j_term _ _ JJ _ (j_down _ _ JJ _ _ LR H6 X)); congruence|]. rewrite (a_out _ KK _ _ LR X) in H3. discriminate H3.
    + intros r LR N. sel. rewrite !upd_other by exact N. revert LR. sel. rewrite !upd_other by exact N. destruct (Q1 r) as (-> & _ & _ & -> & _). intros LR I. apply N. apply CB; [exact LR|right; left; exact I].
  - (* reply refused *) assert (K0 : K (onp p (x_out c) (w_q q s))) by (apply K_onp; auto using K_wq; intros LP _; cbn; split; [exact (a_tim _ KK p LP)|]; split; [intros d E; injection E as <-; right; exact H3|intros d; exact (a_in _ KK p d LP)]).
    exact (K_nonce _ _ _ _ _ H7 K0).
  - (* reply *) unfold calm in CA. rewrite H in CA. destruct (CA H2 p H4) as (CM & CD & CS). clear CA.
    assert (K0 : K (onp p (x_out c) (w_q q s))) by (apply K_onp; auto using K_wq; intros LP _; cbn; split; [exact (a_tim _ KK p LP)|]; split; [intros d E; injection E as <-; right; exact H3|intros d; exact (a_in _ KK p d LP)]).
    pose proof (K_nonce _ _ _ _ _ H7 K0) as K1. apply get_nonce_spec in H7.
    assert (Q1 : forall r, r <> p -> s_peer s1 r = s_peer s r).
    { intros r N. destruct H7 as (-> & _). destruct (_ =? 0)%N; sel; rewrite ?upd_other by exact N; reflexivity. }
    refine (K_fin p c u _ _ H11 _ _).
    + unfold reset_ping_timer. apply K_onp_same; auto. apply K_onp_same; auto.
    + unfold reset_ping_timer. intros r LR N. sel. rewrite !upd_other by exact N. revert LR. sel. rewrite !upd_other, (Q1 r N) by exact N. intros LR I. apply N. apply CS; [exact LR|right; left; exact I].
Qed.

Lemma along_weak (P Q : ev -> st -> Prop) : (forall e s, P e s -> Q e s) -> forall es s, along hash P es s -> along hash Q es s.
Proof.
  intros H es. induction es as [|e es IH]; intros s A; [exact I|]. cbn [along] in *. destruct A as (A1 & A2). split; [exact (H _ _ A1)|]. destruct (step hash e s) as [[s1 o1]|]; [exact (IH _ A2)|exact I].
Qed.

Lemma steady_run es s o : run hash es st0 = Some (s, o) -> along hash steady es st0 -> s_halt s = true \/ (J (s_conn s) (s_peer s) /\ K s).
Proof.
  intros E A. apply (along_inv hash steady (fun s _ => s_halt s = true \/ (J (s_conn s) (s_peer s) /\ K s))) with (es := es) (o := o); auto.
  - right. split; constructor; cbn; try discriminate; auto; contradiction.
  - intros e s1 o1 s2 o2 W HH T SE L. destruct T as [T|(JJ & KK)]; [congruence|].
    destruct (calm_leaf hash e s1 o1 s2 o2 W HH (or_intror JJ) (proj1 SE) L) as [T|J2]; [auto|]. destruct (steady_leaf _ _ _ _ W HH JJ KK SE L) as [T|K2]; auto.
  - intros s1 s2 o1 Q [T|(J1 & K1)]; [left; rewrite <- (q_halt _ _ Q); exact T|]. right. split; [|exact (K_ext _ _ Q K1)]. apply (J_ext _ _ _ _ J1); intros; symmetry; apply Q.
Qed.

(** ** C133 *)

Definition C133_asserts_full : Prop := forall es s o, run hash es st0 = Some (s, o) -> ~ In OAssert o.

Theorem C133_asserts_partial : forall es s o, run hash es st0 = Some (s, o) -> along hash steady es st0 -> ~ In OAssert o.
Proof.
  intros es. induction es as [|e es IH] using rev_ind; intros s o E A; [injection E as <- <-; intros []|].
  rewrite (run_app hash) in E. destruct (run hash es st0) as [[s1 o1]|] eqn:E1; [|discriminate E]. rewrite (along_app hash steady es [e] st0 s1 o1 E1) in A. destruct A as (A1 & A2 & _).
  cbn [run] in E. destruct (step hash e s1) as [[s2 o2]|] eqn:E2; [|discriminate E]. injection E as <- <-. rewrite app_nil_r. intros I. apply in_app_or in I. destruct I as [I|I]; [exact (IH s1 o1 eq_refl A1 I)|].
  destruct (steady_run _ _ _ E1 A1) as [T|(JJ & KK)]; [unfold step in E2; rewrite T in E2; discriminate E2|]. exact (steady_noassert _ _ _ _ (wf_run _ _ _ _ E1) JJ KK A2 E2 I).
Qed.
End A.

(** ** Witnesses *)

(** Two nodes on a network that loses nothing; node false dials node true, the other answers,
    but not before the retry delay is over, so that node false has dialled again:
    network.h 1109. *)
Definition slow : list pev :=
  [PApi false (TAdd 1 2%N); PDisp false g0; PApi false (TSetAddr 2 2%N 2%N); PDisp false g0; PApi false (TConn 3 2%N (-1)); PDisp false g0; PApi true (TAdd 1 1%N); PDisp true g0;
   PRetry false 0 g0; PSetup false 1 g0; PAccept 0; PSetup true 1 g0; PGet 0 true; PDisp true g0; PGet 0 false; PRetry false 0 g0; PDisp false g0].
Theorem C133_slow_dial_refuted : exists es y o, prun es sys0 = Some (y, o) /\ In (false, OAssert) o /\
  (forall n t, In (PApi n t) es -> t = TAdd 1 2%N \/ t = TSetAddr 2 2%N 2%N \/ t = TConn 3 2%N (-1) \/ t = TAdd 1 1%N) /\ (forall l n c, ~ In (PRefuse l) es /\ ~ In (PTerm n c) es).
Proof.
  exists slow. eexists. eexists. split; [vm_compute; reflexivity|]. split; [cbn; auto 20|]. split.
  - intros n t I. cbn in I. repeat (destruct I as [I|I]; [try discriminate I; injection I as <- <-; auto|]). destruct I.
  - intros l n c. split; intros I; cbn in I; repeat (destruct I as [I|I]; [discriminate I|]); destruct I.
Qed.

(** The user sets the address of a peer while it is dialled: network.h 1097. *)
Theorem C133_new_address_refuted : exists es s o, run h5 es st0 = Some (s, o) /\ In OAssert o /\
  execs o = [TAdd 0 5%N; TSetAddr 1 5%N 9%N; TConn 2 5%N (-1); TSetAddr 3 5%N 8%N; TPong 1 9%N passive_nonce].
Proof.
  exists (call (-1) ++ [ERetry 0 g0; ESetup 1 g0; EPost (TSetAddr 3 5%N 8%N); EDisp g0; EPost (TPong 1 9%N passive_nonce); EDisp g0]).
  eexists. eexists. split; [vm_compute; reflexivity|]. split; [cbn; auto 20|reflexivity].
Qed.
(** The user unsets the address of a peer that is to be dialled: network.h 973. *)
Theorem C133_no_address_refuted : exists es s o, run h5 es st0 = Some (s, o) /\ In OAssert o /\
  execs o = [TAdd 0 5%N; TSetAddr 1 5%N 9%N; TConn 2 5%N (-1); TSetAddr 3 5%N 0%N].
Proof.
  exists (call (-1) ++ [EPost (TSetAddr 3 5%N 0%N); EDisp g0; ERetry 0 g0]).
  eexists. eexists. split; [vm_compute; reflexivity|]. split; [cbn; auto 20|reflexivity].
Qed.
(** A stranger connects from the address that is to be dialled, and says nothing: network.h 980. *)
Theorem C133_same_address_refuted : exists es s o, run h5 es st0 = Some (s, o) /\ In OAssert o /\
  execs o = [TAdd 0 5%N; TSetAddr 1 5%N 9%N; TConn 2 5%N (-1)].
Proof.
  exists (call (-1) ++ [EAccept 9%N None; ESetup 1 g0; ERetry 0 g0]).
  eexists. eexists. split; [vm_compute; reflexivity|]. split; [cbn; auto 20|reflexivity].
Qed.

(** Checking that a given history is steady. *)
Definition open_dialb (hash : addr -> pid) (s : st) (i : pid) : bool :=
  existsb (fun c => let k := s_conn s c in match k_mode k with Active => negb (k_manual k) && negb (k_torn k) && (ident hash k (k_addr k) =? i)%N | Passive => false end) (List.seq 0 (s_nc s)).
Lemma open_dialb_ok hash s i : open_dialb hash s i = false -> ~ open_dial hash s i.
Proof.
  intros H (c & B & M & MA & T & ID). assert (X : open_dialb hash s i = true); [|congruence]. unfold open_dialb. apply existsb_exists. exists c. split; [apply in_seq; lia|].
  cbv zeta. rewrite M, MA, T, ID, N.eqb_refl. reflexivity.
Qed.
Definition steadyb (hash : addr -> pid) (portb : addr -> bool) (e : ev) (s : st) : bool :=
  calmb hash e s &&
  match e with
  | EAccept a _ => negb (portb a)
  | ERetry p g => (match g_cert g with Some i => i | None => hash (p_addr (s_peer s p)) end =? p_id (s_peer s p))%N
  | EDisp _ =>
    match s_q s with
    | TAdd _ i :: _ => negb (open_dialb hash s i)
    | TSetAddr _ i a :: _ => portb a && negb (open_dialb hash s i)
    | TPong c a _ :: _ => match find_by (ident hash (s_conn s c) (k_addr (s_conn s c))) (s_known s) with Some p => oeq (p_out (s_peer s p)) (Some c) || oeq (p_out (s_peer s p)) None | None => true end
    | _ => true
    end
  | _ => true
  end.
Lemma steadyb_ok hash portb e s : WF s -> steadyb hash portb e s = true -> steady hash (fun a => portb a = true) e s.
Proof.
  intros W H. unfold steadyb in H. apply andb_true_iff in H. destruct H as (H1 & H2). split; [exact (calmb_ok hash e s W H1)|]. destruct e; auto.
  - destruct (s_q s) as [|t q]; [exact I|]. destruct t; auto.
    + apply open_dialb_ok, negb_true_iff, H2.
    + apply andb_true_iff in H2. destruct H2 as (H2 & H3). split; [exact H2|]. apply open_dialb_ok, negb_true_iff, H3.
    + intros _ p F. rewrite F in H2. apply orb_true_iff in H2. destruct H2 as [H2|H2]; [left; apply oeq_iff; exact H2|]. right. destruct (p_out (s_peer s p)); [discriminate H2|reflexivity].
  - apply negb_true_iff in H2. congruence.
  - apply N.eqb_eq, H2.
Qed.

(** Non-vacuous: an attempt fails, the next one is established; another connection of the peer comes in
    and takes its place; the peer is deleted and, when all is over, registered again with
    another address and dialled there. *)
Definition h58 : addr -> pid := fun a => if (a =? 9)%N || (a =? 8)%N then 5%N else a.
Definition steady_ex : list ev := calm_ex2 ++ [EPost (TAdd 4 5%N); EDisp g0; EPost (TSetAddr 5 5%N 8%N); EDisp g0; EPost (TConn 6 5%N 3); EDisp g0; ERetry 1 g0; ESetup 5 g0; EPost (TPong 5 8%N passive_nonce); EDisp g0].
Example C133_nonvacuous : exists s o, run h58 steady_ex st0 = Some (s, o) /\ along h58 (steady h58 (fun a => ((a =? 9) || (a =? 8))%N = true)) steady_ex st0 /\ ~ ((0 =? 9) || (0 =? 8))%N = true /\
  s_halt s = false /\ p_state (s_peer s 1) = Connected /\ k_addr (s_conn s 5) = 8%N /\ In (OMove 4 5) o.
Proof.
  destruct (run h58 steady_ex st0) as [[s o]|] eqn:E; [|exfalso; vm_compute in E; discriminate E]. exists s, o. split; [reflexivity|]. split; [|split; [discriminate|]].
  - apply (alongb_ok h58 (steadyb h58 (fun a => ((a =? 9) || (a =? 8))%N))); [exact (steadyb_ok h58 _)|exact wf0|vm_compute; reflexivity].
  - assert (X : option_map (fun x => let s := fst x in (s_halt s, p_state (s_peer s 1), k_addr (s_conn s 5), existsb (fun x => match x with OMove 4 5 => true | _ => false end) (snd x))) (run h58 steady_ex st0) = Some (false, Connected, 8%N, true)) by (vm_compute; reflexivity).
    rewrite E in X. cbn [option_map fst snd] in X. injection X as X1 X2 X3 X4. repeat split; auto.
    apply existsb_exists in X4. destruct X4 as (x & I & X). destruct x as [| | | | | | | | | | |u v| | | | |]; try discriminate X. destruct u as [|[|[|[|[|u]]]]]; try discriminate X. destruct v as [|[|[|[|[|[|v]]]]]]; try discriminate X. exact I.
Qed.

Print Assumptions C133_asserts_partial.
Print Assumptions C133_slow_dial_refuted.
Print Assumptions C133_new_address_refuted.
Print Assumptions C133_no_address_refuted.
Print Assumptions C133_same_address_refuted.

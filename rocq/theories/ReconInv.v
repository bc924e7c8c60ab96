(** The invariant of ReconSys.v holds forever, for ReconProps.v. *)
From Coq Require Import Arith NArith ZArith List Bool Lia.
From Verif Require Import PeerModel PeerPair DialProps ReconSpec ReconNode ReconSys ReconTr.
Import ListNotations.

(** ** Node A *)
Record NAc (z : Z) (P : peer) (k : nat -> conn) (nc : nat) (u : list utask) : Prop := {
  ac_k : forall c, 1 <= c < nc -> let k := k c in k_mode k = Active /\ k_cert k = None /\ k_addr k = 2%N /\ k_manual k = false /\ (k_peer k = None \/ k_peer k = Some 0) /\ (k_torn k = true -> k_term k = true);
  ac_p : p_addr P = 2%N /\ p_id P = 2%N /\ (p_nonce P < passive_nonce)%N /\ p_ntry P = z /\ p_cur P = z /\ p_timer P = true /\ p_in P = None /\ p_pre P = None /\ p_state P <> Reset /\ exists x, p_conn P = Some x;
  ac_o : forall c, p_out P = Some c -> 1 <= c < nc;
  ac_d : p_state P = Disconnected -> p_ton P = true;
  ac_c : p_state P = Connected -> p_ton P = false /\ p_out P = None /\ p_ptok P <> None /\ exists c, p_conn P = Some c /\ p_chosen P = Some c /\ 1 <= c < nc /\ k_peer (k c) = Some 0 /\ k_torn (k c) = false;
  ac_h : heart P;
  ac_u : forall t, In t u -> exists p c b, t = UCb p c b }.
Lemma NA_c z s : NA z s -> NAc z (pr s) (s_conn s) (s_nc s) (s_uq s).
Proof. intros [? ? ? ? ? ? ? ?]. constructor; auto. Qed.
Lemma NA_now z s P k nc q u pe : now 2%N s P k nc q u pe -> NAc z P k nc u -> NA z s.
Proof.
  intros [nb np nk nn nq nu ne] [? ? ? ? ? ? ?]. constructor; auto; unfold within, hot; rewrite ?np, ?nn, ?nu; auto.
  - intros c. rewrite nk. apply ac_k0.
  - intros H. destruct (ac_c0 H) as (H1 & H2 & H3 & c & H4). split; [exact H1|]. split; [exact H2|]. split; [exact H3|]. exists c. rewrite nk. exact H4.
Qed.

(** Everything but the peers of connections, and its flags. *)
Definition kin (k k' : conn) : Prop := k_mode k' = k_mode k /\ k_addr k' = k_addr k /\ k_cert k' = k_cert k /\ k_manual k' = k_manual k.
Lemma kin_upd k c f x : (forall q, kin q (f q)) -> kin (k x) (upd k c (f (k c)) x).
Proof. intros H. unfold upd. destruct (x =? c) eqn:E; [apply Nat.eqb_eq in E; subst; apply H|repeat split]. Qed.
Lemma upd_c {B} (k : nat -> B) c v : upd k c v c = v.
Proof. unfold upd. rewrite Nat.eqb_refl. reflexivity. Qed.
Lemma upd_n {B} (k : nat -> B) c v x : x <> c -> upd k c v x = k x.
Proof. intros N. unfold upd. apply Nat.eqb_neq in N. rewrite N. reflexivity. Qed.
Lemma upd_if {B} (k : nat -> B) c v x : upd k c v x = if x =? c then v else k x.
Proof. reflexivity. Qed.

Lemma peer_own c k x : k_peer (own c k x) = if x =? c then Some 0 else k_peer (k x).
Proof. unfold own. rewrite upd_if. destruct (x =? c); reflexivity. Qed.
Lemma peer_clr o k x : k_peer (clr o k x) = if oeq o (Some x) then None else k_peer (k x).
Proof. destruct o as [c|]; [|reflexivity]. cbn. rewrite upd_if, (Nat.eqb_sym c x). destruct (x =? c); reflexivity. Qed.
Lemma ended_A P z : p_pre P = None -> p_cur P = z -> (z < 0)%Z -> ended P = p_settimer true true (p_setnonce 0%N (p_settry (p_ntry (fell P)) (p_cur (fell P)) (p_setlinks (p_chosen (fell P)) None (p_out (fell P)) (fell P)))).
Proof. intros H1 H2 H3. unfold ended. rewrite H1. replace (p_cur P =? 0)%Z with false; [reflexivity|]. symmetry. apply Z.eqb_neq. lia. Qed.

Lemma heart_beat P P' : heart P -> p_ptok P <> None -> beat P P' -> heart P'.
Proof. intros H T [->|(g & t & m & ->)]; [exact H|]. right. cbn. split; [discriminate|]. split; [discriminate|]. destruct H as [(H & _)|(_ & _ & H)]; [contradiction|exact H]. Qed.
(** Only heartbeats differ. *)
Definition samep (P P' : peer) : Prop := p_live P' = p_live P /\ p_id P' = p_id P /\ p_addr P' = p_addr P /\ p_nonce P' = p_nonce P /\ p_conn P' = p_conn P /\ p_ntry P' = p_ntry P /\ p_cur P' = p_cur P /\ p_timer P' = p_timer P /\ p_ton P' = p_ton P /\
  p_chosen P' = p_chosen P /\ p_in P' = p_in P /\ p_out P' = p_out P /\ p_pre P' = p_pre P /\ p_state P' = p_state P.
Lemma beat_same P P' : beat P P' -> samep P P'.
Proof. intros [->|(g & t & m & ->)]; repeat split. Qed.
Lemma beat_tok P P' : beat P P' -> p_ptok P <> None -> p_ptok P' <> None.
Proof. intros [->|(g & t & m & ->)]; cbn; [auto|discriminate]. Qed.

Lemma NAc_beat z P P' k nc u : beat P P' -> p_ptok P <> None -> NAc z P k nc u -> NAc z P' k nc u.
Proof.
  intros B T [K PP O D C H U]. pose proof (heart_beat P P' H T B) as H'. pose proof (beat_tok P P' B T) as T'. destruct (beat_same P P' B) as (e1 & e2 & e3 & e4 & e5 & e6 & e7 & e8 & e9 & e10 & e11 & e12 & e13 & e14).
  constructor; rewrite ?e1, ?e2, ?e3, ?e4, ?e5, ?e6, ?e7, ?e8, ?e9, ?e10, ?e11, ?e12, ?e13, ?e14; auto. intros S. destruct (C S) as (c1 & c2 & c3 & c4). auto.
Qed.
Lemma NAc_conn z P k k' nc u : NAc z P k nc u -> (forall c, kin (k c) (k' c) /\ (k_torn (k' c) = true -> k_term (k' c) = true \/ k_torn (k c) = true /\ k_term (k' c) = k_term (k c)) /\ k_peer (k' c) = k_peer (k c)) ->
  (p_state P = Connected -> forall c, p_conn P = Some c -> k_torn (k c) = false -> k_torn (k' c) = false) -> NAc z P k' nc u.
Proof.
  intros [K PP O D C H U] S T. constructor; auto.
  - intros c W. destruct (K c W) as (k1 & k2 & k3 & k4 & k5 & k6). destruct (S c) as ((s1 & s2 & s3 & s4) & s5 & s6). cbn zeta. rewrite s1, s2, s3, s4, s6. split; [exact k1|]. split; [exact k2|]. split; [exact k3|]. split; [exact k4|]. split; [exact k5|]. intros TT. destruct (s5 TT) as [X|(X & Y)]; [exact X|]. rewrite Y. auto.
  - intros CC. destruct (C CC) as (c1 & c2 & c3 & c & c4 & c5 & c6 & c7 & c8). split; [exact c1|]. split; [exact c2|]. split; [exact c3|]. exists c. destruct (S c) as (_ & _ & s6). rewrite s6. split; [exact c4|]. split; [exact c5|]. split; [exact c6|]. split; [exact c7|]. auto.
Qed.
Lemma flag_conn k c t (b v : bool) x : (t = true \/ v = k_torn (k c) /\ t = k_term (k c)) -> let k' := upd k c (k_flags t b v (k c)) in
  kin (k x) (k' x) /\ (k_torn (k' x) = true -> k_term (k' x) = true \/ k_torn (k x) = true /\ k_term (k' x) = k_term (k x)) /\ k_peer (k' x) = k_peer (k x).
Proof.
  intros H. cbn zeta. rewrite upd_if. destruct (x =? c) eqn:E; [apply Nat.eqb_eq in E; subst x|]; cbn.
  - split; [repeat split|]. split; [|reflexivity]. destruct H as [->|(-> & ->)]; auto.
  - split; [repeat split|]. split; [|reflexivity]. auto.
Qed.

Lemma mild_A z s s' e : NA z s -> mild 2%N s s' e -> NA z s'.
Proof.
  intros H M. pose proof (NA_c _ _ H) as C. destruct M as [t HT N|t q Q HT N|c q Q N|P q e Q HS B N HE|p c v u U N]; try (eapply NA_now; [exact N|exact C]).
  - eapply NA_now; [exact N|]. eapply NAc_beat; eauto.
  - eapply NA_now; [exact N|]. destruct C. constructor; auto. intros t T. apply ac_u0. rewrite U. right. exact T.
Qed.

Lemma NA_step z s s' e : (z < 0)%Z -> NA z s -> stepA s s' e -> NA z s'.
Proof.
  intros Z0 H M. pose proof (NA_c _ _ H) as C. destruct M as [e M|c q Q T N|c n W K1 K2 NN N|c pe W K1 K2 KP N|c pe W K1 K2 KP N|c q n pe Q W KT ST NN N].
  - eapply mild_A; eauto.
  - eapply NA_now; [exact N|exact C].
  - eapply NA_now; [exact N|]. destruct NN as (_ & NN).
    assert (C' : NAc z (p_setnonce n (pr s)) (s_conn s) (s_nc s) (s_uq s)). { destruct C as [K PP O D CC HH U]. constructor; auto. cbn. destruct PP as (P1 & P2 & P3 & P4 & P5 & P6 & P7 & P8 & P9 & P10). repeat (split; [assumption|]). assumption. }
    eapply NAc_conn; [exact C'| |].
    + intros x. apply flag_conn. right. auto.
    + intros _ x _ X. unfold setk. rewrite upd_if. destruct (x =? c) eqn:E; [apply Nat.eqb_eq in E; subst x; exact K2|exact X].
  - eapply NA_now; [exact N|]. eapply NAc_conn; [exact C| |].
    + intros x. apply flag_conn. left. reflexivity.
    + intros S x PC X. unfold tornk. rewrite upd_if. destruct (x =? c) eqn:E; [apply Nat.eqb_eq in E; subst x|exact X]. destruct (ac_c _ _ _ _ _ C S) as (_ & _ & _ & y & e1 & _ & _ & e2 & _). congruence.
  - eapply NA_now; [exact N|]. destruct C as [K PP O D CC HH U]. destruct PP as (P1 & P2 & P3 & P4 & P5 & P6 & P7 & P8 & P9 & P10).
    rewrite (ended_A _ z P8 P5 Z0). unfold fell. constructor.
    + intros x WX. destruct (K x WX) as (k1 & k2 & k3 & k4 & k5 & k6). cbn zeta. unfold tornk. rewrite upd_if. destruct (x =? c) eqn:E; [apply Nat.eqb_eq in E; subst x; cbn; auto 9|auto 9].
    + destruct (p_state (pr s)) eqn:S; cbn; try congruence; repeat (split; [assumption||reflexivity||discriminate|]); try assumption. rewrite S. split; [discriminate|assumption].
    + destruct (p_state (pr s)) eqn:S; cbn; try congruence. exact O.
    + destruct (p_state (pr s)) eqn:S; cbn; congruence.
    + destruct (p_state (pr s)) eqn:S; cbn; congruence.
    + unfold heart in *. destruct (p_state (pr s)) eqn:S; cbn; tauto.
    + intros t T. apply in_app_or in T as [T|[<-|[]]]; eauto.
  - eapply NA_now; [exact N|]. destruct C as [K PP O D CC HH U]. destruct PP as (P1 & P2 & P3 & P4 & P5 & P6 & P7 & P8 & P9 & P10). constructor.
    + intros x WX. destruct (K x WX) as (k1 & k2 & k3 & k4 & k5 & k6). cbn zeta.
      assert (A := own_alike c (clr (p_conn (pr s)) (clr (Some c) (s_conn s))) x). assert (A2 := clr_alike (p_conn (pr s)) (clr (Some c) (s_conn s)) x). assert (A3 := clr_alike (Some c) (s_conn s) x).
      destruct (alike_trans _ _ _ A3 (alike_trans _ _ _ A2 A)) as (h1 & h2 & h3 & h4 & h5 & h6 & h7). rewrite h1, h2, h3, h4, h5, h7. repeat (split; [assumption|]). split; [|assumption].
      rewrite peer_own, !peer_clr. destruct (x =? c); [auto|]. destruct (oeq (p_conn (pr s)) (Some x)); [auto|]. destruct (oeq (Some c) (Some x)); auto.
    + cbn. repeat (split; [assumption||reflexivity||discriminate|]). eauto.
    + cbn. discriminate.
    + cbn. discriminate.
    + intros _. cbn -[clr own]. split; [reflexivity|]. split; [reflexivity|]. split; [discriminate|]. exists c. split; [reflexivity|]. split; [reflexivity|]. split; [exact W|]. rewrite peer_own, Nat.eqb_refl. split; [reflexivity|].
      assert (A := own_alike c (clr (p_conn (pr s)) (clr (Some c) (s_conn s))) c). assert (A2 := clr_alike (p_conn (pr s)) (clr (Some c) (s_conn s)) c). assert (A3 := clr_alike (Some c) (s_conn s) c).
      destruct (alike_trans _ _ _ A3 (alike_trans _ _ _ A2 A)) as (h1 & h2 & h3 & h4 & h5 & h6 & h7). rewrite h7. destruct (k_torn (s_conn s c)) eqn:TT; [|reflexivity]. destruct (K c W) as (_ & _ & _ & _ & _ & X). rewrite (X TT) in KT. discriminate.
    + right. cbn. repeat split; discriminate.
    + intros t T. apply in_app_or in T as [T|[<-|[]]]; eauto.
Qed.

(** ** Node B *)
Record NBc (P : peer) (k : nat -> conn) (nc : nat) (u : list utask) (pe : list (addr * nat)) : Prop := {
  bc_k : forall c, 1 <= c < nc -> let k := k c in k_mode k = Passive /\ k_cert k = None /\ (k_peer k = None \/ k_peer k = Some 0) /\ (k_torn k = true -> k_term k = true);
  bc_p : p_nonce P = passive_nonce /\ p_ntry P = 0%Z /\ p_cur P = 0%Z /\ p_timer P = false /\ p_out P = None /\ p_state P <> Reset;
  bc_d : p_state P = Disconnected -> p_pre P = None /\ p_in P = None /\ exists x, p_conn P = Some x /\ k_torn (k x) = true /\ x < nc;
  bc_c : p_state P = Connected -> p_ptok P <> None /\ (exists d, p_conn P = Some d /\ p_chosen P = Some d /\ 1 <= d < nc /\ k_peer (k d) = Some 0 /\ k_torn (k d) = false) /\
        (p_pre P = None \/ exists n d, p_pre P = Some (1%N, n) /\ non n /\ p_in P = Some d /\ 1 <= d < nc);
  bc_l : forall d, 1 <= d < nc -> k_peer (k d) = Some 0 -> k_torn (k d) = false -> p_state P = Connected /\ p_conn P = Some d;
  bc_h : heart P;
  bc_u : forall t, In t u -> (exists p c b, t = UCb p c b) \/ exists p c n d, t = UPre p c 1%N n (Some d) /\ non n /\ 1 <= d < nc;
  bc_e : forall a d, In (a, d) pe -> 1 <= d < nc /\ k_addr (k d) = a }.
Lemma NB_c s : NB s -> NBc (pr s) (s_conn s) (s_nc s) (s_uq s) (s_pend s).
Proof. intros [? ? ? ? ? ? ? ? ?]. constructor; auto. Qed.
Lemma NB_now s P k nc q u pe : now 1%N s P k nc q u pe -> NBc P k nc u pe -> NB s.
Proof.
  intros [nb np nk nn nq nu ne] [? ? ? ? ? ? ? ?]. constructor; auto; unfold within, hot; rewrite ?np, ?nn, ?nu, ?ne; auto.
  - intros c. rewrite nk. auto.
  - intros H. destruct (bc_d0 H) as (H1 & H2 & x & H3 & H4). split; [exact H1|]. split; [exact H2|]. exists x. rewrite nk. auto.
  - intros H. destruct (bc_c0 H) as (H1 & (d & H2) & H3). split; [exact H1|]. split; [|exact H3]. exists d. rewrite nk. exact H2.
  - intros d. rewrite nk. auto.
  - intros a d. rewrite nk. auto.
Qed.
Lemma NBc_beat P P' k nc u pe : beat P P' -> p_ptok P <> None -> NBc P k nc u pe -> NBc P' k nc u pe.
Proof.
  intros B T [K PP D C L H U E]. pose proof (heart_beat P P' H T B) as H'. pose proof (beat_tok P P' B T) as T'. destruct (beat_same P P' B) as (e1 & e2 & e3 & e4 & e5 & e6 & e7 & e8 & e9 & e10 & e11 & e12 & e13 & e14).
  constructor; rewrite ?e1, ?e2, ?e3, ?e4, ?e5, ?e6, ?e7, ?e8, ?e9, ?e10, ?e11, ?e12, ?e13, ?e14; auto. intros S. destruct (C S) as (c1 & c2 & c3). auto.
Qed.
Lemma NBc_conn P k k' nc u pe : NBc P k nc u pe -> (forall c, kin (k c) (k' c) /\ (k_torn (k' c) = true -> k_term (k' c) = true \/ k_torn (k c) = true /\ k_term (k' c) = k_term (k c)) /\ k_peer (k' c) = k_peer (k c)) ->
  (forall c, k_torn (k c) = true -> k_torn (k' c) = true) -> (forall c, k_peer (k c) = Some 0 -> k_torn (k c) = false -> k_torn (k' c) = false) -> NBc P k' nc u pe.
Proof.
  intros [K PP D C L H U E] S T T2. constructor; auto.
  - intros c W. destruct (K c W) as (k1 & k2 & k5 & k6). destruct (S c) as ((s1 & s2 & s3 & s4) & s5 & s6). cbn zeta. rewrite s1, s3, s6. split; [exact k1|]. split; [exact k2|]. split; [exact k5|]. intros TT. destruct (s5 TT) as [X|(X & Y)]; [exact X|]. rewrite Y. auto.
  - intros DD. destruct (D DD) as (d1 & d2 & x & d3 & d4 & d5). split; [exact d1|]. split; [exact d2|]. exists x. auto.
  - intros CC. destruct (C CC) as (c1 & (c & c4 & c5 & c6 & c7 & c8) & c9). split; [exact c1|]. split; [|exact c9]. exists c. destruct (S c) as (_ & _ & s6). rewrite s6. split; [exact c4|]. split; [exact c5|]. split; [exact c6|]. split; [exact c7|]. auto.
  - intros d W KP TT. destruct (S d) as (_ & _ & s6). rewrite s6 in KP. apply L; auto. destruct (k_torn (k d)) eqn:X; [|reflexivity]. rewrite (T d X) in TT. discriminate.
  - intros a d ID. destruct (E a d ID) as (E1 & E2). destruct (S d) as ((s1 & s2 & s3 & s4) & _). rewrite s2. auto.
Qed.
Lemma NBc_pe P k nc u pe pe' : NBc P k nc u pe -> (forall a d, In (a, d) pe' -> 1 <= d < nc /\ k_addr (k d) = a) -> NBc P k nc u pe'.
Proof. intros [? ? ? ? ? ? ? ?]. constructor; auto. Qed.
Lemma mild_B s s' e : NB s -> mild 1%N s s' e -> NB s'.
Proof.
  intros H M. pose proof (NB_c _ H) as C. destruct M as [t HT N|t q Q HT N|c q Q N|P q e Q HS B N HE|p c v u U N]; try (eapply NB_now; [exact N|exact C]).
  - eapply NB_now; [exact N|]. eapply NBc_beat; eauto.
  - eapply NB_now; [exact N|]. destruct C. constructor; auto. intros t T. apply bc_u0. rewrite U. right. exact T.
Qed.
Lemma ended_B P : p_cur P = 0%Z -> p_pre P = None -> ended P = p_setnonce passive_nonce (p_settry (p_ntry (fell P)) (p_cur (fell P)) (p_setlinks (p_chosen (fell P)) None (p_out (fell P)) (fell P))).
Proof. intros H1 H2. unfold ended. rewrite H1, H2. reflexivity. Qed.

Lemma NB_step s s' e : NB s -> stepB s s' e -> NB s'.
Proof.
  intros H M. pose proof (NB_c _ H) as C. destruct M as [e M|c n q Q T N|p c n d u U N|c pe W K1 K2 N PE|c pe W K1 K2 KP N PE|c pe W K1 K2 KP N PE|c n q d Q W NN KT ST PC N|c n q pe Q W KT ST N PE].
  - eapply mild_B; eauto.
  - eapply NB_now; [exact N|exact C].
  - eapply NB_now; [exact N|]. destruct C. constructor; auto. intros t T. apply bc_u0. rewrite U. right. exact T.
  - eapply NB_now; [exact N|]. eapply NBc_conn; [eapply NBc_pe; [exact C|]| | |].
    + intros x y I. destruct (PE _ I) as [X|I']; [injection X as -> ->; auto|apply (bc_e _ _ _ _ _ C); exact I'].
    + intros x. apply flag_conn. right. auto.
    + intros x. unfold setk. rewrite upd_if. destruct (x =? c) eqn:E; [apply Nat.eqb_eq in E; subst x; auto|auto].
    + intros x _. unfold setk. rewrite upd_if. destruct (x =? c) eqn:E; [apply Nat.eqb_eq in E; subst x; auto|auto].
  - eapply NB_now; [exact N|]. eapply NBc_conn; [eapply NBc_pe; [exact C|]| | |].
    + intros x y I. apply (bc_e _ _ _ _ _ C). apply PE. exact I.
    + intros x. apply flag_conn. left. reflexivity.
    + intros x. unfold tornk. rewrite upd_if. destruct (x =? c) eqn:E; [reflexivity|auto].
    + intros x KX. unfold tornk. rewrite upd_if. destruct (x =? c) eqn:E; [apply Nat.eqb_eq in E; subst x; congruence|auto].
  - eapply NB_now; [exact N|]. destruct C as [K PP D CC L HH U E]. destruct PP as (P1 & P2 & P3 & P4 & P5 & P6). destruct (L c W KP K2) as (ST & PC). destruct (CC ST) as (HT & (d & d1 & d2 & d3 & d4 & d5) & PR). assert (d = c) by congruence. subst d.
    assert (X : exists nn, ended (pr s) = p_setnonce nn (p_setlinks (p_chosen (pr s)) None None (p_setpre None (p_sethb false (p_ptok (pr s)) (p_pmok (pr s)) (p_setstate Disconnected (pr s))))) /\ nn = passive_nonce).
    { exists passive_nonce. split; [|reflexivity]. destruct PR as [PR|(n & d & PR & _)].
      - rewrite (ended_B _ P3 PR). unfold fell. rewrite ST. destruct (pr s); cbn in *; subst; reflexivity.
      - unfold ended, fell. rewrite PR, ST. destruct (pr s); cbn in *; subst; reflexivity. }
    destruct X as (nn & X & ->). rewrite X. constructor; cbn; try discriminate.
    + intros x WX. destruct (K x WX) as (k1 & k2 & k5 & k6). unfold tornk. rewrite upd_if. destruct (x =? c) eqn:EX; [apply Nat.eqb_eq in EX; subst x; cbn; auto 9|auto 9].
    + repeat (split; [assumption||reflexivity|]). discriminate.
    + intros _. split; [reflexivity|]. split; [reflexivity|]. exists c. split; [exact PC|]. unfold tornk. rewrite upd_c. (split; [reflexivity|lia]).
    + intros x WX KX TX. exfalso. unfold tornk in *. rewrite upd_if in KX, TX. destruct (x =? c) eqn:EX; [discriminate|]. destruct (L x WX KX TX) as (_ & PX). apply Nat.eqb_neq in EX. congruence.
    + unfold heart in *. cbn. tauto.
    + intros t T. apply in_app_or in T as [T|[<-|[]]]; [auto|]. unfold news. destruct PR as [->|(n & d & PR & NN & IN & WD)]; [eauto|]. rewrite PR, IN. right. exists 0, c, n, d. auto.
    + intros x y I. destruct (E _ _ (PE _ I)) as (E1 & E2). split; [exact E1|]. unfold tornk. rewrite upd_if. destruct (y =? c) eqn:EX; [apply Nat.eqb_eq in EX; subst y; exact E2|exact E2].
  - eapply NB_now; [exact N|]. destruct C as [K PP D CC L HH U E]. destruct PP as (P1 & P2 & P3 & P4 & P5 & P6). constructor; cbn; auto 9; try congruence.
    intros _. destruct (CC ST) as (c1 & c2 & c3). split; [exact c1|]. split; [exact c2|]. right. exists n, c. auto.
  - eapply NB_now; [exact N|]. destruct C as [K PP D CC L HH U E]. destruct PP as (P1 & P2 & P3 & P4 & P5 & P6). destruct (D ST) as (D1 & D2 & x0 & D3 & D4).
    assert (TC : k_torn (s_conn s c) = false). { destruct (k_torn (s_conn s c)) eqn:TT; [|reflexivity]. destruct (K c W) as (_ & _ & _ & X). rewrite (X TT) in KT. discriminate. }
    constructor; cbn.
    + intros x WX. destruct (K x WX) as (k1 & k2 & k5 & k6). destruct (shake_alike c (pr s) (s_conn s) x) as (h1 & h2 & h3 & h4 & h5 & h6 & h7). rewrite h1, h3, h5, h7. split; [exact k1|]. split; [exact k2|]. split; [|exact k6].
      unfold shake. rewrite peer_own, !peer_clr, P5. destruct (x =? c); [auto|]. destruct (oeq (p_conn (pr s)) (Some x)); cbn; auto.
    + repeat (split; [assumption||reflexivity|]). discriminate.
    + discriminate.
    + intros _. split; [discriminate|]. split; [|left; exact D1]. exists c. split; [reflexivity|]. split; [reflexivity|]. split; [exact W|]. destruct (shake_alike c (pr s) (s_conn s) c) as (h1 & h2 & h3 & h4 & h5 & h6 & h7). rewrite h7. split; [|exact TC]. unfold shake. rewrite peer_own, Nat.eqb_refl. reflexivity.
    + intros x WX KX TX. split; [reflexivity|]. destruct (shake_alike c (pr s) (s_conn s) x) as (h1 & h2 & h3 & h4 & h5 & h6 & h7). rewrite h7 in TX. unfold shake in KX. rewrite peer_own, !peer_clr, P5 in KX. destruct (x =? c) eqn:EX; [apply Nat.eqb_eq in EX; subst; reflexivity|]. destruct (oeq (p_conn (pr s)) (Some x)); [discriminate|]. cbn in KX. destruct (L x WX KX TX). congruence.
    + right. cbn. repeat split; discriminate.
    + intros t T. apply in_app_or in T as [T|[<-|[]]]; eauto.
    + intros x y I. destruct (E _ _ (PE _ I)) as (E1 & E2). split; [exact E1|]. destruct (shake_alike c (pr s) (s_conn s) y) as (h1 & h2 & _). congruence.
Qed.

(** ** What a step of a node does to the rest *)
Lemma mild_facts i s s' e : mild i s s' e ->
  s_nc s' = s_nc s /\ samep (pr s) (pr s') /\ (forall c, s_conn s' c = s_conn s c) /\ (hot s -> hot s') /\ s_pend s' = s_pend s /\
  (forall t, In t (s_q s') -> In t (s_q s) \/ harm t) /\ nodial e /\ (forall c, ~ In (OKill c) e) /\
  (forall c m, In m (msgs e c) -> m = MPing None /\ hot s \/ m = MPong None /\ exists d, In (TPing (Some d) 0%N 0%N) (s_q s)).
Proof.
  assert (SR : forall P, samep P P) by (intros; repeat split).
  intros [t HT [nb np nk nn nq nu ne]|t q Q HT [nb np nk nn nq nu ne]|c q Q [nb np nk nn nq nu ne]|P q e' Q HS B [nb np nk nn nq nu ne] HE|p c v u U [nb np nk nn nq nu ne]]; (split; [exact nn|]); unfold hot; rewrite np.
  - split; [apply SR|]. split; [exact nk|]. split; [auto|]. split; [exact ne|]. rewrite nq. split; [intros x X; apply in_app_or in X as [X|[<-|[]]]; auto|]. split; [intros ? []|]. split; [intros ? []|]. intros ? ? [].
  - split; [apply SR|]. split; [exact nk|]. split; [auto|]. split; [exact ne|]. rewrite nq, Q. split; [intros x X; left; right; exact X|]. split; [intros ? []|]. split; [intros ? []|]. intros ? ? [].
  - split; [apply SR|]. split; [exact nk|]. split; [auto|]. split; [exact ne|]. rewrite nq, Q. split; [intros x X; left; right; exact X|]. destruct (k_term (s_conn s c)); [split; [intros ? []|]; split; [intros ? []|]; intros ? ? []|].
    split; [intros ? [<-|[]]; exact I|]. split; [intros ? [X|[]]; discriminate|]. intros d m X. unfold msgs in X. cbn [flat_map] in X. rewrite app_nil_r in X. destruct (c =? d); [|destruct X]. destruct X as [<-|[]]. right. split; [reflexivity|]. exists c. left. reflexivity.
  - split; [apply beat_same; exact B|]. split; [exact nk|]. split; [intros _; eapply beat_tok; eauto|]. split; [exact ne|]. rewrite nq. split; [intros x X; left; destruct Q as [->|(c & ->)]; [exact X|right; exact X]|].
    destruct HE as [->|(c & ->)]; [split; [intros ? []|]; split; [intros ? []|]; intros ? ? []|]. split; [intros ? [<-|[]]; exact I|]. split; [intros ? [X|[]]; discriminate|]. intros d m X. unfold msgs in X. cbn [flat_map] in X. rewrite app_nil_r in X. destruct (c =? d); [|destruct X]. destruct X as [<-|[]]. left. auto.
  - split; [apply SR|]. split; [exact nk|]. split; [auto|]. split; [exact ne|]. rewrite nq. split; [auto|]. split; [intros ? []|]. split; [intros ? []|]. intros ? ? [].
Qed.

Lemma one_msg x d m : In m (msgs [x] d) -> match x with OPing c' h' => c' = d /\ m = MPing h' | OPong c' h' => c' = d /\ m = MPong h' | _ => False end.
Proof. unfold msgs. cbn [flat_map]. rewrite app_nil_r. destruct x; try intros []; destruct (Nat.eqb_spec c d); try intros []; subst; auto; contradiction. Qed.

Lemma odec (o : option nat) x : {o = Some x} + {o <> Some x}.
Proof. decide equality. apply Nat.eq_dec. Qed.

Lemma kl_in (o : option nat) c x : In x (match o with Some d => if d =? c then [] else [OKill d] | None => [] end) -> exists d, x = OKill d /\ o = Some d /\ d <> c.
Proof. destruct o as [d|]; [|intros []]. destruct (Nat.eqb_spec d c); [intros []|]. intros [<-|[]]. eauto. Qed.

Lemma stepA_facts z s s' e : (z < 0)%Z -> NA z s -> stepA s s' e ->
  s_nc s' = s_nc s /\ (hot s -> hot s') /\ (forall t, In t (s_q s') -> In t (s_q s) \/ harm t) /\ nodial e /\ (forall c, In (OKill c) e -> c < s_nc s) /\
  (forall c m, In m (msgs e c) -> m = MPing None /\ hot s' \/ m = MPong None /\ (exists d, In (TPing (Some d) 0%N 0%N) (s_q s)) \/ exists n, m = MPing (Some n) /\ non n) /\
  (p_state (pr s') = Connected -> p_state (pr s) = Connected /\ p_conn (pr s') = p_conn (pr s) \/ exists c, p_conn (pr s') = Some c /\ In (TPong c 2%N passive_nonce) (s_q s)) /\
  (forall c, within s c -> k_peer (s_conn s' c) = Some 0 -> k_torn (s_conn s' c) = false ->
     p_conn (pr s') = Some c \/ p_out (pr s') = Some c \/ k_term (s_conn s' c) = true \/ In (OKill c) e \/ (k_peer (s_conn s c) = Some 0 /\ k_torn (s_conn s c) = false /\ p_conn (pr s) <> Some c /\ p_out (pr s) <> Some c /\ k_term (s_conn s c) = false)).
Proof.
  intros Z0 H M. pose proof (NA_c _ _ H) as C. destruct M as [e M|c q Q T [nb np nk nn nq nu ne]|c n W K1 K2 NN [nb np nk nn nq nu ne]|c pe W K1 K2 KP [nb np nk nn nq nu ne]|c pe W K1 K2 KP [nb np nk nn nq nu ne]|c q n pe Q W KT ST NN [nb np nk nn nq nu ne]].
  - destruct (mild_facts _ _ _ _ M) as (f1 & f2 & f3 & f4 & _ & f5 & f6 & f7 & f8). destruct f2 as (e1 & e2 & e3 & e4 & e5 & e6 & e7 & e8 & e9 & e10 & e11 & e12 & e13 & e14). rewrite e5, e12, e14.
    split; [exact f1|]. split; [exact f4|]. split; [exact f5|]. split; [exact f6|]. split; [intros x X; destruct (f7 x X)|]. split; [intros x m X; destruct (f8 x m X) as [(X1 & X2)|X1]; auto|]. split; [auto|].
    intros x WX. rewrite f3. intros X1 X2. destruct (odec (p_conn (pr s)) x); [auto|]. destruct (odec (p_out (pr s)) x); [auto|]. destruct (k_term (s_conn s x)) eqn:KT; [auto|]. repeat right. auto.
  - unfold hot. rewrite np, nq, Q. split; [exact nn|]. split; [auto|]. split; [intros x X; left; right; exact X|]. split; [intros ? []|]. split; [intros ? []|]. split; [intros ? ? []|]. split; [auto|].
    intros x WX. rewrite nk. intros X1 X2. destruct (odec (p_conn (pr s)) x); [auto|]. destruct (odec (p_out (pr s)) x); [auto|]. destruct (k_term (s_conn s x)) eqn:KT; [auto|]. repeat right. auto.
  - unfold hot. rewrite np, nq. cbn -[setk msgs]. split; [exact nn|]. split; [auto|]. split; [auto|]. split; [intros ? [<-|[]]; exact I|]. split; [intros ? [X|[]]; discriminate|].
    split; [intros x m X; apply one_msg in X as (_ & ->); right; right; eauto|]. split; [auto|].
    intros x WX. rewrite nk. destruct (flag_conn (s_conn s) c (k_term (s_conn s c)) true (k_torn (s_conn s c)) x ltac:(auto)) as (_ & _ & F). cbn zeta in F. fold (setk (s_conn s) c) in F. rewrite F.
    assert (X : k_torn (setk (s_conn s) c x) = k_torn (s_conn s x) /\ k_term (setk (s_conn s) c x) = k_term (s_conn s x)) by (unfold setk; rewrite upd_if; destruct (x =? c) eqn:E; [apply Nat.eqb_eq in E; subst; auto|auto]). destruct X as (-> & ->).
    intros X1 X2. destruct (odec (p_conn (pr s)) x); [auto|]. destruct (odec (p_out (pr s)) x); [auto|]. destruct (k_term (s_conn s x)) eqn:KT; [auto|]. repeat right. auto.
  - unfold hot. rewrite np, nq. split; [exact nn|]. split; [auto|]. split; [auto|]. split; [intros ? []|]. split; [intros ? []|]. split; [intros ? ? []|]. split; [auto|].
    intros x WX. rewrite nk. unfold tornk. rewrite upd_if. destruct (x =? c) eqn:E; [discriminate|].
    intros X1 X2. destruct (odec (p_conn (pr s)) x); [auto|]. destruct (odec (p_out (pr s)) x); [auto|]. destruct (k_term (s_conn s x)) eqn:KT; [auto|]. repeat right. auto.
  - unfold hot. rewrite np, nq. destruct C as [K PP O D CC HH U]. destruct PP as (P1 & P2 & P3 & P4 & P5 & P6 & P7 & P8 & P9 & P10).
    rewrite (ended_A _ z P8 P5 Z0). unfold fell. split; [exact nn|]. split; [destruct (p_state (pr s)); auto|]. split; [auto|]. split; [intros ? []|]. split; [intros ? []|]. split; [intros ? ? []|].
    split; [destruct (p_state (pr s)) eqn:S; cbn; congruence|].
    intros x WX. rewrite nk. unfold tornk. rewrite upd_if. destruct (x =? c) eqn:E; [discriminate|].
    intros X1 X2. destruct (odec (p_conn (pr s)) x) as [X|X]; [left; destruct (p_state (pr s)); exact X|]. destruct (odec (p_out (pr s)) x) as [Y|Y].
    + destruct (p_state (pr s)) eqn:S; [right; left; exact Y| |congruence]. destruct (CC eq_refl) as (_ & Y2 & _). congruence.
    + destruct (k_term (s_conn s x)) eqn:KT; [auto|]. repeat right. auto.
  - destruct C as [K PP O D CC HH U]. assert (AL : alike (s_conn s c) (s_conn s c)) by apply alike_refl.
    unfold hot. rewrite np, nq, Q. cbn -[own clr msgs]. split; [exact nn|]. split; [discriminate|]. split; [intros x X; left; right; exact X|].
    split; [intros x X; apply in_app_or in X as [X|[<-|[]]]; [|exact I]; apply kl_in in X as (d & -> & _); exact I|].
    split; [intros x X; apply in_app_or in X as [X|[X|[]]]; [|discriminate]; apply kl_in in X as (d & X & Y & _); injection X as ->; apply (O d Y)|].
    split. { intros x m X. rewrite msgs_app in X. apply in_app_or in X as [X|X]; [destruct (p_out (pr s)) as [d|]; [destruct (d =? c)|]; destruct X|]. apply one_msg in X as (_ & ->). left. split; [reflexivity|discriminate]. }
    split; [right; exists c; split; [reflexivity|left; reflexivity]|].
    intros x WX. rewrite nk, peer_own, !peer_clr.
    assert (A := own_alike c (clr (p_conn (pr s)) (clr (Some c) (s_conn s))) x). assert (A2 := clr_alike (p_conn (pr s)) (clr (Some c) (s_conn s)) x). assert (A3 := clr_alike (Some c) (s_conn s) x).
    destruct (alike_trans _ _ _ A3 (alike_trans _ _ _ A2 A)) as (h1 & h2 & h3 & h4 & h5 & h6 & h7). rewrite h5, h7.
    destruct (x =? c) eqn:E; [apply Nat.eqb_eq in E; subst; auto|]. intros X1 X2. destruct (oeq (p_conn (pr s)) (Some x)) eqn:OE; [discriminate|]. destruct (oeq (Some c) (Some x)); [discriminate|].
    destruct (k_term (s_conn s x)) eqn:KX; [auto|]. destruct (odec (p_out (pr s)) x) as [Y|Y].
    + right; right; right; left. rewrite Y, E. left. reflexivity.
    + repeat right. split; [exact X1|]. split; [exact X2|]. split; [|auto]. intros Y2. rewrite Y2 in OE. cbn in OE. rewrite Nat.eqb_refl in OE. discriminate.
Qed.

Lemma tornk_x k c x : k_addr (tornk k c x) = k_addr (k x) /\ k_peer (tornk k c x) = k_peer (k x) /\ (k_torn (k x) = true -> k_torn (tornk k c x) = true) /\ (k_term (k x) = true -> k_term (tornk k c x) = true).
Proof. unfold tornk. rewrite upd_if. destruct (x =? c) eqn:E; [apply Nat.eqb_eq in E; subst; auto|auto]. Qed.
Lemma setk_x k c x : k_addr (setk k c x) = k_addr (k x) /\ k_peer (setk k c x) = k_peer (k x) /\ k_torn (setk k c x) = k_torn (k x) /\ k_term (setk k c x) = k_term (k x).
Proof. unfold setk. rewrite upd_if. destruct (x =? c) eqn:E; [apply Nat.eqb_eq in E; subst; auto|auto]. Qed.
Lemma termk_x k c x : k_addr (termk k c x) = k_addr (k x) /\ k_peer (termk k c x) = k_peer (k x) /\ k_torn (termk k c x) = k_torn (k x) /\ (k_term (k x) = true -> k_term (termk k c x) = true).
Proof. unfold termk. rewrite upd_if. destruct (x =? c) eqn:E; [apply Nat.eqb_eq in E; subst; auto|auto]. Qed.

Lemma stepB_facts s s' e : NB s -> stepB s s' e ->
  s_nc s' = s_nc s /\ (hot s -> hot s') /\ (forall t, In t (s_q s') -> In t (s_q s) \/ harm t \/ exists d n, t = TPing (Some d) 1%N n /\ non n /\ within s d) /\ nodial e /\ (forall c, In (OKill c) e -> c < s_nc s) /\
  (forall c m, In m (msgs e c) -> m = MPing None /\ hot s' \/ m = MPong None /\ (exists d, In (TPing (Some d) 0%N 0%N) (s_q s)) \/ m = MPong (Some passive_nonce) /\ linked s' c) /\
  (forall d, linked s d -> linked s' d) /\ (forall d, k_addr (s_conn s' d) = k_addr (s_conn s d)) /\
  (forall d, p_pre (pr s') <> None -> p_conn (pr s') = Some d -> In (OKill d) e \/ p_pre (pr s) <> None /\ p_conn (pr s) = Some d /\ (k_term (s_conn s d) = true -> k_term (s_conn s' d) = true)).
Proof.
  intros H M. pose proof (NB_c _ H) as C. unfold linked. destruct M as [e M|c n q Q T [nb np nk nn nq nu ne]|p c n d u U [nb np nk nn nq nu ne]|c pe W K1 K2 [nb np nk nn nq nu ne] PE|c pe W K1 K2 KP [nb np nk nn nq nu ne] PE|c pe W K1 K2 KP [nb np nk nn nq nu ne] PE|c n q d Q W NN KT ST PC [nb np nk nn nq nu ne]|c n q pe Q W KT ST [nb np nk nn nq nu ne] PE].
  - destruct (mild_facts _ _ _ _ M) as (f1 & f2 & f3 & f4 & _ & f5 & f6 & f7 & f8). destruct f2 as (e1 & e2 & e3 & e4 & e5 & e6 & e7 & e8 & e9 & e10 & e11 & e12 & e13 & e14). rewrite e5, e13.
    split; [exact f1|]. split; [exact f4|]. split; [intros t T; destruct (f5 t T); auto|]. split; [exact f6|]. split; [intros x X; destruct (f7 x X)|]. split; [intros x m X; destruct (f8 x m X) as [(X1 & X2)|X1]; auto|].
    split; [intros d; rewrite f3; auto|]. split; [intros d; rewrite f3; reflexivity|]. intros d X1 X2. right. rewrite f3. auto.
  - unfold hot. rewrite np, nq, Q. split; [exact nn|]. split; [auto|]. split; [intros x X; left; right; exact X|]. split; [intros ? []|]. split; [intros ? []|]. split; [intros ? ? []|]. split; [intros d; rewrite nk; auto|]. split; [intros d; rewrite nk; reflexivity|]. intros d X1 X2. right. rewrite nk. auto.
  - unfold hot. rewrite np, nq. split; [exact nn|]. split; [auto|]. split. { intros x X. apply in_app_or in X as [X|[<-|[]]]; [auto|]. right; right. exists d, n. destruct (bc_u _ _ _ _ _ C (UPre p c 1%N n (Some d))) as [(? & ? & ? & X)|(? & ? & ? & ? & X & Y)]; [rewrite U; left; reflexivity|discriminate|]. injection X as -> -> -> ->. auto. }
    split; [intros ? []|]. split; [intros ? []|]. split; [intros ? ? []|]. split; [intros x; rewrite nk; auto|]. split; [intros x; rewrite nk; reflexivity|]. intros x X1 X2. right. rewrite nk. auto.
  - unfold hot. rewrite np, nq. split; [exact nn|]. split; [auto|]. split; [auto|]. split; [intros ? []|]. split; [intros ? []|]. split; [intros ? ? []|].
    split; [intros x; rewrite nk; destruct (setk_x (s_conn s) c x) as (x1 & x2 & x3 & x4); rewrite x2, x3; auto|]. split; [intros x; rewrite nk; apply setk_x|]. intros x X1 X2. right. rewrite nk. destruct (setk_x (s_conn s) c x) as (x1 & x2 & x3 & x4). rewrite x4. auto.
  - unfold hot. rewrite np, nq. split; [exact nn|]. split; [auto|]. split; [auto|]. split; [intros ? []|]. split; [intros ? []|]. split; [intros ? ? []|].
    split; [intros x; rewrite nk; destruct (tornk_x (s_conn s) c x) as (x1 & x2 & x3 & x4); rewrite x2; intuition auto|]. split; [intros x; rewrite nk; apply tornk_x|]. intros x X1 X2. right. rewrite nk. destruct (tornk_x (s_conn s) c x) as (x1 & x2 & x3 & x4). auto.
  - unfold hot. rewrite np, nq. split; [exact nn|]. assert (EN : p_ptok (ended (pr s)) = p_ptok (pr s) /\ p_pre (ended (pr s)) = None).
    { unfold ended, fell. destruct (p_state (pr s)), (p_pre (pr s)) eqn:E, (p_cur (pr s) =? 0)%Z; cbn; auto. }
    destruct EN as (E1 & E2). rewrite E1, E2. split; [auto|]. split; [auto|]. split; [intros ? []|]. split; [intros ? []|]. split; [intros ? ? []|].
    split; [intros x; rewrite nk; destruct (tornk_x (s_conn s) c x) as (x1 & x2 & x3 & x4); rewrite x2; intuition auto|]. split; [intros x; rewrite nk; apply tornk_x|]. intros x X1. contradiction.
  - unfold hot. rewrite np, nq, Q. cbn. split; [exact nn|]. split; [auto|]. split; [auto|]. split; [intros ? [<-|[]]; exact I|]. split; [intros x [X|[]]; injection X as <-; destruct (bc_c _ _ _ _ _ C ST) as (_ & (y & y1 & _ & y2 & _) & _); assert (y = d) by congruence; subst; apply y2|].
    split; [intros ? ? []|]. split; [intros x; rewrite nk; auto|]. split; [intros x; rewrite nk; reflexivity|]. intros x X1 X2. left. left. congruence.
  - unfold hot. rewrite np, nq, Q. cbn -[msgs shake]. split; [exact nn|]. split; [discriminate|]. split; [auto|]. split; [intros ? [<-|[<-|[]]]; exact I|]. split; [intros ? [X|[X|[]]]; discriminate|].
    assert (LC : k_peer (shake c (pr s) (s_conn s) c) = Some 0) by (unfold shake; rewrite peer_own, Nat.eqb_refl; reflexivity).
    split. { intros x m X. change [OPong c (Some passive_nonce); OPing c None] with ([OPong c (Some passive_nonce)] ++ [OPing c None]) in X. rewrite msgs_app in X. apply in_app_or in X as [X|X]; apply one_msg in X as (<- & ->); [|left; split; [reflexivity|discriminate]]. right; right. split; [reflexivity|]. rewrite nk. auto. }
    destruct (bc_d _ _ _ _ _ C ST) as (D1 & D2 & x0 & D3 & D4 & D5). destruct (bc_p _ _ _ _ _ C) as (_ & _ & _ & _ & P5 & _).
    split; [intros x; rewrite nk|split].
    + destruct (shake_alike c (pr s) (s_conn s) x) as (h1 & h2 & h3 & h4 & h5 & h6 & h7). rewrite h7. unfold shake. rewrite peer_own, !peer_clr, P5. destruct (x =? c); [auto|]. destruct (oeq (p_conn (pr s)) (Some x)) eqn:OE; [|cbn; auto]. rewrite D3 in OE. cbn in OE. apply Nat.eqb_eq in OE. subst. auto.
    + intros x. rewrite nk. apply shake_alike.
    + intros x X1. rewrite D1 in X1. contradiction.
Qed.

(** ** The two together *)
Definition keeps (L L' : list link) : Prop := forall l, In l L -> exists l', In l' L' /\ l_c l' = l_c l /\ (forall d, l_d l = Some d -> l_d l' = Some d).
Lemma spoke_mono L L' b b' c : keeps L L' -> (forall d, linked b d -> linked b' d) -> spoke L b c -> spoke L' b' c.
Proof. intros K M (l & IL & LC & d & LD & LK). destruct (K l IL) as (l' & IL' & LC' & LD'). exists l'. split; [exact IL'|]. split; [congruence|]. exists d. split; [apply LD'; exact LD|apply M; exact LK]. Qed.
Lemma heard_mono b b' l l' : (forall d, l_d l = Some d -> l_d l' = Some d) -> (forall d, linked b d -> linked b' d) -> heard b l -> heard b' l'.
Proof. intros K M (d & LD & LK). exists d. auto. Qed.
Lemma okqa_mono a a' b b' L L' t : s_nc a <= s_nc a' -> (hot a -> hot a') -> (hot b -> hot b') -> keeps L L' -> (forall d, linked b d -> linked b' d) -> okqa a b L t -> okqa a' b' L' t.
Proof. intros NC HA HB K M [H|(c & W & H)]; [left; exact H|]. right. exists c. split; [unfold within in *; lia|]. destruct H as [(H1 & H2)|[(H1 & H2)|(H1 & H2)]]; auto. right; right. split; [exact H1|]. eapply spoke_mono; eauto. Qed.
Lemma okqb_mono a a' b b' t : s_nc b <= s_nc b' -> (hot a -> hot a') -> (hot b -> hot b') -> okqb a b t -> okqb a' b' t.
Proof. intros NC HA HB [H|(c & W & H)]; [left; exact H|]. right. exists c. split; [unfold within in *; lia|]. destruct H as [(H1 & H2)|[(H1 & H2)|H1]]; auto. Qed.
Lemma okf_mono (ha ha' hb hb' : Prop) m : (ha -> ha') -> (hb -> hb') -> okf ha hb m -> okf ha' hb' m.
Proof. destruct m as [[n|]|[n|]]; cbn; auto. Qed.
Lemma okb_mono (ha ha' hb hb' lk lk' : Prop) m : (ha -> ha') -> (hb -> hb') -> (lk -> lk') -> okb ha hb lk m -> okb ha' hb' lk' m.
Proof. destruct m as [[n|]|[n|]]; cbn; auto. intros ? ? ? (? & ?). auto. Qed.
(** A link as before but for more or fewer messages. *)
Lemma okl_mono a a' b b' i l l' : s_nc b <= s_nc b' -> (hot a -> hot a') -> (hot b -> hot b') -> (forall d, linked b d -> linked b' d) -> (forall d, within b d -> k_addr (s_conn b' d) = k_addr (s_conn b d)) ->
  okl a b i l -> l_by l' = l_by l -> l_c l' = l_c l -> l_d l' = l_d l -> (forall m, In m (l_fwd l') -> In m (l_fwd l) \/ okf (hot a') (hot b') m) -> (forall m, In m (l_bwd l') -> In m (l_bwd l) \/ okb (hot a') (hot b') (heard b' l') m) -> okl a' b' i l'.
Proof.
  intros NC HA HB M AD (O1 & O2 & O3 & O4 & O5) E1 E2 E3 F B. split; [congruence|]. split; [congruence|]. split; [|split].
  - intros d LD. rewrite E3 in LD. destruct (O3 d LD) as (W & A). split; [unfold within in *; lia|]. rewrite AD; auto.
  - intros m IM. destruct (F m IM) as [X|X]; [|exact X]. eapply okf_mono; [| |apply O4; exact X]; auto.
  - intros m IM. destruct (B m IM) as [X|X]; [|exact X]. eapply okb_mono; [| | |apply O5; exact X]; auto. apply heard_mono; [congruence|exact M].
Qed.
Lemma keeps_map f L : (forall l, l_c (f l) = l_c l /\ l_d (f l) = l_d l) -> keeps L (map f L).
Proof. intros H l IL. exists (f l). split; [apply in_map; exact IL|]. destruct (H l) as (H1 & H2). split; [exact H1|]. congruence. Qed.
Lemma keeps_refl L : keeps L L.
Proof. intros l IL. exists l. auto. Qed.
Lemma keeps_app L m : keeps L (L ++ m).
Proof. intros l IL. exists l. split; [apply in_or_app; auto|auto]. Qed.
Lemma addm_cd n e l : l_c (addm n e l) = l_c l /\ l_d (addm n e l) = l_d l.
Proof. destruct n; split; reflexivity. Qed.
Lemma keeps_set i (l l' : link) L : nth_error L i = Some l -> l_c l' = l_c l -> (forall d, l_d l = Some d -> l_d l' = Some d) -> keeps L (set_nth i l' L).
Proof.
  intros N C D x IX. unfold set_nth. rewrite <- (firstn_skipn i L) in IX. apply in_app_or in IX as [IX|IX].
  - exists x. split; [apply in_or_app; left; exact IX|auto].
  - assert (S : skipn i L = l :: skipn (S i) L). { clear -N. revert L N. induction i as [|i IH]; intros [|h L] N; try discriminate; [injection N as ->; reflexivity|]. cbn. apply IH. exact N. }
    rewrite S in IX. destruct IX as [<-|IX]; [exists l'; split; [apply in_or_app; right; left; reflexivity|auto]|exists x; split; [apply in_or_app; right; right; exact IX|auto]].
Qed.
Lemma set_nth_length i (l l' : link) L : nth_error L i = Some l -> length (set_nth i l' L) = length L.
Proof. revert L. induction i as [|i IH]; intros [|h L] N; try discriminate; [reflexivity|]. cbn. f_equal. apply IH. exact N. Qed.
Lemma nth_set i (l' : link) L j x : nth_error (set_nth i l' L) j = Some x -> i < length L -> j = i /\ x = l' \/ j <> i /\ nth_error L j = Some x.
Proof.
  revert L j. induction i as [|i IH]; intros [|h L] j H LT; cbn in LT; try lia.
  - destruct j as [|j]; cbn in H; [injection H as <-; auto|right; split; [lia|exact H]].
  - destruct j as [|j]; cbn in H; [right; split; [lia|exact H]|]. destruct (IH L j H) as [(-> & ->)|(N & X)]; [lia|auto|right; split; [lia|exact X]].
Qed.

Section Pres.
Variable z : Z.
Variable y : sys.
Hypothesis Z0 : (z < 0)%Z.
Hypothesis IV : INV z y.

Lemma by_false l : In l (y_l y) -> l_by l = false.
Proof. intros IL. apply In_nth_error in IL as (i & NI). apply (i_l _ _ IV i l NI). Qed.

Lemma inv_A a e : stepA (y_a y) a e -> INV z (mkSys a (y_b y) (outl false e (y_l y)) (outk false e (y_kill y))).
Proof.
  intros S. destruct (stepA_facts z _ _ _ Z0 (i_a _ _ IV) S) as (f1 & f2 & f3 & f4 & f5 & f6 & f7 & f8). pose proof (NA_step z _ _ _ Z0 (i_a _ _ IV) S) as N'. destruct IV as [ia ib iN il id_ iqa iqb ic io ip ik].
  rewrite (outl_map false e (y_l y) f4) by (intros; apply by_false; assumption).
  assert (KP : keeps (y_l y) (map (addm false e) (y_l y))) by (apply keeps_map; intros; apply addm_cd).
  constructor; cbn [y_a y_b y_l y_kill]; auto.
  - rewrite map_length, f1. exact iN.
  - intros i l NI. rewrite nth_error_map in NI. destruct (nth_error (y_l y) i) as [l0|] eqn:N0; [|discriminate]. injection NI as <-.
    eapply (okl_mono (y_a y) _ (y_b y)); [reflexivity|exact f2| | | |apply il; exact N0|reflexivity..| |]; auto.
    intros m IM. cbn in IM. apply in_app_or in IM as [IM|IM]; [left; exact IM|right]. destruct (f6 _ _ IM) as [(-> & X)|[(-> & d & X)|(n & -> & X)]]; cbn; auto.
    destruct (iqa _ X) as [[]|(c & _ & [(_ & Y)|[(Y & _)|(Y & _)]])]; [exact Y|discriminate|discriminate].
  - intros d W. destruct (id_ d W) as (l & IL & LD). exists (addm false e l). split; [apply in_map; exact IL|exact LD].
  - intros t T. destruct (f3 t T) as [X|X]; [|left; exact X]. eapply (okqa_mono (y_a y) _ (y_b y)); [rewrite f1; reflexivity|exact f2| |exact KP| |apply iqa; exact X]; auto.
  - intros t T. eapply (okqb_mono (y_a y) _ (y_b y)); [reflexivity|exact f2| |apply iqb; exact T]; auto.
  - intros C c PC. destruct (f7 C) as [(X & Y)|(d & X & Y)].
    + eapply spoke_mono; [exact KP| |apply ic; [exact X|congruence]]; auto.
    + assert (d = c) by congruence. subst d. destruct (iqa _ Y) as [[]|(d & _ & [(V & _)|[(V & _)|(V & W)]])]; try discriminate. injection V as ->. eapply spoke_mono; [exact KP| |exact W]; auto.
  - intros c W KQ KT. unfold within in W. rewrite f1 in W. destruct (f8 c W KQ KT) as [X|[X|[X|[X|(x1 & x2 & x3 & x4 & x5)]]]]; auto.
    + right; right; right. apply outk_in. right. eauto.
    + destruct (io c W x1 x2) as [X|[X|[X|X]]]; [contradiction|contradiction|congruence|]. right; right; right. apply outk_in. left. exact X.
  - intros d X1 X2. destruct (ip d X1 X2) as [X|X]; [auto|right]. apply outk_in. left. exact X.
  - intros n c X. apply outk_in in X as [X|(d & X & X2)].
    + specialize (ik n c X). destruct n; cbn in *; lia.
    + injection X as -> ->. cbn. rewrite f1. apply f5. exact X2.
Qed.

Lemma inv_B b e : stepB (y_b y) b e -> INV z (mkSys (y_a y) b (outl true e (y_l y)) (outk true e (y_kill y))).
Proof.
  intros S. destruct (stepB_facts _ _ _ (i_b _ _ IV) S) as (f1 & f2 & f3 & f4 & f5 & f6 & f7 & f8 & f9). pose proof (NB_step _ _ _ (i_b _ _ IV) S) as N'. destruct IV as [ia ib iN il id_ iqa iqb ic io ip ik].
  rewrite (outl_map true e (y_l y) f4) by (intros; apply by_false; assumption).
  assert (KP : keeps (y_l y) (map (addm true e) (y_l y))) by (apply keeps_map; intros; apply addm_cd).
  constructor; cbn [y_a y_b y_l y_kill]; auto.
  - rewrite map_length. exact iN.
  - intros i l NI. rewrite nth_error_map in NI. destruct (nth_error (y_l y) i) as [l0|] eqn:N0; [|discriminate]. injection NI as <-.
    eapply (okl_mono (y_a y) _ (y_b y)); [rewrite f1; reflexivity| |exact f2|exact f7| |apply il; exact N0|reflexivity..| |]; auto.
    intros m IM. cbn in IM. apply in_app_or in IM as [IM|IM]; [left; exact IM|right]. destruct (l_d l0) as [d0|] eqn:LD; [|destruct IM]. destruct (f6 _ _ IM) as [(-> & X)|[(-> & d & X)|(-> & X)]]; cbn; auto.
    + destruct (iqb _ X) as [[]|(c & _ & [(_ & Y)|[(Y & _)|(n & Y & _)]])]; [exact Y|discriminate|discriminate].
    + split; [reflexivity|]. exists d0. auto.
  - intros d W. unfold within in W. rewrite f1 in W. destruct (id_ d W) as (l & IL & LD). exists (addm true e l). split; [apply in_map; exact IL|exact LD].
  - intros t T. eapply (okqa_mono (y_a y) _ (y_b y)); [reflexivity| |exact f2|exact KP|exact f7|apply iqa; exact T]; auto.
  - intros t T. destruct (f3 t T) as [X|[X|(d & n & -> & X & X2)]]; [|left; exact X|].
    + eapply (okqb_mono (y_a y) _ (y_b y)); [rewrite f1; reflexivity| |exact f2|apply iqb; exact X]; auto.
    + right. exists d. split; [unfold within in *; lia|]. right; right. eauto.
  - intros C c PC. eapply spoke_mono; [exact KP|exact f7|apply ic; auto].
  - intros c W KQ KT. destruct (io c W KQ KT) as [X|[X|[X|X]]]; auto. right; right; right. apply outk_in. left. exact X.
  - intros d X1 X2. destruct (f9 d X1 X2) as [X|(x1 & x2 & x3)]; [right; apply outk_in; right; eauto|]. destruct (ip d x1 x2) as [X|X]; [auto|right]. apply outk_in. left. exact X.
  - intros n c X. apply outk_in in X as [X|(d & X & X2)].
    + specialize (ik n c X). destruct n; cbn in *; lia.
    + injection X as -> ->. cbn. rewrite f1. apply f5. exact X2.
Qed.

Lemma inv_termA a c : within (y_a y) c -> now 2%N a (pr (y_a y)) (termk (s_conn (y_a y)) c) (s_nc (y_a y)) (s_q (y_a y)) (s_uq (y_a y)) (s_pend (y_a y)) -> INV z (mkSys a (y_b y) (y_l y) (y_kill y)).
Proof.
  intros W N. pose proof N as [nb np nk nn nq nu ne]. destruct IV as [ia ib iN il id_ iqa iqb ic io ip ik].
  assert (HA : hot (y_a y) -> hot a) by (unfold hot; rewrite np; auto).
  constructor; cbn [y_a y_b y_l y_kill]; auto.
  - eapply NA_now; [exact N|]. eapply NAc_conn; [apply NA_c; exact ia| |].
    + intros x. apply flag_conn. left. reflexivity.
    + intros _ x _. destruct (termk_x (s_conn (y_a y)) c x) as (_ & _ & -> & _). auto.
  - congruence.
  - intros i l NI. eapply (okl_mono (y_a y) _ (y_b y)); [reflexivity|exact HA| | | |apply il; exact NI|reflexivity..| |]; auto.
  - intros t T. rewrite nq in T. eapply (okqa_mono (y_a y) _ (y_b y)); [rewrite nn; reflexivity|exact HA| |apply keeps_refl| |apply iqa; exact T]; auto.
  - intros t T. eapply (okqb_mono (y_a y) _ (y_b y)); [reflexivity|exact HA| |apply iqb; exact T]; auto.
  - rewrite np. exact ic.
  - intros x WX. rewrite np, nk. destruct (termk_x (s_conn (y_a y)) c x) as (x1 & x2 & x3 & x4). rewrite x2, x3. intros X1 X2. unfold within in WX. rewrite nn in WX. destruct (io x WX X1 X2) as [X|[X|[X|X]]]; auto.
  - intros n x X. specialize (ik n x X). destruct n; cbn in *; lia.
Qed.
Lemma inv_termB b c : within (y_b y) c -> now 1%N b (pr (y_b y)) (termk (s_conn (y_b y)) c) (s_nc (y_b y)) (s_q (y_b y)) (s_uq (y_b y)) (s_pend (y_b y)) -> INV z (mkSys (y_a y) b (y_l y) (y_kill y)).
Proof.
  intros W N. pose proof N as [nb np nk nn nq nu ne]. destruct IV as [ia ib iN il id_ iqa iqb ic io ip ik].
  assert (HB : hot (y_b y) -> hot b) by (unfold hot; rewrite np; auto).
  assert (LK : forall d, linked (y_b y) d -> linked b d). { intros d. unfold linked. rewrite nk. destruct (termk_x (s_conn (y_b y)) c d) as (_ & -> & -> & _). auto. }
  constructor; cbn [y_a y_b y_l y_kill]; auto.
  - eapply NB_now; [exact N|]. eapply NBc_conn; [apply NB_c; exact ib| | |].
    + intros x. apply flag_conn. left. reflexivity.
    + intros x. destruct (termk_x (s_conn (y_b y)) c x) as (_ & _ & -> & _). auto.
    + intros x _. destruct (termk_x (s_conn (y_b y)) c x) as (_ & _ & -> & _). auto.
  - intros i l NI. eapply (okl_mono (y_a y) _ (y_b y)); [rewrite nn; reflexivity| |exact HB|exact LK| |apply il; exact NI|reflexivity..| |]; auto. intros d _. rewrite nk. apply termk_x.
  - intros d WD. unfold within in WD. rewrite nn in WD. auto.
  - intros t T. eapply (okqa_mono (y_a y) _ (y_b y)); [reflexivity| |exact HB|apply keeps_refl|exact LK|apply iqa; exact T]; auto.
  - intros t T. rewrite nq in T. eapply (okqb_mono (y_a y) _ (y_b y)); [rewrite nn; reflexivity| |exact HB|apply iqb; exact T]; auto.
  - intros C x PC. eapply spoke_mono; [apply keeps_refl|exact LK|auto].
  - intros d. rewrite np, nk. intros X1 X2. destruct (ip d X1 X2) as [X|X]; [left|auto]. apply termk_x. exact X.
  - intros n x X. specialize (ik n x X). destruct n; cbn in *; lia.
Qed.

Lemma inv_accept i l b : nth_error (y_l y) i = Some l -> l_d l = None -> k_term (s_conn (y_a y) (l_c l)) = false ->
    now 1%N b (pr (y_b y)) (upd (s_conn (y_b y)) (s_nc (y_b y)) (mkConn Passive (100 + N.of_nat i)%N None true None false false false)) (S (s_nc (y_b y))) (s_q (y_b y)) (s_uq (y_b y)) (s_pend (y_b y)) ->
    INV z (mkSys (y_a y) b (set_nth i (mkLink false (l_c l) (Some (s_nc (y_b y))) (l_fwd l) (l_bwd l)) (y_l y)) (y_kill y)).
Proof.
  intros NI LD KT N. pose proof N as [nb np nk nn nq nu ne]. destruct IV as [ia ib iN il id_ iqa iqb ic io ip ik]. set (m := s_nc (y_b y)) in *.
  assert (LT : i < length (y_l y)) by (apply nth_error_Some; congruence).
  assert (B1 : 1 <= m) by (unfold m; apply (z_nc _ _ (b_b _ ib))).
  assert (HB : hot (y_b y) -> hot b) by (unfold hot; rewrite np; auto).
  assert (SM : forall d, d < m -> s_conn b d = s_conn (y_b y) d) by (intros d D; rewrite nk; apply upd_n; lia).
  destruct (il i l NI) as (O1 & O2 & O3 & O4 & O5).
  assert (LK : forall l d, In l (y_l y) -> l_d l = Some d -> d < m). { intros x d IX XD. apply In_nth_error in IX as (j & NJ). destruct (il j x NJ) as (_ & _ & X & _). destruct (X d XD) as (WD & _). apply WD. }
  assert (HE : forall x, In x (y_l y) -> heard (y_b y) x -> forall x', (forall d, l_d x = Some d -> l_d x' = Some d) -> heard b x'). { intros x IX (d & XD & XL) x' KX. exists d. split; [auto|]. unfold linked in *. rewrite SM; [exact XL|eauto]. }
  assert (KP : keeps (y_l y) (set_nth i (mkLink false (l_c l) (Some m) (l_fwd l) (l_bwd l)) (y_l y))) by (eapply keeps_set; [exact NI|reflexivity|intros ? ?; cbn; congruence]).
  assert (SP : forall c, spoke (y_l y) (y_b y) c -> spoke (set_nth i (mkLink false (l_c l) (Some m) (l_fwd l) (l_bwd l)) (y_l y)) b c). { intros c (x & IX & XC & XH). destruct (KP x IX) as (x' & IX' & XC' & XD'). exists x'. split; [exact IX'|]. split; [congruence|]. eapply HE; eauto. }
  constructor; cbn [y_a y_b y_l y_kill]; auto.
  - eapply NB_now; [exact N|]. pose proof (NB_c _ ib) as [K PP D C L H U E]. fold m in K, D, C, L, U, E.
    constructor; auto.
    + intros c W. rewrite upd_if. destruct (c =? m) eqn:EQ; [cbn; auto 9|]. apply K. apply Nat.eqb_neq in EQ. lia.
    + intros DD. destruct (D DD) as (d1 & d2 & x & d3 & d4 & d5). split; [exact d1|]. split; [exact d2|]. exists x. split; [exact d3|]. split; [rewrite upd_n by lia; exact d4|lia].
    + intros CC. destruct (C CC) as (c1 & (d & c2 & c3 & c4 & c5 & c6) & c7). split; [exact c1|]. split.
      * exists d. rewrite upd_n by lia. auto 9 with arith.
        repeat split; auto; lia.
      * destruct c7 as [X|(n & d' & X1 & X2 & X3 & X4)]; [left; exact X|]. right. exists n, d'. split; [exact X1|]. split; [exact X2|]. split; [exact X3|lia].
    + intros d W. rewrite upd_if. destruct (d =? m) eqn:EQ; [discriminate|]. apply L. apply Nat.eqb_neq in EQ. lia.
    + intros t T. destruct (U t T) as [X|(p & c & n & d & X1 & X2 & X3)]; [left; exact X|]. right. exists p, c, n, d. split; [exact X1|]. split; [exact X2|lia].
    + intros a d AD. destruct (E a d AD) as (E1 & E2). split; [lia|]. rewrite upd_n by lia. exact E2.
  - rewrite (set_nth_length i l) by exact NI. exact iN.
  - intros j x NJ. destruct (nth_set _ _ _ _ _ NJ LT) as [(-> & ->)|(NE & NX)].
    + split; [reflexivity|]. split; [exact O2|]. split; [|split].
      * cbn. intros d [= <-]. split; [unfold within; rewrite nn; lia|]. rewrite nk, upd_if, Nat.eqb_refl. reflexivity.
      * cbn. intros w IM. eapply okf_mono; [| |apply O4; exact IM]; auto.
      * cbn. intros w IM. eapply okb_mono; [| | |apply O5; exact IM]; auto. intros (d & X & _). congruence.
    + destruct (il j x NX) as (Q1 & Q2 & Q3 & Q4 & Q5). split; [exact Q1|]. split; [exact Q2|]. split; [|split].
      * intros d XD. destruct (Q3 d XD) as (X1 & X2). split; [unfold within in *; lia|]. rewrite SM; [exact X2|apply X1].
      * intros w IM. eapply okf_mono; [| |apply Q4; exact IM]; auto.
      * intros w IM. eapply okb_mono; [| | |apply Q5; exact IM]; auto. intros X. eapply HE; [eapply nth_error_In; exact NX|exact X|auto].
  - intros d W. unfold within in W. rewrite nn in W. destruct (Nat.eq_dec d m) as [->|NE].
    + exists (mkLink false (l_c l) (Some m) (l_fwd l) (l_bwd l)). split; [|reflexivity]. unfold set_nth. apply in_or_app. right. left. reflexivity.
    + assert (W' : within (y_b y) d) by (unfold within; fold m; lia). destruct (id_ d W') as (x & IX & XD). destruct (KP x IX) as (x' & IX' & _ & XD'). exists x'. auto.
  - intros t T. destruct (iqa t T) as [X|(c & W & X)]; [left; exact X|right]. exists c. split; [exact W|]. destruct X as [(X1 & X2)|[(X1 & X2)|(X1 & X2)]]; auto 6.
  - intros t T. rewrite nq in T. destruct (iqb t T) as [X|(c & W & X)]; [left; exact X|right]. exists c. split; [unfold within in *; lia|]. destruct X as [(X1 & X2)|[(X1 & X2)|X1]]; auto 6.
  - intros d. rewrite np. intros X1 X2. destruct (ip d X1 X2) as [X|X]; [left|auto]. 
    assert (D : d < m). { destruct (b_p _ ib) as (_ & _ & _ & _ & _ & NR). destruct (p_state (pr (y_b y))) eqn:ST; [destruct (b_d _ ib ST) as (Y & _); congruence| |congruence]. destruct (b_c _ ib ST) as (_ & (d' & Y1 & _ & Y2 & _) & _). assert (d' = d) by congruence. subst d'. apply Y2. }
    rewrite SM by exact D. exact X.
  - intros n x X. specialize (ik n x X). destruct n; cbn in *; [rewrite nn; unfold m; lia|lia].
Qed.

Lemma inv_getA i l d m g a : nth_error (y_l y) i = Some l -> l_d l = Some d -> l_bwd l = m :: g -> k_set (s_conn (y_a y) (l_c l)) = true -> now 2%N a (pr (y_a y)) (s_conn (y_a y)) (s_nc (y_a y)) (s_q (y_a y) ++ [incoming false (l_c l) m]) (s_uq (y_a y)) (s_pend (y_a y)) ->
    INV z (mkSys a (y_b y) (set_nth i (mkLink false (l_c l) (Some d) (l_fwd l) g) (y_l y)) (y_kill y)).
Proof.
  intros NI LD LB KS N. pose proof N as [nb np nk nn nq nu ne]. destruct IV as [ia ib iN il id_ iqa iqb ic io ip ik].
  assert (LT : i < length (y_l y)) by (apply nth_error_Some; congruence).
  assert (HA : hot (y_a y) -> hot a) by (unfold hot; rewrite np; auto).
  destruct (il i l NI) as (O1 & O2 & O3 & O4 & O5).
  assert (KP : keeps (y_l y) (set_nth i (mkLink false (l_c l) (Some d) (l_fwd l) g) (y_l y))) by (eapply keeps_set; [exact NI|reflexivity|intros ? ?; cbn; congruence]).
  constructor; cbn [y_a y_b y_l y_kill]; auto.
  - eapply NA_now; [exact N|]. apply NA_c. exact ia.
  - rewrite (set_nth_length i l) by exact NI. rewrite nn. exact iN.
  - intros j x NJ. destruct (nth_set _ _ _ _ _ NJ LT) as [(-> & ->)|(NE & NX)].
    + eapply (okl_mono (y_a y) _ (y_b y)); [reflexivity|exact HA| | | |apply (il i l NI)|cbn; congruence..| |]; auto. cbn. intros w IM. left. rewrite LB. right. exact IM.
    + eapply (okl_mono (y_a y) _ (y_b y)); [reflexivity|exact HA| | | |apply (il j x NX)|reflexivity..| |]; auto.
  - intros e W. destruct (id_ e W) as (x & IX & XD). destruct (KP x IX) as (x' & IX' & _ & XD'). exists x'. auto.
  - intros t T. rewrite nq in T. apply in_app_or in T as [T|[<-|[]]].
    + eapply (okqa_mono (y_a y) _ (y_b y)); [rewrite nn; reflexivity|exact HA| |exact KP| |apply iqa; exact T]; auto.
    + right. exists (l_c l). split; [unfold within; rewrite nn; rewrite O2; lia|]. specialize (O5 m). rewrite LB in O5. specialize (O5 (or_introl eq_refl)). destruct m as [[n|]|[n|]]; cbn in O5 |- *; auto; [destruct O5|]. right; right. destruct O5 as (-> & X). split; [reflexivity|]. apply (spoke_mono (y_l y) _ (y_b y)); [exact KP|auto|]. exists l. split; [eapply nth_error_In; exact NI|auto].
  - intros t T. eapply (okqb_mono (y_a y) _ (y_b y)); [reflexivity|exact HA| |apply iqb; exact T]; auto.
  - rewrite np. intros C c PC. apply (spoke_mono (y_l y) _ (y_b y)); [exact KP|auto|apply ic; auto].
  - intros c W. unfold within in W. rewrite nn in W. rewrite np, nk. auto.
  - intros n x X. specialize (ik n x X). destruct n; cbn in *; lia.
Qed.

Lemma inv_getB i l d m f b : nth_error (y_l y) i = Some l -> l_d l = Some d -> l_fwd l = m :: f -> k_set (s_conn (y_b y) d) = true -> now 1%N b (pr (y_b y)) (s_conn (y_b y)) (s_nc (y_b y)) (s_q (y_b y) ++ [incoming true d m]) (s_uq (y_b y)) (s_pend (y_b y)) ->
    INV z (mkSys (y_a y) b (set_nth i (mkLink false (l_c l) (Some d) f (l_bwd l)) (y_l y)) (y_kill y)).
Proof.
  intros NI LD LB KS N. pose proof N as [nb np nk nn nq nu ne]. destruct IV as [ia ib iN il id_ iqa iqb ic io ip ik].
  assert (LT : i < length (y_l y)) by (apply nth_error_Some; congruence).
  assert (HB : hot (y_b y) -> hot b) by (unfold hot; rewrite np; auto).
  assert (LK : forall e, linked (y_b y) e -> linked b e) by (intros e; unfold linked; rewrite nk; auto).
  destruct (il i l NI) as (O1 & O2 & O3 & O4 & O5).
  assert (KP : keeps (y_l y) (set_nth i (mkLink false (l_c l) (Some d) f (l_bwd l)) (y_l y))) by (eapply keeps_set; [exact NI|reflexivity|intros ? ?; cbn; congruence]).
  constructor; cbn [y_a y_b y_l y_kill]; auto.
  - eapply NB_now; [exact N|]. apply NB_c. exact ib.
  - rewrite (set_nth_length i l) by exact NI. exact iN.
  - intros j x NJ. destruct (nth_set _ _ _ _ _ NJ LT) as [(-> & ->)|(NE & NX)].
    + eapply (okl_mono (y_a y) _ (y_b y)); [rewrite nn; reflexivity| |exact HB|exact LK| |apply (il i l NI)|cbn; congruence..| |]; auto; [intros e _; rewrite nk; reflexivity|]. cbn. intros w IM. left. rewrite LB. right. exact IM.
    + eapply (okl_mono (y_a y) _ (y_b y)); [rewrite nn; reflexivity| |exact HB|exact LK| |apply (il j x NX)|reflexivity..| |]; auto. intros e _; rewrite nk; reflexivity.
  - intros e W. unfold within in W. rewrite nn in W. destruct (id_ e W) as (x & IX & XD). destruct (KP x IX) as (x' & IX' & _ & XD'). exists x'. auto.
  - intros t T. eapply (okqa_mono (y_a y) _ (y_b y)); [reflexivity| |exact HB|exact KP|exact LK|apply iqa; exact T]; auto.
  - intros t T. rewrite nq in T. apply in_app_or in T as [T|[<-|[]]].
    + eapply (okqb_mono (y_a y) _ (y_b y)); [rewrite nn; reflexivity| |exact HB|apply iqb; exact T]; auto.
    + right. exists d. split; [destruct (O3 d LD) as (W & _); unfold within in *; lia|]. specialize (O4 m). rewrite LB in O4. specialize (O4 (or_introl eq_refl)). destruct m as [[n|]|[n|]]; cbn in O4 |- *; eauto. destruct O4.
  - intros C c PC. eapply spoke_mono; [exact KP|exact LK|apply ic; auto].
  - intros e. rewrite np, nk. auto.
  - intros n x X. specialize (ik n x X). destruct n; cbn in *; lia.
Qed.

Lemma inv_dial y' : dial y y' -> INV z y'.
Proof.
  intros [a TON N]. pose proof N as [nb np nk nn nq nu ne]. destruct IV as [ia ib iN il id_ iqa iqb ic io ip ik]. set (m := s_nc (y_a y)) in *.
  assert (A1 : 1 <= m) by (unfold m; apply (z_nc _ _ (a_b _ _ ia))).
  assert (HA : hot (y_a y) -> hot a) by (unfold hot; rewrite np; auto).
  assert (SM : forall c, c < m -> s_conn a c = s_conn (y_a y) c) by (intros c D; rewrite nk; apply upd_n; fold m; lia).
  assert (KP : keeps (y_l y) (y_l y ++ [mkLink false m None [] []])) by apply keeps_app.
  assert (KI : forall n c, In (n, c) (outk false (out_kill (p_out (pr (y_a y)))) (y_kill y)) <-> In (n, c) (y_kill y) \/ n = false /\ p_out (pr (y_a y)) = Some c).
  { intros n c. rewrite outk_in. destruct (p_out (pr (y_a y))) as [o|]; cbn; split.
    - intros [X|(d & X & [Y|[]])]; [auto|]. injection X as -> ->. injection Y as ->. auto.
    - intros [X|(-> & [= ->])]; [auto|]. right. exists c. auto.
    - intros [X|(d & X & [])]; auto.
    - intros [X|(_ & X)]; [auto|discriminate]. }
  constructor; cbn [y_a y_b y_l y_kill]; auto.
  - eapply NA_now; [exact N|]. pose proof (NA_c _ _ ia) as [K PP O D C H U]. fold m in K, O, C.
    constructor; cbn [p_settimer p_setlinks p_addr p_id p_nonce p_ntry p_cur p_timer p_in p_pre p_state p_conn p_out p_ton p_ptok p_chosen]; auto.
    + intros c W. unfold kdial. rewrite upd_if. fold m. destruct (c =? m) eqn:EQ; [cbn; auto 9|]. apply K. apply Nat.eqb_neq in EQ. lia.
    + destruct PP as (p1 & p2 & p3 & p4 & p5 & p6 & p7 & p8 & p9 & p10). auto 12.
    + intros c [= <-]. lia.
    + intros CC. destruct (C CC) as (c1 & _). congruence.
  - rewrite app_length, nn. cbn. lia.
  - intros i l NI. destruct (Nat.lt_ge_cases i (length (y_l y))) as [LT|GE].
    + rewrite nth_error_app1 in NI by exact LT. eapply (okl_mono (y_a y) _ (y_b y)); [reflexivity|exact HA| | | |apply il; exact NI|reflexivity..| |]; auto.
    + rewrite nth_error_app2 in NI by exact GE. destruct (i - length (y_l y)) as [|k] eqn:EI; [|destruct k; discriminate]. injection NI as <-. split; [reflexivity|]. split; [cbn; lia|]. split; [discriminate|]. split; intros ? [].
  - intros d W. destruct (id_ d W) as (x & IX & XD). exists x. split; [apply in_or_app; auto|exact XD].
  - intros t T. rewrite nq in T. eapply (okqa_mono (y_a y) _ (y_b y)); [rewrite nn; fold m; lia|exact HA| |exact KP| |apply iqa; exact T]; auto.
  - intros t T. eapply (okqb_mono (y_a y) _ (y_b y)); [reflexivity|exact HA| |apply iqb; exact T]; auto.
  - rewrite np. cbn. intros C c PC. apply (spoke_mono (y_l y) _ (y_b y)); [exact KP|auto|apply ic; auto].
  - intros c W. rewrite np. cbn [p_settimer p_setlinks p_conn p_out]. destruct (Nat.eq_dec c m) as [->|NE]; [auto|]. assert (W' : within (y_a y) c) by (unfold within in *; rewrite nn in W; lia). rewrite SM by apply W'. intros X1 X2. destruct (io c W' X1 X2) as [X|[X|[X|X]]]; auto; right; right; right; apply KI; auto.
  - intros d X1 X2. destruct (ip d X1 X2) as [X|X]; [auto|right]. apply KI. auto.
  - intros n c X. apply KI in X as [X|(-> & X)].
    + specialize (ik n c X). destruct n; cbn in *; [exact ik|fold m in ik; lia].
    + cbn. rewrite nn. destruct (a_o _ _ ia c X). lia.
Qed.

Theorem INV_tr y' : tr y y' -> INV z y'.
Proof.
  intros [a e S|b e S|a c M W K N|b c M W K N|i l b H1 H2 H3 H4|i l d m g a H1 H2 H3 H4 H5|i l d m f b H1 H2 H3 H4 H5].
  - apply inv_A; exact S.
  - apply inv_B; exact S.
  - eapply inv_termA; eassumption.
  - eapply inv_termB; eassumption.
  - apply inv_accept; assumption.
  - eapply inv_getA; eassumption.
  - eapply inv_getB; eassumption.
Qed.
Theorem INV_cut y' : cut y y' -> INV z y'.
Proof. intros [a c W K N|b c W K N]; [eapply inv_termA; eassumption|eapply inv_termB; eassumption]. Qed.
End Pres.

Lemma INV_step z e y y' o : (z < 0)%Z -> INV z y -> lossy e -> lstep e y = Some (y', o) -> INV z y' /\ Forall (fun x : bool * obs => fine (snd x)) o.
Proof.
  intros Z0 IV LE ST. destruct (trans z y Z0 IV e y' o LE ST) as (F & [T|(_ & [T|T])]); (split; [|exact F]).
  - eapply INV_tr; eassumption.
  - eapply INV_cut; eassumption.
  - eapply inv_dial; eassumption.
Qed.

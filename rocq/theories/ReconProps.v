(** A node that keeps dialling a node that waits (PeerPair.v), with connections
    that break and dials that overlap: they never get stuck. *)
From Coq Require Import Arith NArith ZArith List Bool Lia.
From Verif Require Import PeerModel PeerPair DialProps ReconSpec ReconNode ReconSys ReconTr ReconInv ReconFin.
Import ListNotations.

Lemma lrun_app es fs : forall y y2 o2, lrun (es ++ fs) y = Some (y2, o2) -> exists y1 o1 o3, lrun es y = Some (y1, o1) /\ lrun fs y1 = Some (y2, o3) /\ o2 = o1 ++ o3.
Proof.
  induction es as [|e es IH]; intros y y2 o2 E; [exists y, [], o2; auto|]. cbn [lrun app] in *. destruct (lstep e y) as [(y1 & o1)|]; [|discriminate]. destruct (lrun (es ++ fs) y1) as [(y3 & o3)|] eqn:E2; [|discriminate]. injection E as <- <-.
  destruct (IH _ _ _ E2) as (y4 & o4 & o5 & E4 & E5 & ->). exists y4, (o1 ++ o4), o5. rewrite E4. split; [reflexivity|]. split; [exact E5|]. rewrite app_assoc. reflexivity.
Qed.

(** The start. *)
Lemma start_inv z sb : (z < 0)%Z -> exists y o, lrun (map LEv (prepare z sb)) sys0 = Some (y, o) /\ INV z y /\ Forall (fun x : bool * obs => fine (snd x)) o.
Proof.
  intros Z0. destruct z as [|p|p]; try discriminate Z0. destruct sb.
  all: eexists; eexists; split; [cbv; reflexivity|]; split; [|repeat (constructor; [exact I|]); constructor].
  all: constructor; cbn; try (intros; contradiction); try reflexivity; try discriminate.
  all: try (intros [|i] l; discriminate).
  all: try (intros d (W1 & W2); cbn in W2; lia).
  all: try (intros d W; unfold within in W; cbn in W; lia).
  all: constructor; cbn; try (intros; contradiction); try discriminate; try reflexivity; auto.
  all: try (unfold within; cbn; intros; lia).
  all: try (constructor; cbn; auto; intros [|q] N; [destruct N; reflexivity|reflexivity]).
  all: try (repeat split; cbn; auto; try discriminate; try lia; eauto; fail).
  all: unfold heart; cbn; repeat split; auto; try discriminate; try lia; eauto.
Qed.

Lemma run_inv z es : (z < 0)%Z -> Forall lossy es -> forall y y' o, INV z y -> lrun es y = Some (y', o) -> INV z y' /\ Forall (fun x : bool * obs => fine (snd x)) o.
Proof.
  intros Z0 F. induction F as [|e es LE F IH]; intros y y' o IV E; cbn [lrun] in E; [injection E as <- <-; auto|].
  destruct (lstep e y) as [(y1 & o1)|] eqn:E1; [|discriminate]. destruct (lrun es y1) as [(y2 & o2)|] eqn:E2; [|discriminate]. injection E as <- <-.
  destruct (INV_step _ _ _ _ _ Z0 IV LE E1) as (I1 & F1). destruct (IH _ _ _ I1 E2) as (I2 & F2). split; [exact I2|]. apply Forall_app. auto.
Qed.
Lemma reached_inv z sb es y o : reached z sb es y o -> INV z y /\ Forall (fun x : bool * obs => fine (snd x)) o.
Proof.
  intros (Z0 & F & E). apply lrun_app in E as (y1 & o1 & o3 & E1 & E2 & ->). destruct (start_inv z sb Z0) as (y0 & o0 & E0 & I0 & F0). rewrite E1 in E0. injection E0 as <- <-.
  destruct (run_inv z es Z0 F _ _ _ I0 E2) as (I2 & F2). split; [exact I2|]. apply Forall_app. auto.
Qed.

(** ** Nothing left to do *)
Record still (y : sys) : Prop := {
  t_q : s_q (y_a y) = [] /\ s_uq (y_a y) = [] /\ s_q (y_b y) = [] /\ s_uq (y_b y) = [];
  t_a : forall c, c < s_nc (y_a y) -> (k_set (s_conn (y_a y) c) = true \/ k_torn (s_conn (y_a y) c) = true) /\ (k_term (s_conn (y_a y) c) = true -> k_torn (s_conn (y_a y) c) = true);
  t_b : forall c, c < s_nc (y_b y) -> (k_set (s_conn (y_b y) c) = true \/ k_torn (s_conn (y_b y) c) = true) /\ (k_term (s_conn (y_b y) c) = true -> k_torn (s_conn (y_b y) c) = true);
  t_k : forall n c, In (n, c) (y_kill y) -> k_term (s_conn (node n y) c) = true;
  t_l : forall l, In l (y_l y) -> l_by l = false -> match l_d l with Some d => k_term (s_conn (y_a y) (l_c l)) = k_term (s_conn (y_b y) d) /\ (k_term (s_conn (y_a y) (l_c l)) = true \/ l_fwd l = [] /\ l_bwd l = [])
                                    | None => k_torn (s_conn (y_a y) (l_c l)) = true end }.
Lemma settled_still y : settled y = true -> still y.
Proof.
  unfold settled. cbn [forallb node]. intros H. rewrite !andb_true_iff in H. destruct H as ((((Q1 & C1) & (Q2 & C2) & _) & K) & L).
  destruct (s_q (y_b y)) as [|? ?] eqn:B1; [|discriminate]. destruct (s_uq (y_b y)) as [|? ?] eqn:B2; [|discriminate]. destruct (s_q (y_a y)) as [|? ?] eqn:A1; [|discriminate]. destruct (s_uq (y_a y)) as [|? ?] eqn:A2; [|discriminate].
  rewrite forallb_forall in C1, C2, K, L. constructor; auto.
  - intros c W. specialize (C2 c ltac:(apply in_seq; lia)). rewrite andb_true_iff, orb_true_iff in C2. destruct C2 as (X & Y). split; [exact X|]. intros T. rewrite T in Y. exact Y.
  - intros c W. specialize (C1 c ltac:(apply in_seq; lia)). rewrite andb_true_iff, orb_true_iff in C1. destruct C1 as (X & Y). split; [exact X|]. intros T. rewrite T in Y. exact Y.
  - intros n c X. exact (K _ X).
  - intros l IL BY. specialize (L _ IL). rewrite BY in L. cbn [node negb] in L. destruct (l_d l) as [d|]; [|exact L]. rewrite andb_true_iff, orb_true_iff in L. destruct L as (X & Y). apply eqb_prop in X. split; [exact X|]. destruct Y as [Y|Y]; [auto|right]. destruct (l_fwd l); [|discriminate]. destruct (l_bwd l); [auto|discriminate].
Qed.

Lemma still_joined z y : INV z y -> still y -> p_state (pr (y_a y)) = Connected -> joined y.
Proof.
  intros IV [(Q1 & Q2 & Q3 & Q4) TA TB TK TL] CC. destruct (a_c _ _ (i_a _ _ IV) CC) as (C1 & C2 & C3 & c & C4 & C5 & C6 & C7 & C8).
  destruct (i_c _ _ IV CC c C4) as (l & IL & LC & d & LD & LK). pose proof IL as IL'. apply In_nth_error in IL' as (i & NI). destruct (i_l _ _ IV i l NI) as (O1 & O2 & O3 & _ & _). destruct (O3 d LD) as (WD & _).
  specialize (TL l IL O1). rewrite LD in TL. destruct TL as (TE & _). destruct C6 as (_ & C6). destruct WD as (W1 & W2). pose proof (proj2 (TA c C6)) as X.
  assert (KT : k_term (s_conn (y_a y) c) = false) by (destruct (k_term (s_conn (y_a y) c)); [rewrite X in C8; [discriminate|reflexivity]|reflexivity]).
  rewrite LC, KT in TE. assert (TD : k_torn (s_conn (y_b y) d) = false). { destruct (k_torn (s_conn (y_b y) d)) eqn:E; [|reflexivity]. apply (b_k _ (i_b _ _ IV) d (conj W1 W2)) in E. congruence. }
  destruct LK as [LK|LK]; [congruence|]. destruct (b_l _ (i_b _ _ IV) d (conj W1 W2) LK TD) as (B1 & B2).
  exists l, d. rewrite LC. auto 12.
Qed.

(** C134, first part: whatever breaks, whatever dials overlap, whatever the order of events,
    no assertion fails, no exception escapes, no stranger is reported; and once nothing is left
    to do but timers, either both nodes are connected by one and the same connection, or the
    dialling node is not connected and its retry timer runs.  In particular, the dialling node
    never believes it is connected when the other is not. *)
Theorem C134_never_stuck : forall z sb es y o, reached z sb es y o ->
  Forall (fun x : bool * obs => fine (snd x)) o /\ (settled y = true -> joined y \/ trying y).
Proof.
  intros z sb es y o R. destruct (reached_inv _ _ _ _ _ R) as (IV & F). split; [exact F|]. intros S. apply settled_still in S.
  destruct (a_p _ _ (i_a _ _ IV)) as (_ & _ & _ & _ & _ & P6 & _ & _ & P9 & _). destruct (p_state (pr (y_a y))) eqn:ST; [|left; eapply still_joined; eassumption|congruence].
  right. split; [exact ST|]. split; [exact P6|]. apply (a_d _ _ (i_a _ _ IV)). exact ST.
Qed.
Print Assumptions C134_never_stuck.

(** ** The last dial *)
Lemma fin_start gd z y y' : INV z y -> still y -> p_state (pr (y_a y)) = Disconnected -> (gd = true -> no_dial y) -> dial y y' -> FIN gd (s_nc (y_a y)) (mkLink false (s_nc (y_a y)) None [] []) y'.
Proof.
  intros IV [(Q1 & Q2 & Q3 & Q4) TA TB TK TL] SD ND [a TON N]. pose proof N as [nb np nk nn nq nu ne]. set (m := s_nc (y_a y)) in *.
  assert (A1 : 1 <= m) by (unfold m; apply (z_nc _ _ (a_b _ _ (i_a _ _ IV)))).
  assert (SM : forall c, c <> m -> s_conn a c = s_conn (y_a y) c) by (intros c D; rewrite nk; apply upd_n; exact D).
  assert (SX : s_conn a m = mkConn Active 2%N None false (Some 0) false false false) by (rewrite nk; apply upd_c).
  assert (PN : p_pre (pr (y_b y)) = None).
  { destruct (p_pre (pr (y_b y))) eqn:PP; [|reflexivity]. exfalso. destruct (b_p _ (i_b _ _ IV)) as (_ & _ & _ & _ & _ & NR). destruct (p_state (pr (y_b y))) eqn:ST; [destruct (b_d _ (i_b _ _ IV) ST); congruence| |congruence].
    destruct (b_c _ (i_b _ _ IV) ST) as (_ & (d & d1 & _ & (d2 & d3) & d4 & d5) & _). destruct (i_p _ _ IV d) as [X|X]; [congruence|exact d1| |].
    - apply (TB d d3) in X. congruence.
    - apply TK in X. cbn in X. apply (TB d d3) in X. congruence. }
  constructor; cbn [y_a y_b y_l y_kill].
  - constructor; rewrite ?np, ?nn, ?nq; cbn [p_settimer p_setlinks p_state p_out p_conn]; auto.
    + rewrite SX. reflexivity.
    + congruence.
    + intros G c W NE. rewrite SM by exact NE. intros KP KT. assert (W' : within (y_a y) c) by (unfold within in *; rewrite nn in W; fold m; lia). split; [exact SD|]. pose proof (proj2 W') as W2.
      destruct (i_o _ _ IV c W' KP KT) as [X|[X|[X|X]]]; [exact X| | |]; exfalso.
      * apply (ND G) in X. apply (TA c W2) in X. congruence.
      * apply (TA c W2) in X. congruence.
      * apply TK in X. cbn in X. apply (TA c W2) in X. congruence.
    + intros c W NE. rewrite SM by exact NE. apply TA. unfold within in *. rewrite nn in W. fold m. lia.
    + rewrite Q1. intros c [].
  - constructor; rewrite ?Q3, ?Q4; [intros d X; discriminate X|intros d n []|intros ? ? ? ? ? []|intros X; contradiction].
  - rewrite nth_error_app2 by (pose proof (i_n _ _ IV) as X; fold m in X; lia). replace (pred m - length (y_l y)) with 0 by (pose proof (i_n _ _ IV) as X; fold m in X; lia). reflexivity.
  - intros X. apply outk_in in X as [X|(c & X & Y)].
    + apply (i_k _ _ IV) in X. cbn in X. fold m in X. lia.
    + injection X as <-. destruct (p_out (pr (y_a y))) as [o|] eqn:PO; [|destruct Y]. destruct Y as [Y|[]]. injection Y as ->. apply (a_o _ _ (i_a _ _ IV)) in PO. destruct PO as (_ & PO). fold m in PO. lia.
  - discriminate.
  - intros i l NI NE. assert (LT : i < length (y_l y)). { assert (X : i < length (y_l y ++ [mkLink false m None [] []])) by (apply nth_error_Some; congruence). rewrite app_length in X. cbn in X. pose proof (i_n _ _ IV) as Y. fold m in Y. lia. }
    rewrite nth_error_app1 in NI by exact LT. destruct (i_l _ _ IV i l NI) as (O1 & O2 & O3 & _). specialize (TL l (nth_error_In _ _ NI) O1). assert (LN : l_c l <> m) by (pose proof (i_n _ _ IV) as Y; fold m in Y; lia). unfold oldl. rewrite SM by exact LN. destruct (l_d l) as [d|] eqn:LD.
    + destruct TL as (T1 & T2). split; [discriminate|]. split.
      * intros w e I P [= <-]. destruct T2 as [T2|(T2 & _)]; [congruence|]. rewrite T2 in I. destruct I.
      * intros w I P. destruct T2 as [T2|(_ & T2)]; [exact T2|]. rewrite T2 in I. destruct I.
    + assert (T3 : k_term (s_conn (y_a y) (l_c l)) = true) by (apply (a_k _ _ (i_a _ _ IV)); [unfold within; pose proof (i_n _ _ IV) as Y; lia|exact TL]). split; [auto|]. split; [discriminate|auto].
  - left. rewrite SX. split; [reflexivity|]. split; [|intros (_ & d & _ & X); discriminate]. unfold tok. cbn [l_fwd l_d]. rewrite Q3, Q4. unfold isB. rewrite PN. reflexivity.
Qed.

Lemma fin_run gd z x es : (z < 0)%Z -> Forall calm es -> forall y k y' o, INV z y -> FIN gd x k y -> lrun es y = Some (y', o) -> INV z y' /\ exists k', FIN gd x k' y'.
Proof.
  intros Z0 F. induction F as [|e es LE F IH]; intros y k y' o IV FN E; cbn [lrun] in E; [injection E as <- <-; eauto|].
  destruct (lstep e y) as [(y1 & o1)|] eqn:E1; [|discriminate]. destruct (lrun es y1) as [(y2 & o2)|] eqn:E2; [|discriminate]. injection E as <- <-.
  destruct (trans z y Z0 IV e y1 o1 (proj1 LE) E1) as (_ & [T|(NC & _)]); [|contradiction].
  destruct (FIN_tr z y x k Z0 IV gd FN y1 T) as (k1 & F1). eapply IH; [eapply INV_tr; eassumption|exact F1|exact E2].
Qed.
Lemma fin_still gd z x k y : INV z y -> FIN gd x k y -> still y -> p_out (pr (y_a y)) = None.
Proof.
  intros IV FN S. pose proof S as [(Q1 & Q2 & Q3 & Q4) TA TB TK TL]. destruct FN as [fa fb fk fka fkb fl fp]. destruct (fa_n _ _ _ fa) as (n1 & n2). pose proof (fa_x _ _ _ fa) as X0.
  assert (WX : within (y_a y) x) by (unfold within; lia). assert (TX : k_torn (s_conn (y_a y) x) = false). { destruct (k_torn (s_conn (y_a y) x)) eqn:T; [|reflexivity]. apply (a_k _ _ (i_a _ _ IV) x WX) in T. congruence. }
  destruct (i_l _ _ IV _ _ fk) as (O1 & O2 & O3 & _). assert (LC : l_c k = x) by lia. specialize (TL k (nth_error_In _ _ fk) O1). rewrite LC in TL.
  destruct (l_d k) as [d|] eqn:LD; [|congruence]. destruct TL as (T1 & [T2|(T2 & T3)]); [congruence|].
  unfold phase, tok, back in fp. rewrite T2, T3, Q1, Q3, Q4 in fp. destruct fp as [(p1 & _)|[(p1 & p2 & p3)|(p1 & p2 & p3 & p4)]].
  - exfalso. destruct (TA x) as ([Y|Y] & _); [lia|congruence|congruence].
  - exfalso. assert (PP : p_pre (pr (y_b y)) <> None) by (intros X; unfold isB in p2; rewrite X in p2; discriminate p2).
    destruct (b_p _ (i_b _ _ IV)) as (_ & _ & _ & _ & _ & NR). destruct (p_state (pr (y_b y))) eqn:ST; [destruct (b_d _ (i_b _ _ IV) ST); congruence| |congruence].
    destruct (b_c _ (i_b _ _ IV) ST) as (_ & (e & d1 & _ & (d2 & d3) & d4 & d5) & _). destruct (i_p _ _ IV e PP d1) as [X|X].
    + apply (TB e d3) in X. congruence.
    + apply TK in X. cbn in X. apply (TB e d3) in X. congruence.
  - destruct p4 as [(w & [] & _)|[[]|X]]. exact X.
Qed.

Lemma dialled gd z y p g es y' o : (z < 0)%Z -> INV z y -> settled y = true -> p_state (pr (y_a y)) = Disconnected -> (gd = true -> no_dial y) -> g_ok g = true -> g_cert g = None -> Forall calm es ->
  lrun (LEv (PRetry false p g) :: es) y = Some (y', o) -> settled y' = true -> INV z y' /\ p_out (pr (y_a y')) = None /\ (gd = true -> joined y').
Proof.
  intros Z0 IV S SD ND GO GC F E S'. apply settled_still in S, S'.
  cbn [lrun] in E. destruct (lstep (LEv (PRetry false p g)) y) as [(y1 & o1)|] eqn:E1; [|discriminate]. destruct (lrun es y1) as [(y2 & o2)|] eqn:E2; [|discriminate]. injection E as <- <-.
  pose proof (retry_dial _ _ _ _ _ _ _ IV GO GC E1) as D. pose proof (fin_start gd _ _ _ IV S SD ND D) as FN. destruct (fin_run gd z _ es Z0 F _ _ _ _ (inv_dial z y IV y1 D) FN E2) as (IV2 & k2 & FN2).
  pose proof (fin_still _ _ _ _ _ IV2 FN2 S') as PO. split; [exact IV2|]. split; [exact PO|]. intros G. eapply still_joined; [exact IV2|exact S'|].
  destruct (a_p _ _ (i_a _ _ IV2)) as (_ & _ & _ & _ & _ & _ & _ & _ & NR & _). destruct (p_state (pr (y_a y2))) eqn:ST; [|reflexivity|congruence]. pose proof (fa_a _ _ _ (f_a _ _ _ _ FN2) G ST). congruence.
Qed.

(** C134, second part: however the two nodes got there, when nothing is left to do and the
    dialling node is not connected, the next dial that is not disturbed connects them. *)
Definition C134_dial_connects_full : Prop := forall z sb es y o, reached z sb es y o -> settled y = true -> trying y ->
  forall p g es' y' o', g_ok g = true -> g_cert g = None -> Forall calm es' ->
    lrun (LEv (PRetry false p g) :: es') y = Some (y', o') -> settled y' = true -> joined y'.
(** True if the connection dialled before has ended by then, or was established; and the
    one after it connects them in any case. *)
Theorem C134_dial_connects_partial : forall z sb es y o, reached z sb es y o -> settled y = true -> trying y ->
  forall p g es' y' o', g_ok g = true -> g_cert g = None -> Forall calm es' ->
    lrun (LEv (PRetry false p g) :: es') y = Some (y', o') -> settled y' = true ->
  (no_dial y -> joined y') /\
  (joined y' \/ trying y' /\ forall p2 g2 es2 y2 o2, g_ok g2 = true -> g_cert g2 = None -> Forall calm es2 ->
     lrun (LEv (PRetry false p2 g2) :: es2) y' = Some (y2, o2) -> settled y2 = true -> joined y2).
Proof.
  intros z sb es y o R S T p g es' y' o' GO GC F E S'. pose proof R as (Z0 & _). destruct (reached_inv _ _ _ _ _ R) as (IV & _). destruct T as (SD & _). split.
  - intros ND. apply (dialled true z y p g es' y' o'); auto.
  - destruct (dialled false z y p g es' y' o') as (IV2 & PO & _); auto; [discriminate|].
    destruct (a_p _ _ (i_a _ _ IV2)) as (_ & _ & _ & _ & _ & P6 & _ & _ & NR & _). destruct (p_state (pr (y_a y'))) eqn:ST; [right|left; eapply still_joined; [exact IV2|apply settled_still; exact S'|exact ST]|congruence].
    split; [split; [exact ST|]; split; [exact P6|apply (a_d _ _ (i_a _ _ IV2)); exact ST]|]. intros p2 g2 es2 y2 o2 GO2 GC2 F2 E2 S2. apply (dialled true z y' p2 g2 es2 y2 o2); auto. intros _ c X. unfold no_dial in X. congruence.
Qed.
Print Assumptions C134_dial_connects_partial.

(** ** Cases *)
Definition ev (l : list pev) : list lev := map LEv l.
Definition seen (n : bool) (y : sys) := (p_state (s_peer (node n y) 0), p_conn (s_peer (node n y) 0)).
Definition fate (r : option (sys * list (bool * obs))) : option (bool * list (pstate * option nat)) :=
  match r with Some (y, _) => Some (settled y, [seen false y; seen true y]) | None => None end.
Lemma g0_ok : rnd_ok g0.
Proof. exists 0%N. split; reflexivity. Qed.
Ltac all_lossy := repeat (constructor; [cbn; auto using g0_ok; fail|]); constructor.
Ltac all_calm := repeat (constructor; [split; cbn; auto using g0_ok; fail|]); constructor.

(** Connect, and what remains of heartbeats. *)
Definition up1 : list lev := ev [PRetry false 0 g0; PSetup false 1 g0; PAccept 0; PSetup true 1 g0; PGet 0 true; PDisp true g0; PUser true; PGet 0 false; PDisp false g0; PUser false; PGet 0 true; PDisp true g0; PGet 0 false; PDisp false g0; PGet 0 true; PDisp true g0; PGet 0 false; PDisp false g0].
(** The connection breaks at the dialling end; the waiting node has not noticed when it dials twice, and reads the first handshake message last. *)
Definition stale : list lev := up1 ++ LBreak false 1 :: ev [PTear false 1; PUser false; PRetry false 0 g0; PSetup false 2 g0; PAccept 1; PSetup true 2 g0; PRetry false 0 g0; PSetup false 3 g0; PAccept 2; PSetup true 3 g0; PGet 2 true; PDisp true g0; PGet 1 true; PDisp true g0;
  PTerm false 2; PTear false 2; PUser false; PTerm true 1; PTear true 1; PUser true; PDisp true g0; PUser true; PTerm true 2; PTear true 2; PUser true].
Definition lost : list lev := ev [PSetup false 4 g0; PAccept 3; PSetup true 4 g0; PGet 3 true; PDisp true g0; PGet 3 false; PDisp false g0; PUser false; PUser true; PTerm false 3; PTear false 3; PUser false; PTerm true 3; PTear true 3; PGet 1 false; PDisp false g0; PGet 1 false; PDisp false g0; PGet 3 true; PDisp true g0; PGet 3 false; PDisp false g0; PGet 3 true; PDisp true g0; PGet 3 false; PDisp false g0].
Theorem C134_dial_connects_refuted : exists es y o es' y' o', reached (-1) true es y o /\ settled y = true /\ trying y /\ Forall calm es' /\
  lrun (LEv (PRetry false 0 g0) :: es') y = Some (y', o') /\ settled y' = true /\ ~ joined y'.
Proof.
  destruct (lrun (map LEv (prepare (-1) true) ++ stale) sys0) as [(y & o)|] eqn:E; [|vm_compute in E; discriminate E].
  destruct (lrun (LEv (PRetry false 0 g0) :: lost) y) as [(y' & o')|] eqn:E'; [|exfalso; revert E'; vm_compute in E; injection E as <- <-; vm_compute; discriminate].
  exists stale, y, o, lost, y', o'. split; [split; [reflexivity|]; split; [all_lossy|exact E]|]. vm_compute in E. injection E as <- <-. split; [vm_compute; reflexivity|]. split; [repeat split|]. split; [all_calm|]. split; [exact E'|].
  vm_compute in E'. injection E' as <- <-. split; [vm_compute; reflexivity|]. intros (l & d & _ & _ & _ & X & _). discriminate X.
Qed.
Print Assumptions C134_dial_connects_refuted.

(** Without any break, when a dial overlaps the one before: at rest, a connection is up, the waiting node
    is connected by it, the dialling node is not. *)
Definition overlap : list lev := ev [PRetry false 0 g0; PRetry false 0 g0; PTerm false 1; PSetup false 2 g0; PAccept 1; PSetup true 1 g0; PGet 1 true; PDisp true g0; PUser true; PGet 1 false; PDisp false g0; PUser false; PTear false 1; PUser false; PGet 1 true; PDisp true g0; PGet 1 false; PDisp false g0; PGet 1 true; PDisp true g0; PGet 1 false; PDisp false g0].
Theorem C134_agree_refuted : exists es y o l d, reached (-1) true es y o /\ Forall (fun e => match e with LBreak _ _ | LEv (PRefuse _) => False | _ => True end) es /\ settled y = true /\
  In l (y_l y) /\ l_d l = Some d /\ k_term (s_conn (y_a y) (l_c l)) = false /\ k_term (s_conn (y_b y) d) = false /\
  p_state (s_peer (y_a y) 0) = Disconnected /\ p_conn (s_peer (y_a y) 0) = Some (l_c l) /\ p_state (s_peer (y_b y) 0) = Connected /\ p_conn (s_peer (y_b y) 0) = Some d.
Proof.
  destruct (lrun (map LEv (prepare (-1) true) ++ overlap) sys0) as [(y & o)|] eqn:E; [|vm_compute in E; discriminate E].
  exists overlap, y, o, (mkLink false 2 (Some 1) [] []), 1. split; [split; [reflexivity|]; split; [all_lossy|exact E]|]. vm_compute in E. injection E as <- <-. split; [repeat (constructor; [exact I|]); constructor|].
  split; [vm_compute; reflexivity|]. split; [right; left; reflexivity|]. repeat split.
Qed.
Print Assumptions C134_agree_refuted.

(** A case of each hypothesis: the first dial connects; then, the state of C134_agree_refuted is at rest, its
    last dial established, and one more dial connects; the state of C134_dial_connects_refuted, one dial later, too. *)
Definition again : list lev := ev [PSetup false 3 g0; PAccept 2; PSetup true 2 g0; PGet 2 true; PDisp true g0; PTerm true 1; PTear true 1; PUser true; PDisp true g0; PUser true; PGet 2 false; PDisp false g0; PUser false; PTerm false 2; PTear false 2; PGet 2 true; PDisp true g0; PGet 2 false; PDisp false g0; PGet 2 true; PDisp true g0; PGet 2 false; PDisp false g0].
Definition again2 : list lev := ev [PSetup false 5 g0; PAccept 4; PSetup true 5 g0; PGet 4 true; PDisp true g0; PTerm true 4; PTerm false 4; PTear false 4; PUser false; PTear true 4; PUser true; PDisp true g0; PUser true; PGet 4 false; PDisp false g0; PUser false; PGet 4 true; PDisp true g0; PGet 4 false; PDisp false g0; PGet 4 true; PDisp true g0; PGet 4 false; PDisp false g0].
Example C134_nonvacuous :
  Forall lossy up1 /\ Forall lossy stale /\ Forall lossy overlap /\ Forall calm lost /\ Forall calm again /\ Forall calm again2 /\
  fate (lrun (map LEv (prepare (-1) true) ++ up1) sys0) = Some (true, [(Connected, Some 1); (Connected, Some 1)]) /\
  fate (lrun (map LEv (prepare (-1) true) ++ overlap) sys0) = Some (true, [(Disconnected, Some 2); (Connected, Some 1)]) /\
  fate (lrun (map LEv (prepare (-1) true) ++ overlap ++ LEv (PRetry false 0 g0) :: again) sys0) = Some (true, [(Connected, Some 3); (Connected, Some 2)]) /\
  fate (lrun (map LEv (prepare (-1) true) ++ stale) sys0) = Some (true, [(Disconnected, Some 1); (Disconnected, Some 2)]) /\
  fate (lrun (map LEv (prepare (-1) true) ++ stale ++ LEv (PRetry false 0 g0) :: lost) sys0) = Some (true, [(Disconnected, Some 4); (Connected, Some 4)]) /\
  fate (lrun (map LEv (prepare (-1) true) ++ stale ++ LEv (PRetry false 0 g0) :: lost ++ LEv (PRetry false 0 g0) :: again2) sys0) = Some (true, [(Connected, Some 5); (Connected, Some 5)]).
Proof. split; [all_lossy|]. split; [all_lossy|]. split; [all_lossy|]. split; [all_calm|]. split; [all_calm|]. split; [all_calm|]. vm_compute. repeat split. Qed.

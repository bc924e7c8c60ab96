(** The events of PeerPair.v as steps of ReconSys.v, for ReconProps.v. *)
From Coq Require Import Arith NArith ZArith List Bool Lia.
From Verif Require Import PeerModel PeerPair DialProps ReconSpec ReconNode ReconSys.
Import ListNotations.

Section Tr.
Variable z : Z.
Variable y : sys.
Hypothesis Z0 : (z < 0)%Z.
Hypothesis I : INV z y.
Let a := y_a y.
Let b := y_b y.

Lemma link_d d : within b d -> exists i l, nth_error (y_l y) i = Some l /\ l_d l = Some d /\ k_addr (s_conn b d) = (100 + N.of_nat i)%N.
Proof.
  intros W. destruct (i_d _ _ I d W) as (l & IL & LD). apply In_nth_error in IL as (i & NI). exists i, l. split; [exact NI|]. split; [exact LD|]. destruct (i_l _ _ I i l NI) as (_ & _ & D & _). apply (D d LD).
Qed.
Lemma inj_d d d' : within b d -> within b d' -> k_addr (s_conn b d) = k_addr (s_conn b d') -> d = d'.
Proof.
  intros W W' E. destruct (link_d d W) as (i & l & NI & LD & AD). destruct (link_d d' W') as (j & l' & NJ & LD' & AD'). rewrite AD, AD' in E. assert (i = j) by lia. subst j. congruence.
Qed.
Lemma find_in k (l : list (N * nat)) v : find_by k l = Some v -> In (k, v) l.
Proof. unfold find_by. destruct (find (fun x => (fst x =? k)%N) l) as [[k' v']|] eqn:F; [|discriminate]. intros [= <-]. apply find_some in F as (F1 & F2). cbn in F2. apply N.eqb_eq in F2. subst. exact F1. Qed.
Lemma drop_incl k (l : list (N * nat)) : incl (drop_by k l) l.
Proof. intros x H. apply filter_In in H. apply H. Qed.

Lemma made_lt P x : (p_nonce P < passive_nonce)%N -> (x mod 2 ^ 16 + 1 < passive_nonce)%N -> non (made P x).
Proof. intros L R. unfold made, non. destruct (N.eqb_spec (p_nonce P) 0); [|lia]. generalize dependent (x mod 2 ^ 16)%N. intros. lia. Qed.

Lemma disp_A g s' o : rnd_ok g -> step hash2 (EDisp g) a = Some (s', o) -> Forall fine o /\ stepA a s' (eff o).
Proof.
  intros (x & G & GX) E. destruct (i_a _ _ I) as [AB AK AP AO AD AC AH AU]. fold a in AB, AK, AP, AO, AD, AC, AH, AU. cbn zeta in AP. destruct AP as (P1 & P2 & P3 & P4 & P5 & P6 & P7 & P8 & P9 & (pc & P10)).
  destruct (s_q a) as [|t q] eqn:Q. { unfold step in E. rewrite (z_h _ _ AB), Q in E. discriminate. }
  assert (OK := i_qa _ _ I t). fold a b in OK. rewrite Q in OK. specialize (OK (or_introl eq_refl)). destruct OK as [H|(c & W & [(-> & H)|[(-> & H)|(-> & H)]])].
  - destruct (n_harm 2%N a s' o AB t q g pc Q H P10 E) as (N1 & N2 & N3). split; [exact N3|]. rewrite N2. apply A_mild. eapply M_pop; eauto.
  - destruct (n_hbping 2%N a s' o AB c 0%N q g Q E) as (N1 & N2 & N3). split; [exact N3|]. rewrite N2. apply A_mild. eapply M_ping; eauto.
  - assert (HC : p_chosen (pr a) <> None). { destruct AH as [(H1 & _)|(_ & _ & H1)]; [contradiction H|exact H1]. }
    destruct (AK c W) as (_ & _ & _ & _ & K5 & _). destruct (n_hbpong 2%N a s' o AB c 0%N q g Q K5 H HC E) as (P' & e & N1 & N2 & N3 & N4 & N5). split; [exact N5|]. rewrite N3. apply A_mild. eapply M_beat; eauto.
  - destruct (AK c W) as (K1 & K2 & K3 & _). pose proof (made_lt (pr a) x P3 GX) as (ML1 & ML2).
    destruct (n_pong 2%N a s' o AB c passive_nonce q g x pc Q ltac:(discriminate) K1 K2 K3 P1 P10 G ML2 E) as (N3 & [(T & EF & N)|[(T & ST & EF & N)|(T & ST & EF & N)]]); (split; [exact N3|]); rewrite EF.
    + eapply A_idle; eauto.
    + eapply A_idle; eauto. right. destruct (p_state (pr a)); congruence.
    + eapply A_pong; eauto.
Qed.

Lemma disp_B g s' o : step hash2 (EDisp g) b = Some (s', o) -> Forall fine o /\ stepB b s' (eff o).
Proof.
  intros E. destruct (i_b _ _ I) as [AB AK AP AD AC AL AH AU AE]. fold b in AB, AK, AP, AD, AC, AL, AH, AU, AE. cbn zeta in AP. destruct AP as (P1 & P2 & P3 & P4 & P5 & P6).
  assert (PC : exists pc, p_conn (pr b) = Some pc). { destruct (p_state (pr b)) eqn:S; [destruct (AD eq_refl) as (_ & _ & x & H & _)|destruct (AC eq_refl) as (_ & (x & H & _) & _)|congruence]; eauto. }
  destruct PC as (pc & P10).
  destruct (s_q b) as [|t q] eqn:Q. { unfold step in E. rewrite (z_h _ _ AB), Q in E. discriminate. }
  assert (OK := i_qb _ _ I t). fold a b in OK. rewrite Q in OK. specialize (OK (or_introl eq_refl)). destruct OK as [H|(c & W & [(-> & H)|[(-> & H)|(n & -> & H)]])].
  - destruct (n_harm 1%N b s' o AB t q g pc Q H P10 E) as (N1 & N2 & N3). split; [exact N3|]. rewrite N2. apply B_mild. eapply M_pop; eauto.
  - destruct (n_hbping 1%N b s' o AB c 0%N q g Q E) as (N1 & N2 & N3). split; [exact N3|]. rewrite N2. apply B_mild. eapply M_ping; eauto.
  - assert (HC : p_chosen (pr b) <> None). { destruct AH as [(H1 & _)|(_ & _ & H1)]; [contradiction H|exact H1]. }
    destruct (AK c W) as (_ & _ & K5 & _). destruct (n_hbpong 1%N b s' o AB c 0%N q g Q K5 H HC E) as (P' & e & N1 & N2 & N3 & N4 & N5). split; [exact N5|]. rewrite N3. apply B_mild. eapply M_beat; eauto.
  - destruct (AK c W) as (K1 & K2 & _). destruct H as (H1 & H2).
    destruct (n_ping 1%N b s' o AB c n q g pc Q ltac:(discriminate) ltac:(lia) K1 K2 P10 P1 H2 P6 ltac:(intros HD; apply (AD HD)) E) as (N3 & [(T & EF & N)|[(T & ST & EF & N)|(T & ST & EF & N)]]); (split; [exact N3|]); rewrite EF.
    + eapply B_idle; eauto.
    + eapply B_ping1; eauto. split; assumption.
    + eapply B_ping2; eauto. apply drop_incl.
Qed.

Lemma set_A c g s' o : rnd_ok g -> step hash2 (ESetup c g) a = Some (s', o) -> Forall fine o /\ stepA a s' (eff o).
Proof.
  intros (x & G & GX) E. destruct (i_a _ _ I) as [AB AK AP AO AD AC AH AU]. fold a in AB, AK, AP, AO, AD, AC, AH, AU. cbn zeta in AP. destruct AP as (P1 & P2 & P3 & _).
  destruct (n_set 2%N a s' o AB c g E) as (W & _). destruct (AK c W) as (K1 & K2 & K3 & _). destruct (n_setA 2%N a s' o AB c g x E K1 K2 K3 G) as (_ & S1 & S2 & EF & F & N). split; [exact F|]. rewrite EF. eapply A_set; eauto. apply made_lt; auto.
Qed.
Lemma set_B c g s' o : step hash2 (ESetup c g) b = Some (s', o) -> Forall fine o /\ stepB b s' (eff o).
Proof.
  intros E. destruct (i_b _ _ I) as [AB AK AP AD AC AL AH AU AE]. fold b in AB, AK, AP, AD, AC, AL, AH, AU, AE.
  destruct (n_set 1%N b s' o AB c g E) as (W & _). destruct (AK c W) as (K1 & K2 & _). destruct (n_setB 1%N b s' o AB c g E K1) as (_ & S1 & S2 & F & pe & N & [(F1 & EF & PE)|[(F1 & EF & PE)|(d & F1 & F2 & EF & PE)]]); (split; [exact F|]).
  - rewrite EF. eapply B_set; eauto. subst pe. intros x [<-|H]; auto.
  - rewrite EF. eapply B_set; eauto. subst pe. auto.
  - exfalso. apply F2. apply find_in in F1. destruct (AE _ _ F1) as (W' & A'). apply inj_d; auto.
Qed.
Lemma tear_A c s' o : step hash2 (ETear c) a = Some (s', o) -> Forall fine o /\ stepA a s' (eff o).
Proof.
  intros E. destruct (i_a _ _ I) as [AB AK AP AO AD AC AH AU]. fold a in AB, AK, AP, AO, AD, AC, AH, AU. cbn zeta in AP. destruct AP as (P1 & P2 & P3 & P4 & P5 & P6 & P7 & P8 & P9 & (pc & P10)).
  assert (W : within a c). { unfold step in E. rewrite (z_h _ _ AB) in E. destruct ((c <? s_nc a) && k_term (s_conn a c) && negb (k_torn (s_conn a c))) eqn:L; [|discriminate]. apply andb_true_iff in L as (L & L3). apply andb_true_iff in L as (L1 & _). apply Nat.ltb_lt in L1. apply negb_true_iff in L3. pose proof (z_1 _ _ AB). split; [|exact L1]. destruct c; [congruence|lia]. }
  destruct (AK c W) as (K1 & K2 & K3 & K4 & K5 & _).
  destruct (n_tear 2%N a s' o AB c pc E (or_intror K4) P10 K5) as (_ & T1 & T2 & EF & F & [(KP & N)|(KP & N)]); [rewrite P5; apply Z.ltb_ge; lia|auto|split; [exact F|]; rewrite EF; eapply A_tear0; eauto|split; [exact F|]; rewrite EF].
  unfold news in N. rewrite P8 in N. eapply A_tear; eauto.
Qed.
Lemma tear_B c s' o : step hash2 (ETear c) b = Some (s', o) -> Forall fine o /\ stepB b s' (eff o).
Proof.
  intros E. destruct (i_b _ _ I) as [AB AK AP AD AC AL AH AU AE]. fold b in AB, AK, AP, AD, AC, AL, AH, AU, AE. cbn zeta in AP. destruct AP as (P1 & P2 & P3 & P4 & P5 & P6).
  assert (PC : exists pc, p_conn (pr b) = Some pc). { destruct (p_state (pr b)) eqn:S; [destruct (AD eq_refl) as (_ & _ & x & H & _)|destruct (AC eq_refl) as (_ & (x & H & _) & _)|congruence]; eauto. }
  destruct PC as (pc & P10).
  assert (W : within b c). { unfold step in E. rewrite (z_h _ _ AB) in E. destruct ((c <? s_nc b) && k_term (s_conn b c) && negb (k_torn (s_conn b c))) eqn:L; [|discriminate]. apply andb_true_iff in L as (L & L3). apply andb_true_iff in L as (L1 & _). apply Nat.ltb_lt in L1. apply negb_true_iff in L3. pose proof (z_1 _ _ AB). split; [|exact L1]. destruct c; [congruence|lia]. }
  destruct (AK c W) as (K1 & K2 & K5 & _).
  destruct (n_tear 1%N b s' o AB c pc E (or_introl K1) P10 K5) as (_ & T1 & T2 & EF & F & [(KP & N)|(KP & N)]); [rewrite P3; reflexivity|congruence|split; [exact F|]; rewrite EF; eapply B_tear0; eauto; apply drop_incl|split; [exact F|]; rewrite EF; eapply B_tear; eauto; apply drop_incl].
Qed.
Lemma user_A s' o : step hash2 EUser a = Some (s', o) -> Forall fine o /\ stepA a s' (eff o).
Proof.
  intros E. destruct (i_a _ _ I) as [AB AK AP AO AD AC AH AU]. fold a in AB, AK, AP, AO, AD, AC, AH, AU. destruct (n_user 2%N a s' o AB E) as [(p & c & v & u & U & N & ->)|[(p & c & k & n & x & u & U & N & ->)|(k & c & u & U)]].
  - split; [repeat constructor|]. apply A_mild. eapply M_user; eauto.
  - destruct (AU (UPre p c k n x)) as (? & ? & ? & Q); [rewrite U; left; reflexivity|discriminate].
  - destruct (AU (UUnknown k c)) as (? & ? & ? & Q); [rewrite U; left; reflexivity|discriminate].
Qed.
Lemma user_B s' o : step hash2 EUser b = Some (s', o) -> Forall fine o /\ stepB b s' (eff o).
Proof.
  intros E. destruct (i_b _ _ I) as [AB AK AP AD AC AL AH AU AE]. fold b in AB, AK, AP, AD, AC, AL, AH, AU, AE. destruct (n_user 1%N b s' o AB E) as [(p & c & v & u & U & N & ->)|[(p & c & k & n & x & u & U & N & ->)|(k & c & u & U)]].
  - split; [repeat constructor|]. apply B_mild. eapply M_user; eauto.
  - split; [repeat constructor|]. destruct (AU (UPre p c k n x)) as [(? & ? & ? & Q)|(? & ? & ? & d & Q & _)]; [rewrite U; left; reflexivity|discriminate|]. injection Q as -> -> -> -> ->. eapply B_pre; eauto.
  - destruct (AU (UUnknown k c)) as [(? & ? & ? & Q)|(? & ? & ? & d & Q & _)]; [rewrite U; left; reflexivity|discriminate|discriminate].
Qed.
Lemma beat_A p s' o : step hash2 (EPingT p) a = Some (s', o) -> Forall fine o /\ stepA a s' (eff o).
Proof.
  intros E. destruct (i_a _ _ I) as [AB AK AP AO AD AC AH AU]. fold a in AB, AK, AP, AO, AD, AC, AH, AU. destruct (n_beat 2%N a s' o AB p E) as (P & e & N1 & N2 & N3 & N4 & N5 & N6).
  { intros PG. destruct AH as [(_ & _ & H)|(_ & H1 & H2)]; [congruence|auto]. }
  split; [exact N5|]. rewrite N3. apply A_mild. eapply M_beat; eauto. destruct AH as [(_ & _ & H)|(H1 & _ & _)]; [congruence|auto].
Qed.
Lemma beat_B p s' o : step hash2 (EPingT p) b = Some (s', o) -> Forall fine o /\ stepB b s' (eff o).
Proof.
  intros E. destruct (i_b _ _ I) as [AB AK AP AD AC AL AH AU AE]. fold b in AB, AK, AP, AD, AC, AL, AH, AU, AE. destruct (n_beat 1%N b s' o AB p E) as (P & e & N1 & N2 & N3 & N4 & N5 & N6).
  { intros PG. destruct AH as [(_ & _ & H)|(_ & H1 & H2)]; [congruence|auto]. }
  split; [exact N5|]. rewrite N3. apply B_mild. eapply M_beat; eauto. destruct AH as [(_ & _ & H)|(H1 & _ & _)]; [congruence|auto].
Qed.

Lemma fine_map n (o : list obs) : Forall fine o -> Forall (fun x : bool * obs => fine (snd x)) (map (pair n) o).
Proof. intros F. apply Forall_map. exact F. Qed.

Lemma gone_mates n c : gone n c y = true -> mates n c y.
Proof.
  intros G. apply existsb_exists in G as (l & IL & G). assert (LB : l_by l = false). { apply In_nth_error in IL as (i & NI). apply (i_l _ _ I i l NI). }
  rewrite LB in G. exists l. destruct n; cbn in G.
  - destruct (l_d l) as [d|]; [|discriminate]. cbn in G. destruct (d =? c) eqn:DC; [|discriminate]. apply Nat.eqb_eq in DC. exists d. auto.
  - destruct (l_c l =? c) eqn:DC; [|discriminate]. apply Nat.eqb_eq in DC. destruct (l_d l) as [d|]; [|discriminate]. exists d. auto.
Qed.

Lemma loc_A e y' o : local false e y = Some (y', o) -> (forall s' o, step hash2 e a = Some (s', o) -> Forall fine o /\ stepA a s' (eff o)) -> Forall (fun x : bool * obs => fine (snd x)) o /\ tr y y'.
Proof.
  intros E H. apply local_inv in E as (s1 & o1 & E & -> & ->). cbn [node] in E. destruct (H s1 o1 E) as (F & S). split; [apply fine_map; exact F|]. rewrite route_out. cbn. apply T_A. exact S.
Qed.
Lemma loc_B e y' o : local true e y = Some (y', o) -> (forall s' o, step hash2 e b = Some (s', o) -> Forall fine o /\ stepB b s' (eff o)) -> Forall (fun x : bool * obs => fine (snd x)) o /\ tr y y'.
Proof.
  intros E H. apply local_inv in E as (s1 & o1 & E & -> & ->). cbn [node] in E. destruct (H s1 o1 E) as (F & S). split; [apply fine_map; exact F|]. rewrite route_out. cbn. apply T_B. exact S.
Qed.

Lemma trans e y' o : lossy e -> lstep e y = Some (y', o) -> Forall (fun x : bool * obs => fine (snd x)) o /\ (tr y y' \/ ~ calm e /\ (cut y y' \/ dial y y')).
Proof.
  intros LO E. pose proof (a_b _ _ (i_a _ _ I)) as BA. pose proof (b_b _ (i_b _ _ I)) as BB. fold a b in BA, BB.
  assert (TA : forall c y' o, local false (ETerm c) y = Some (y', o) -> o = [] /\ exists s, y' = mkSys s (y_b y) (y_l y) (y_kill y) /\ within a c /\ k_term (s_conn a c) = false /\ now 2%N s (pr a) (termk (s_conn a) c) (s_nc a) (s_q a) (s_uq a) (s_pend a)).
  { intros c y1 o1 H. apply local_inv in H as (s1 & o2 & H & -> & ->). cbn [node] in H. destruct (n_term 2%N a s1 o2 BA c H) as (N & -> & W & T). split; [reflexivity|]. exists s1. split; [reflexivity|]. auto. }
  assert (TB : forall c y' o, local true (ETerm c) y = Some (y', o) -> o = [] /\ exists s, y' = mkSys (y_a y) s (y_l y) (y_kill y) /\ within b c /\ k_term (s_conn b c) = false /\ now 1%N s (pr b) (termk (s_conn b) c) (s_nc b) (s_q b) (s_uq b) (s_pend b)).
  { intros c y1 o1 H. apply local_inv in H as (s1 & o2 & H & -> & ->). cbn [node] in H. destruct (n_term 1%N b s1 o2 BB c H) as (N & -> & W & T). split; [reflexivity|]. exists s1. split; [reflexivity|]. auto. }
  destruct e as [e|n c].
  2: { destruct n; cbn in E; [destruct (TB c y' o E) as (-> & s & -> & W & T & N)|destruct (TA c y' o E) as (-> & s & -> & W & T & N)]; (split; [constructor|]); right; (split; [intros (_ & [])|]); left; [eapply C_B|eapply C_A]; eauto. }
  destruct e as [n t|n g|n|n c g|n c|n p g|n p|i|i|i f|n c]; cbn [lstep] in E.
  - cbn in LO. unfold pstep in E. assert (HT : harm t) by exact LO. destruct (user_call t); [|discriminate]. destruct n.
    + destruct (loc_B _ _ _ E) as (F & T); auto. intros s' o' S. destruct (n_post 1%N b s' o' BB t S) as (N & -> & _). split; [constructor|]. apply B_mild. eapply M_post; eauto.
    + destruct (loc_A _ _ _ E) as (F & T); auto. intros s' o' S. destruct (n_post 2%N a s' o' BA t S) as (N & -> & _). split; [constructor|]. apply A_mild. eapply M_post; eauto.
  - destruct n; [destruct (loc_B _ _ _ E)|destruct (loc_A _ _ _ E)]; auto; intros; [eapply disp_B|eapply disp_A]; eauto.
  - destruct n; [destruct (loc_B _ _ _ E)|destruct (loc_A _ _ _ E)]; auto; intros; [eapply user_B|eapply user_A]; eauto.
  - destruct n; [destruct (loc_B _ _ _ E)|destruct (loc_A _ _ _ E)]; auto; intros; [eapply set_B|eapply set_A]; eauto.
  - destruct n; [destruct (loc_B _ _ _ E)|destruct (loc_A _ _ _ E)]; auto; intros; [eapply tear_B|eapply tear_A]; eauto.
  - cbn in LO. destruct LO as (GO & GC). apply local_inv in E as (s1 & o1 & E & -> & ->). destruct n; cbn [node] in E.
    + exfalso. unfold step in E. destruct BB as [H1 H2 H3 H4 H5 H6 H7 H8]. fold b in E. rewrite H1 in E. destruct p as [|p]; [|rewrite (H4 (S p)) in E by lia; discriminate]. destruct (b_p _ (i_b _ _ I)) as (_ & _ & _ & TT & _). fold b in TT. rewrite TT, andb_false_r in E. discriminate.
    + destruct (n_retry 2%N a s1 o1 BA p g E GO GC) as (-> & TON & F & EF & N). split; [apply fine_map; exact F|]. right. split; [intros (_ & [])|]. right. rewrite route_out, EF. destruct (a_p _ _ (i_a _ _ I)) as (P1 & P2 & _). fold a in P1, P2.
      rewrite P1 in *. unfold outl, outk. cbn [fold_left outl1 outk1 addr_of negb N.eqb Pos.eqb set_node y_a y_b y_l y_kill].
      replace (fold_left (outl1 false) (out_kill (p_out (pr a))) (y_l y ++ [mkLink false (s_nc a) None [] []])) with (y_l y ++ [mkLink false (s_nc a) None [] []]) by (destruct (p_out (pr a)); reflexivity).
      apply (D_A y s1); auto.
  - destruct n; [destruct (loc_B _ _ _ E)|destruct (loc_A _ _ _ E)]; auto; intros; [eapply beat_B|eapply beat_A]; eauto.
  - cbn [pstep] in E. destruct (nth_error (y_l y) i) as [[by_ c [d|] f g]|] eqn:NI; try discriminate. destruct (i_l _ _ I i _ NI) as (LB & LC & _). cbn in LB, LC. subst by_. cbn [node negb] in E.
    destruct (k_term (s_conn (y_a y) c)) eqn:KT; [discriminate|]. destruct (local true (EAccept (100 + N.of_nat i)%N None) y) as [[y1 o1]|] eqn:LE; [|discriminate]. injection E as <- <-. apply local_inv in LE as (s1 & o2 & LE & -> & ->). cbn [node] in LE.
    destruct (n_accept 1%N b s1 o2 BB _ _ LE) as (-> & N). split; [constructor|]. left. cbn [fold_left map set_node w_l y_a y_b y_l y_kill]. apply (T_accept y i (mkLink false c None f g) s1); auto.
  - cbn [pstep] in E. destruct (nth_error (y_l y) i) as [[by_ c [d|] f g]|] eqn:NI; try discriminate. destruct (i_l _ _ I i _ NI) as (LB & LC & _). cbn in LB, LC. subst by_. cbn [node negb] in E. destruct (k_set (s_conn (y_a y) c)); [discriminate|].
    destruct (TA c y' o E) as (-> & s & -> & W & T & N). split; [constructor|]. right. split; [intros (_ & [])|]. left. eapply C_A; eauto.
  - cbn [pstep] in E. destruct (nth_error (y_l y) i) as [[by_ c [d|] f' g]|] eqn:NI; try discriminate. destruct (i_l _ _ I i _ NI) as (LB & LC & _). cbn in LB, LC. subst by_. cbn [node negb] in E. destruct f.
    + destruct f' as [|m f']; [discriminate|]. apply local_inv in E as (s1 & o1 & E & -> & ->). cbn [node w_l y_b] in E. destruct (n_post 1%N b s1 o1 BB _ E) as (N & -> & PO). split; [constructor|]. left. cbn [fold_left set_node w_l y_a y_b y_l y_kill].
      apply (T_getB y i (mkLink false c (Some d) (m :: f') g) d m f' s1); auto. destruct m as [[|]|[|]]; cbn in PO; apply andb_true_iff in PO as (_ & PO); exact PO.
    + destruct g as [|m g]; [discriminate|]. apply local_inv in E as (s1 & o1 & E & -> & ->). cbn [node w_l y_a] in E. destruct (n_post 2%N a s1 o1 BA _ E) as (N & -> & PO). split; [constructor|]. left. cbn [fold_left set_node w_l y_a y_b y_l y_kill].
      apply (T_getA y i (mkLink false c (Some d) f' (m :: g)) d m g s1); auto. destruct m as [[|]|[|]]; cbn in PO; apply andb_true_iff in PO as (_ & PO); exact PO.
  - cbn [pstep] in E. destruct (existsb (fun x => eqb (fst x) n && (snd x =? c)) (y_kill y) || gone n c y) eqn:G; [|discriminate].
    assert (WH : In (n, c) (y_kill y) \/ mates n c y). { apply orb_true_iff in G as [G|G]; [left|right; apply gone_mates; exact G]. apply existsb_exists in G as ([n' c'] & IK & G). cbn in G. apply andb_true_iff in G as (G1 & G2). apply eqb_prop in G1. apply Nat.eqb_eq in G2. subst. exact IK. }
    destruct n; [destruct (TB c y' o E) as (-> & s & -> & W & T & N)|destruct (TA c y' o E) as (-> & s & -> & W & T & N)]; (split; [constructor|]); left; [eapply T_termB|eapply T_termA]; eauto.
Qed.
End Tr.

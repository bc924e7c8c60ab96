(** The table of known peers used from any threads (RaceModel): C125, C126. *)
From Coq Require Import Arith List Bool Lia.
From Verif Require Import RaceModel.
Import ListNotations.

Lemma teq_eq a b : teq a b = true <-> a = b.
Proof. destruct a, b; cbn; split; intros H; try discriminate; auto; [apply Nat.eqb_eq in H|inversion H; subst; apply Nat.eqb_eq]; congruence. Qed.
Lemma teq_refl a : teq a a = true.
Proof. apply teq_eq. reflexivity. Qed.
Lemma teq_ne a b : a <> b -> teq a b = false.
Proof. intros N. destruct (teq a b) eqn:E; [apply teq_eq in E; contradiction|reflexivity]. Qed.
Lemma tupd_same {A} (f : tid -> A) t x : tupd f t x t = x.
Proof. unfold tupd. rewrite teq_refl. reflexivity. Qed.
Lemma tupd_other {A} (f : tid -> A) t x u : u <> t -> tupd f t x u = f u.
Proof. intros N. unfold tupd. rewrite teq_ne; auto. Qed.
Lemma tid_dec (a b : tid) : {a = b} + {a <> b}.
Proof. destruct (teq a b) eqn:E; [left; apply teq_eq; exact E|right; intros ->; rewrite teq_refl in E; discriminate]. Qed.

(** ** The invariant *)
Fixpoint wfp (h : mode) (f : bool) (l : list instr) : bool :=
  match l with
  | [] => match h with HN => true | _ => false end
  | ILockS :: r => match h with HN => wfp HS f r | _ => false end
  | ILockX :: r => match h with HN => wfp HX f r | _ => false end
  | IUnlock :: r => match h with HN => false | _ => wfp HN f r end
  | IFind _ :: r => wfp h true r
  | IFresh _ :: r | IHas _ :: r => wfp h f r
  | IInsert _ _ :: r => match h with HX => wfp h f r | _ => false end
  | IErase _ :: r => match h with HX => wfp h false r | _ => false end
  | IWr FConn :: _ => false
  | IGet :: r | IConn _ :: r | IRd _ :: r | IWr FRest :: r => f && wfp h f r
  end.
Fixpoint dsafe (tab : nat -> option nat) (l : list instr) : Prop :=
  match l with
  | [] => True
  | IFind i :: r => tab i <> None -> dsafe tab r
  | IFresh i :: r => tab i = None -> dsafe tab r
  | IInsert i _ :: r => tab i = None /\ r = [IUnlock]
  | IErase i :: r => tab i <> None /\ r = [IUnlock]
  | IConn _ :: r => r = [IUnlock]
  | _ :: r => dsafe tab r
  end.
Definition is_some {A} (o : option A) : bool := match o with Some _ => true | None => false end.

Inductive ush (s : st) (h : mode) (i : nat) : list instr -> option nat -> list nat -> status -> Prop :=
| u_0 : h = HN -> ush s h i [ILockS; IFind i; IGet; IUnlock] None [] Ok
| u_1 : h = HS -> ush s h i [IFind i; IGet; IUnlock] None [] Ok
| u_2 p : h = HS -> s_tab s i = Some p -> ush s h i [IGet; IUnlock] (Some p) [] Ok
| u_3 r a e : h = HS -> ush s h i [IUnlock] r a e
| u_4 r a e : h = HN -> ush s h i [] r a e.

Record Inv (s : st) : Prop := {
  v_excl : s_wr s <> None -> s_rd s = [];
  v_wr : forall t, s_wr s = Some t -> t = D;
  v_idle : forall t, s_call s t = None -> hold s t = HN;
  v_live : forall i p, s_tab s i = Some p -> s_live s p = true;
  v_next : forall p, s_live s p = true -> p < s_next s;
  v_inj : forall i j p, s_tab s i = Some p -> s_tab s j = Some p -> i = j;
  v_dw : forall k, s_call s D = Some k -> wfp (hold s D) (is_some (k_reg k)) (k_rest k) = true;
  v_ds : forall k, s_call s D = Some k -> dsafe (s_tab s) (k_rest k);
  v_dr : forall k p, s_call s D = Some k -> k_reg k = Some p -> s_live s p = true;
  v_u : forall n k, s_call s (U n) = Some k -> exists i, k_op k = OSend i /\ ush s (hold s (U n)) i (k_rest k) (k_reg k) (k_acc k) (k_st k) }.

(** Holding the lock. *)
Lemma hold_X s t : Inv s -> hold s t = HX <-> s_wr s = Some t.
Proof.
  intros V. unfold hold. destruct (s_wr s) as [u|] eqn:E.
  - destruct (teq t u) eqn:T; [apply teq_eq in T; subst; tauto|]. destruct (existsb _ _) eqn:Q; split; intros H; try discriminate; injection H as ->; rewrite teq_refl in T; discriminate.
  - destruct (existsb _ _); split; discriminate.
Qed.
Lemma hold_S s t : Inv s -> hold s t = HS <-> In t (s_rd s).
Proof.
  intros V. unfold hold. destruct (s_wr s) as [u|] eqn:E.
  - rewrite (v_excl s V) by congruence. cbn. destruct (teq t u); split; intros H; try discriminate; contradiction.
  - destruct (existsb (teq t) (s_rd s)) eqn:Q.
    + apply existsb_exists in Q as (u & I & T). apply teq_eq in T as <-. tauto.
    + split; [discriminate|]. intros I. assert (existsb (teq t) (s_rd s) = true) by (apply existsb_exists; exists t; split; [exact I|apply teq_refl]). congruence.
Qed.

Lemma hold_call s t k u : hold (w_call t k s) u = hold s u.
Proof. reflexivity. Qed.
Lemma hold_rd s t u : s_wr s = None -> hold (w_lock (t :: s_rd s) (s_wr s) s) u = if teq u t then HS else hold s u.
Proof. intros W. unfold hold. cbn [w_lock s_wr s_rd existsb]. rewrite W. destruct (teq u t); reflexivity. Qed.
Lemma hold_wr s t u : s_wr s = None -> s_rd s = [] -> hold (w_lock [] (Some t) s) u = if teq u t then HX else hold s u.
Proof. intros W R. unfold hold. cbn [w_lock s_wr s_rd existsb]. rewrite W, R. destruct (teq u t); reflexivity. Qed.
Lemma teq_sym a b : teq a b = teq b a.
Proof. destruct (teq a b) eqn:E; [apply teq_eq in E as ->; rewrite teq_refl; reflexivity|]. destruct (teq b a) eqn:F; [apply teq_eq in F as ->; rewrite teq_refl in E; discriminate|reflexivity]. Qed.
Lemma hold_un s t u : hold (w_lock (filter (fun x => negb (teq t x)) (s_rd s)) (match s_wr s with Some x => if teq t x then None else Some x | None => None end) s) u
  = if teq u t then HN else hold s u.
Proof.
  unfold hold. cbn [w_lock s_wr s_rd].
  assert (F : forall l, existsb (teq u) (filter (fun x => negb (teq t x)) l) = if teq u t then false else existsb (teq u) l).
  { induction l as [|x l IH]; [cbn; destruct (teq u t); reflexivity|]. cbn [filter existsb]. destruct (teq t x) eqn:T.
    - apply teq_eq in T as <-. cbn [negb]. rewrite IH. destruct (teq u t); reflexivity.
    - cbn [negb existsb]. rewrite IH. destruct (teq u t) eqn:UT; [|reflexivity]. apply teq_eq in UT as ->. rewrite T. reflexivity. }
  rewrite F. destruct (s_wr s) as [x|].
  - destruct (teq t x) eqn:T.
    + apply teq_eq in T as <-. destruct (teq u t); reflexivity.
    + destruct (teq u t) eqn:UT; [apply teq_eq in UT as ->; rewrite T; reflexivity|reflexivity].
  - destruct (teq u t); reflexivity.
Qed.

Lemma prog_wf o : wfp HN (is_some (k_reg (begin o))) (prog o) = true.
Proof.
  destruct o as [i c|i|i|i|i|i|i|l|i [c|]|i|p]; try reflexivity.
  cbn [prog wfp begin k_reg is_some]. assert (G : forall f, wfp HS f (flat_map (fun i => [IFind i; IGet]) l ++ [IUnlock]) = true); [|apply G].
  induction l as [|i l IH]; intros f; [reflexivity|]. cbn. apply IH.
Qed.
Lemma prog_ds tab o : dsafe tab (prog o).
Proof.
  destruct o as [i c|i|i|i|i|i|i|l|i [c|]|i|p]; cbn; auto.
  induction l as [|i l IH]; cbn; auto.
Qed.

Lemma Inv0 : Inv st0.
Proof. constructor; cbn; try discriminate; try congruence; auto. Qed.

Lemma upd_same {A} (f : nat -> A) n x : upd f n x n = x.
Proof. unfold upd. rewrite Nat.eqb_refl. reflexivity. Qed.
Lemma upd_other {A} (f : nat -> A) n x m : m <> n -> upd f n x m = f m.
Proof. intros N. unfold upd. destruct (Nat.eqb m n) eqn:E; [apply Nat.eqb_eq in E; contradiction|reflexivity]. Qed.

(** A step that changes a call only (and perhaps what its thread holds). *)
Lemma Inv_call s t k r w : Inv s -> s_call s t <> None ->
  let s' := w_call t (Some k) (w_lock r w s) in
  (w <> None -> r = []) -> (forall u, w = Some u -> u = D) ->
  (forall u, u <> t -> hold s' u = hold s u) ->
  (t = D -> wfp (hold s' D) (is_some (k_reg k)) (k_rest k) = true /\ dsafe (s_tab s) (k_rest k) /\ (forall p, k_reg k = Some p -> s_live s p = true)) ->
  (forall n, t = U n -> exists i, k_op k = OSend i /\ ush s (hold s' (U n)) i (k_rest k) (k_reg k) (k_acc k) (k_st k)) -> Inv s'.
Proof.
  intros V B s' C1 C2 C3 CD CU. assert (OTH : forall u, u <> t -> s_call s' u = s_call s u) by (intros u N; apply (tupd_other (s_call s) t (Some k) u N)).
  assert (OWN : s_call s' t = Some k) by apply (tupd_same (s_call s)).
  constructor; try (cbn; intros; first [apply C1|apply C2|eapply (v_live s V)|eapply (v_next s V)|eapply (v_inj s V)]; eassumption).
  - intros u E. destruct (tid_dec u t) as [->|N]; [rewrite OWN in E; discriminate|]. rewrite OTH in E by exact N. rewrite C3 by exact N. apply (v_idle s V). exact E.
  - intros k' E. destruct (tid_dec D t) as [<-|N]; [rewrite OWN in E; injection E as <-; apply CD; reflexivity|]. rewrite OTH in E by exact N. rewrite C3 by exact N. apply (v_dw s V). exact E.
  - intros k' E. destruct (tid_dec D t) as [<-|N]; [rewrite OWN in E; injection E as <-; apply CD; reflexivity|]. rewrite OTH in E by exact N. apply (v_ds s V). exact E.
  - intros k' p E R. destruct (tid_dec D t) as [<-|N]; [rewrite OWN in E; injection E as <-; apply CD; auto|]. rewrite OTH in E by exact N. apply (v_dr s V k' p E R).
  - intros n k' E. destruct (tid_dec (U n) t) as [<-|N].
    + rewrite OWN in E; injection E as <-. destruct (CU n eq_refl) as (i & O & H). exists i. split; [exact O|]. inversion H; subst; econstructor; eauto.
    + rewrite OTH in E by exact N. rewrite C3 by exact N. destruct (v_u s V n k' E) as (i & O & H). exists i. split; [exact O|]. inversion H; subst; econstructor; eauto.
Qed.
Lemma w_lock_id s : w_lock (s_rd s) (s_wr s) s = s.
Proof. destruct s; reflexivity. Qed.

Lemma Inv_quiet s t k : Inv s -> s_call s t <> None ->
  (t = D -> wfp (hold s D) (is_some (k_reg k)) (k_rest k) = true /\ dsafe (s_tab s) (k_rest k) /\ (forall p, k_reg k = Some p -> s_live s p = true)) ->
  (forall n, t = U n -> exists i, k_op k = OSend i /\ ush s (hold s (U n)) i (k_rest k) (k_reg k) (k_acc k) (k_st k)) -> Inv (w_call t (Some k) s).
Proof.
  intros V B CD CU. rewrite <- (w_lock_id s) at 1. apply Inv_call; auto; [exact (v_excl s V)|exact (v_wr s V)].
Qed.

(** A change of the table, made while the lock is held exclusively: no other
    thread depends on it. *)
Lemma no_reader s u : Inv s -> s_wr s = Some D -> u <> D -> hold s u = HN.
Proof.
  intros V W N. unfold hold. rewrite W, (teq_ne _ _ N), (v_excl s V) by congruence. reflexivity.
Qed.
Lemma ush_none s s' h i l r a e : h = HN -> ush s h i l r a e -> ush s' h i l r a e.
Proof. intros -> H. inversion H; subst; try discriminate; econstructor; eauto. Qed.
Lemma ush_tab s s' h i l r a e : s_tab s' = s_tab s -> ush s h i l r a e -> ush s' h i l r a e.
Proof. intros T H. inversion H; subst; econstructor; eauto. rewrite T. assumption. Qed.

Lemma exec_U pref n i k s s' : Inv s -> s_call s (U n) = Some k -> k_rest k = i :: tl (k_rest k) -> exec pref (U n) i k s = Some s' -> Inv s'.
Proof.
  intros V E R X. destruct (v_u s V n k E) as (j & O & H). destruct k as [o l r a e]. cbn [k_op k_rest k_reg k_acc k_st] in *. subst o.
  assert (B : s_call s (U n) <> None) by congruence.
  inversion H as [HH|HH|p HH T|r' a' e' HH|r' a' e' HH]; subst; rewrite <- ?H0, <- ?H1 in *; cbn [tl] in R; try discriminate; injection R as <-; cbn [exec k_op k_rest k_reg k_acc k_st tl] in X.
  - destruct (s_wr s) as [u|] eqn:W; [discriminate|]. destruct (pref && wants s); [discriminate|]. injection X as <-. rewrite <- W. apply Inv_call; auto.
    + rewrite W. congruence.
    + rewrite W. discriminate.
    + intros u N. rewrite hold_call, hold_rd by exact W. rewrite teq_ne by exact N. reflexivity.
    + discriminate.
    + intros m M. injection M as <-. exists j. split; [reflexivity|]. cbn [k_rest k_reg k_acc k_st]. apply u_1. rewrite hold_call, hold_rd by exact W. rewrite teq_refl. reflexivity.
  - injection X as <-. destruct (s_tab s j) as [p|] eqn:T; apply Inv_quiet; auto; try discriminate; intros m M; injection M as <-; exists j; (split; [reflexivity|]); cbn [k_rest k_reg k_acc k_st].
    + apply u_2; auto.
    + rewrite HH. cbn [abort]. apply u_3. reflexivity.
  - injection X as <-. apply Inv_quiet; auto; try discriminate. intros m M; injection M as <-; exists j; (split; [reflexivity|]); cbn [k_rest k_reg k_acc k_st]. apply u_3. exact HH.
  - injection X as <-. assert (W : s_wr s = None). { destruct (s_wr s) as [u|] eqn:W; [|reflexivity]. exfalso. pose proof (v_wr s V u W) as ->. rewrite (no_reader s (U n) V W) in HH; discriminate. }
    apply Inv_call; auto; try discriminate.
    + rewrite W. congruence.
    + rewrite W. discriminate.
    + intros u N. rewrite hold_call. etransitivity; [exact (hold_un s (U n) u)|]. rewrite teq_ne by exact N. reflexivity.
    + intros m M; injection M as <-; exists j; (split; [reflexivity|]); cbn [k_rest k_reg k_acc k_st]. apply u_4. rewrite hold_call. etransitivity; [exact (hold_un s (U n) (U n))|]. rewrite teq_refl. reflexivity.
Qed.

Lemma Inv_tab s k s' : Inv s -> s_call s D <> None -> s_wr s' = s_wr s -> s_rd s' = s_rd s -> s_call s' = tupd (s_call s) D (Some k) ->
  (s_wr s = Some D \/ s_tab s' = s_tab s) ->
  (forall i p, s_tab s' i = Some p -> s_live s' p = true) -> (forall p, s_live s' p = true -> p < s_next s') -> (forall i j p, s_tab s' i = Some p -> s_tab s' j = Some p -> i = j) ->
  wfp (hold s D) (is_some (k_reg k)) (k_rest k) = true -> dsafe (s_tab s') (k_rest k) -> (forall p, k_reg k = Some p -> s_live s' p = true) -> Inv s'.
Proof.
  intros V B EW ER EC T L NX J WF DS DR. assert (HO : forall u, hold s' u = hold s u) by (intros u; unfold hold; rewrite EW, ER; reflexivity).
  constructor; auto.
  - rewrite EW, ER. exact (v_excl s V).
  - rewrite EW. exact (v_wr s V).
  - intros t. rewrite EC, HO. unfold tupd. destruct (teq t D); [discriminate|apply (v_idle s V)].
  - intros k'. rewrite EC, tupd_same, HO. intros Q. injection Q as <-. exact WF.
  - intros k'. rewrite EC, tupd_same. intros Q. injection Q as <-. exact DS.
  - intros k' p. rewrite EC, tupd_same. intros Q. injection Q as <-. apply DR.
  - intros n k'. rewrite EC, tupd_other by discriminate. rewrite HO. intros Q. destruct (v_u s V n k' Q) as (i & O & H). exists i. split; [exact O|].
    destruct T as [W|T]; [apply (ush_none s); [apply no_reader; auto; discriminate|exact H]|apply (ush_tab s); assumption].
Qed.

Lemma exec_D pref i k s s' : Inv s -> s_call s D = Some k -> k_rest k = i :: tl (k_rest k) -> exec pref D i k s = Some s' -> Inv s'.
Proof.
  intros V E R X. pose proof (v_dw s V k E) as WF. pose proof (v_ds s V k E) as DS. pose proof (v_dr s V k) as DR. specialize (fun p => DR p E).
  destruct k as [o l r a e]. cbn [k_op k_rest k_reg k_acc k_st] in *. assert (B : s_call s D <> None) by congruence.
  destruct l as [|i' l]; [discriminate|]. cbn [tl] in R. injection R as <-.
  destruct i'; cbn [exec k_op k_rest k_reg k_acc k_st tl wfp dsafe] in X, WF, DS.
  - destruct (s_wr s) as [u|] eqn:W; [discriminate|]. destruct (pref && wants s); [discriminate|]. injection X as <-. rewrite <- W. destruct (hold s D) eqn:H; try discriminate. apply Inv_call; auto.
    + rewrite W. congruence.
    + rewrite W. discriminate.
    + intros u N. rewrite hold_call, hold_rd, teq_ne by assumption. reflexivity.
    + intros _. rewrite hold_call, hold_rd, teq_refl by assumption. auto.
    + discriminate.
  - destruct (s_wr s) as [u|] eqn:W; [discriminate|]. destruct (s_rd s) eqn:RD; [|discriminate]. injection X as <-. destruct (hold s D) eqn:H; try discriminate. apply Inv_call; auto.
    + intros u Q. congruence.
    + intros u N. rewrite hold_call, hold_wr by assumption. rewrite teq_ne by exact N. reflexivity.
    + discriminate.
  - injection X as <-. assert (WFN : wfp HN (is_some r) l = true) by (destruct (hold s D); [discriminate|exact WF|exact WF]). apply Inv_call; auto; try discriminate.
    + intros Q. destruct (s_wr s) as [u|] eqn:W; [|congruence]. rewrite (v_excl s V) by congruence. reflexivity.
    + intros u. destruct (s_wr s) as [x|] eqn:W; [|discriminate]. pose proof (v_wr s V x W) as ->. discriminate.
    + intros u N. rewrite hold_call. etransitivity; [exact (hold_un s D u)|]. rewrite teq_ne by exact N. reflexivity.
    + intros _. rewrite hold_call. pose proof (hold_un s D D) as G. rewrite teq_refl in G. cbn [teq] in G. cbn [k_reg k_rest]. rewrite G. auto.
  - injection X as <-. destruct (s_tab s i) as [p|] eqn:T; apply Inv_quiet; auto; try discriminate; intros _; cbn [k_reg k_rest is_some].
    + split; [exact WF|]. split; [apply DS; congruence|]. intros q Q. injection Q as <-. apply (v_live s V i). exact T.
    + split; [destruct (hold s D); reflexivity|]. split; [destruct (hold s D); exact I|exact DR].
  - injection X as <-. destruct (s_tab s i) as [p|] eqn:T; apply Inv_quiet; auto; try discriminate; intros _; cbn [k_reg k_rest is_some].
    + split; [destruct (hold s D); reflexivity|]. split; [destruct (hold s D); exact I|exact DR].
  - injection X as <-. apply Inv_quiet; auto; try discriminate.
  - injection X as <-. destruct DS as (T & ->). destruct (hold s D) eqn:H; try discriminate. apply hold_X in H; [|exact V].
    assert (FR : s_live s (s_next s) = false) by (destruct (s_live s (s_next s)) eqn:L; [apply (v_next s V) in L; lia|reflexivity]).
    eapply (Inv_tab s); [exact V|exact B|..]; cbn [w_call s_tab s_next s_live s_conn s_rd s_wr s_call k_reg k_rest]; try reflexivity.
    + left. exact H.
    + intros j p. unfold upd. destruct (Nat.eqb j i); intros Q; [injection Q as <-; rewrite Nat.eqb_refl; reflexivity|]. destruct (Nat.eqb p (s_next s)); [reflexivity|]. apply (v_live s V j). exact Q.
    + intros p. unfold upd. destruct (Nat.eqb p (s_next s)) eqn:Q; [apply Nat.eqb_eq in Q; lia|]. intros L. apply (v_next s V) in L. lia.
    + assert (NEW : forall j, s_tab s j = Some (s_next s) -> False) by (intros j Q; apply (v_live s V) in Q; congruence).
      intros j1 j2 p. unfold upd. destruct (Nat.eqb j1 i) eqn:Q1, (Nat.eqb j2 i) eqn:Q2; intros A1 A2; try apply Nat.eqb_eq in Q1; try apply Nat.eqb_eq in Q2; try congruence.
      apply (v_inj s V _ _ p); assumption.
    + apply hold_X in H; [|exact V]. rewrite H. reflexivity.
    + intros p RG. unfold upd. destruct (Nat.eqb p (s_next s)); [reflexivity|]. apply DR. exact RG.
  - destruct (s_tab s i) as [p|] eqn:T; [|discriminate]. injection X as <-. destruct DS as (_ & ->). destruct (hold s D) eqn:H; try discriminate. apply hold_X in H; [|exact V].
    eapply (Inv_tab s); [exact V|exact B|..]; cbn [w_call s_tab s_next s_live s_conn s_rd s_wr s_call k_reg k_rest]; try reflexivity; try discriminate.
    + left. exact H.
    + intros j q. unfold upd. destruct (Nat.eqb j i) eqn:J; [discriminate|]. intros Q. destruct (Nat.eqb q p) eqn:QP; [|apply (v_live s V j); exact Q]. apply Nat.eqb_eq in QP as ->. apply Nat.eqb_neq in J. destruct (J (v_inj s V _ _ _ Q T)).
    + intros q. unfold upd. destruct (Nat.eqb q p); [discriminate|]. apply (v_next s V).
    + intros j1 j2 q. unfold upd. destruct (Nat.eqb j1 i), (Nat.eqb j2 i); try discriminate. apply (v_inj s V).
    + apply hold_X in H; [|exact V]. rewrite H. reflexivity.
  - destruct r as [p|]; [|discriminate]. injection X as <-. apply Inv_quiet; auto; try discriminate.
  - destruct r as [p|]; [|discriminate]. injection X as <-. cbn [is_some andb] in WF. eapply (Inv_tab s); [exact V|exact B|..]; cbn [w_call s_tab s_next s_live s_conn s_rd s_wr s_call k_reg k_rest]; try reflexivity.
    + right. reflexivity.
    + exact (v_live s V).
    + exact (v_next s V).
    + exact (v_inj s V).
    + exact WF.
    + subst l. exact I.
    + exact DR.
  - destruct r as [p|]; [|discriminate]. injection X as <-. apply Inv_quiet; auto; try discriminate.
  - destruct r as [p|]; [|discriminate]. injection X as <-. destruct f; [discriminate|]. apply Inv_quiet; auto; try discriminate.
Qed.

Lemma step_inv pref e s s' o : Inv s -> step pref e s = Some (s', o) -> Inv s'.
Proof.
  intros V X. destruct e as [t op0|t|t]; cbn [step] in X; destruct (s_call s t) as [k|] eqn:E; try discriminate.
  - destruct (runs t op0 s) eqn:R; [|discriminate]. injection X as <- <-.
    assert (OTH : forall u, u <> t -> s_call (w_call t (Some (begin op0)) s) u = s_call s u) by (intros u N; apply (tupd_other (s_call s) t _ u N)).
    assert (OWN : s_call (w_call t (Some (begin op0)) s) t = Some (begin op0)) by apply (tupd_same (s_call s)).
    constructor; try (cbn; intros; first [apply (v_excl s V)|apply (v_wr s V)|eapply (v_live s V)|eapply (v_next s V)|eapply (v_inj s V)]; eassumption).
    + intros u Q. destruct (tid_dec u t) as [->|N]; [rewrite OWN in Q; discriminate|]. rewrite OTH in Q by exact N. apply (v_idle s V). exact Q.
    + intros k Q. destruct (tid_dec D t) as [<-|N]; [|rewrite OTH in Q by exact N; apply (v_dw s V); exact Q]. rewrite OWN in Q; injection Q as <-. rewrite hold_call, (v_idle s V D E). apply prog_wf.
    + intros k Q. destruct (tid_dec D t) as [<-|N]; [|rewrite OTH in Q by exact N; apply (v_ds s V); exact Q]. rewrite OWN in Q; injection Q as <-. apply prog_ds.
    + intros k p Q RG. destruct (tid_dec D t) as [<-|N]; [|rewrite OTH in Q by exact N; apply (v_dr s V k p Q RG)]. rewrite OWN in Q; injection Q as <-. destruct op0; try discriminate. injection RG as <-. exact R.
    + intros n k Q. destruct (tid_dec (U n) t) as [<-|N].
      * rewrite OWN in Q; injection Q as <-. destruct op0; try discriminate. exists i. split; [reflexivity|]. apply u_0. apply (v_idle s V (U n) E).
      * rewrite OTH in Q by exact N. destruct (v_u s V n k Q) as (i & O & H). exists i. split; [exact O|]. apply (ush_tab s); [reflexivity|exact H].
  - destruct (k_rest k) as [|i l] eqn:L; [discriminate|]. destruct (exec pref t i k s) as [s1|] eqn:Y; [|discriminate]. injection X as <- <-.
    destruct t as [|n]; [apply (exec_D pref i k s s1 V E)|apply (exec_U pref n i k s s1 V E)]; rewrite ?L; auto.
  - destruct (k_rest k) as [|i l] eqn:L; [|discriminate]. injection X as <- <-.
    assert (OTH : forall u, u <> t -> s_call (w_call t None s) u = s_call s u) by (intros u N; apply (tupd_other (s_call s) t _ u N)).
    assert (OWN : s_call (w_call t None s) t = None) by apply (tupd_same (s_call s)).
    assert (HH : hold s t = HN). { destruct t as [|n]; [pose proof (v_dw s V k E) as Q; rewrite L in Q; cbn in Q; destruct (hold s D); [reflexivity|discriminate|discriminate]|]. destruct (v_u s V n k E) as (i & O & H). rewrite L in H. inversion H; subst. assumption. }
    constructor; try (cbn; intros; first [apply (v_excl s V)|apply (v_wr s V)|eapply (v_live s V)|eapply (v_next s V)|eapply (v_inj s V)]; eassumption).
    + intros u Q. destruct (tid_dec u t) as [->|N]; [exact HH|]. rewrite OTH in Q by exact N. apply (v_idle s V). exact Q.
    + intros k' Q. destruct (tid_dec D t) as [<-|N]; [rewrite OWN in Q; discriminate|rewrite OTH in Q by exact N; apply (v_dw s V); exact Q].
    + intros k' Q. destruct (tid_dec D t) as [<-|N]; [rewrite OWN in Q; discriminate|rewrite OTH in Q by exact N; apply (v_ds s V); exact Q].
    + intros k' p Q RG. destruct (tid_dec D t) as [<-|N]; [rewrite OWN in Q; discriminate|rewrite OTH in Q by exact N; apply (v_dr s V k' p Q RG)].
    + intros n k' Q. destruct (tid_dec (U n) t) as [<-|N]; [rewrite OWN in Q; discriminate|]. rewrite OTH in Q by exact N. destruct (v_u s V n k' Q) as (i & O & H). exists i. split; [exact O|]. apply (ush_tab s); [reflexivity|exact H].
Qed.

Lemma run_app pref a b s s' o : run pref (a ++ b) s = Some (s', o) -> exists s1 o1 o2, run pref a s = Some (s1, o1) /\ run pref b s1 = Some (s', o2) /\ o = o1 ++ o2.
Proof.
  revert s o. induction a as [|e a IH]; intros s o X; [exists s, [], o; auto|]. cbn [app run] in X. destruct (step pref e s) as [(s1 & o1)|] eqn:E; [|discriminate].
  destruct (run pref (a ++ b) s1) as [(s2 & o2)|] eqn:R; [|discriminate]. injection X as <- <-. destruct (IH _ _ R) as (s3 & o3 & o4 & R1 & R2 & ->).
  exists s3, (o1 ++ o3), o4. cbn [run]. rewrite E, R1. cbn. rewrite app_assoc. auto.
Qed.
Lemma run_snoc pref a e s s' o : run pref (a ++ [e]) s = Some (s', o) -> exists s1 o1 o2, run pref a s = Some (s1, o1) /\ step pref e s1 = Some (s', o2) /\ o = o1 ++ o2.
Proof.
  intros X. destruct (run_app _ _ _ _ _ _ X) as (s1 & o1 & o2 & R & R2 & ->). exists s1, o1, o2. split; [exact R|]. cbn [run] in R2. destruct (step pref e s1) as [(s2 & o3)|]; [|discriminate].
  cbn in R2. injection R2 as <- <-. rewrite app_nil_r. auto.
Qed.
Lemma run_inv pref es s s' o : Inv s -> run pref es s = Some (s', o) -> Inv s'.
Proof.
  revert s o. induction es as [|e es IH]; intros s o V X; cbn [run] in X; [injection X as <- <-; exact V|].
  destruct (step pref e s) as [(s1 & o1)|] eqn:E; [|discriminate]. destruct (run pref es s1) as [(s2 & o2)|] eqn:R; [|discriminate]. injection X as <- <-. apply (IH s1 o2); [apply (step_inv pref e s s1 o1 V E)|exact R].
Qed.

(** ** C125: races *)
Lemma accs_U s n v w : Inv s -> In (v, w) (accs s (U n)) -> w = false /\ hold s (U n) = HS /\
  (v = VTab \/ exists p k l, v = VFld p FConn /\ s_call s (U n) = Some k /\ k_reg k = Some p /\ k_rest k = IGet :: l /\ s_live s p = true).
Proof.
  intros V I. unfold accs in I. destruct (s_call s (U n)) as [k|] eqn:E; [|destruct I]. destruct (v_u s V n k E) as (i & O & H).
  destruct k as [o l r a e]. cbn [k_op k_rest k_reg k_acc k_st] in *. inversion H; subst; cbn [In] in I; try contradiction.
  - destruct I as [I|[]]. injection I as <- <-. auto.
  - destruct I as [I|[]]. injection I as <- <-. split; [reflexivity|]. split; [assumption|]. right. eexists _, _, _. split; [reflexivity|]. split; [reflexivity|]. cbn. split; [reflexivity|]. split; [reflexivity|]. apply (v_live s V i). assumption.
Qed.
Lemma accs_D s v w : Inv s -> In (v, w) (accs s D) -> w = true ->
  hold s D = HX \/ (exists p, v = VFld p FRest) \/ (exists p k c l, v = VFld p FConn /\ s_call s D = Some k /\ k_reg k = Some p /\ k_rest k = IConn c :: l).
Proof.
  intros V I ->. unfold accs in I. destruct (s_call s D) as [k|] eqn:E; [|destruct I]. pose proof (v_dw s V k E) as W.
  destruct k as [o l r a e]. cbn [k_op k_rest k_reg k_acc k_st] in *. destruct l as [|i l]; [destruct I|]. cbn [wfp] in W.
  destruct i; cbn [In] in I; try contradiction; try (destruct (hold s D); auto; discriminate); try (destruct I as [I|[]]; discriminate); try (destruct r as [p|]; cbn [In fst snd] in I; [|contradiction]; destruct I as [I|[]]; try discriminate).
  - injection I as <-. right. right. eexists _, _, _, _. split; [reflexivity|]. split; [reflexivity|]. split; reflexivity.
  - injection I as <-. destruct f; [discriminate|]. right. left. eauto.
Qed.

(** In full: no state has a race. *)
Definition C125_race_full : Prop := forall pref es s o v, run pref es st0 = Some (s, o) -> ~ race pref s v.

Fixpoint steps (t : tid) (n : nat) : list ev := match n with 0 => [] | Datatypes.S m => EStep t :: steps t m end.
Definition whole (t : tid) (o : op) (n : nat) : list ev := EStart t o :: steps t n ++ [EEnd t].
(** A peer is added; its handshake ends while the user sends to it. *)
Definition racy : list ev := whole D (OAdd 7 1) 4 ++ EStart D (OShake 7 (Some 2)) :: steps D 5 ++ EStart (U 0) (OSend 7) :: steps (U 0) 2.
Theorem C125_race_refuted : forall pref, exists es s o p, run pref es st0 = Some (s, o) /\ race pref s (VFld p FConn).
Proof.
  intros pref. exists racy. destruct (run pref racy st0) as [(s & o)|] eqn:E.
  2: { assert (Z : (if run pref racy st0 then true else false) = true) by (destruct pref; vm_compute; reflexivity). rewrite E in Z. discriminate Z. }
  assert (K : option_map (fun x => (s_call (fst x) D, s_call (fst x) (U 0))) (run pref racy st0) = Some (Some (mkCall (OShake 7 (Some 2)) [IConn 2; IUnlock] (Some 0) [] Ok), Some (mkCall (OSend 7) [IGet; IUnlock] (Some 0) [] Ok))) by (destruct pref; vm_compute; reflexivity).
  rewrite E in K. cbn [option_map fst] in K. injection K as K1 K2.
  exists s, o, 0. split; [reflexivity|]. exists D, (U 0), true, false. split; [discriminate|]. split; [reflexivity|].
  split; [eexists; cbn [step]; rewrite K1; cbn [k_rest exec k_reg option_map]; reflexivity|]. split; [eexists; cbn [step]; rewrite K2; cbn [k_rest exec k_reg option_map]; reflexivity|].
  unfold accs. rewrite K1, K2. cbn. auto.
Qed.
Print Assumptions C125_race_refuted.

Lemma incl_step pref e s s' o : step pref e s = Some (s', o) -> (forall t k, s_call s t = Some k -> incl (k_rest k) (IUnlock :: prog (k_op k))) -> forall t k, s_call s' t = Some k -> incl (k_rest k) (IUnlock :: prog (k_op k)).
Proof.
  intros X H t k Q.
  assert (TL : forall t k, s_call s t = Some k -> incl (tl (k_rest k)) (IUnlock :: prog (k_op k))).
  { intros u k' E x I. apply (H u k' E). destruct (k_rest k'); [exact I|right; exact I]. }
  assert (AB : forall h o', incl (abort h) (IUnlock :: prog o')) by (intros [] o' x I; cbn in I; [contradiction| |]; destruct I as [<-|[]]; left; reflexivity).
  destruct e as [u o'|u|u]; cbn [step] in X; destruct (s_call s u) as [k0|] eqn:E; try discriminate.
  - destruct (runs u o' s); [|discriminate]. injection X as <- <-. destruct (tid_dec t u) as [->|N]; [cbn [w_call s_call] in Q; rewrite tupd_same in Q; injection Q as <-; intros x I; right; exact I|]. cbn [w_call s_call] in Q. rewrite tupd_other in Q by exact N. apply (H t k Q).
  - destruct (k_rest k0) as [|i l] eqn:L; [discriminate|]. destruct (exec pref u i k0 s) as [s1|] eqn:Y; [|discriminate]. injection X as <- <-.
    assert (G : exists k1, s_call s1 = tupd (s_call s) u (Some k1) /\ k_op k1 = k_op k0 /\ (k_rest k1 = tl (k_rest k0) \/ exists h, k_rest k1 = abort h)).
    { destruct i; cbn [exec] in Y; repeat match goal with
      | Y : (if ?b then _ else _) = Some _ |- _ => destruct b; try discriminate
      | Y : context [match ?b with Some _ => _ | None => _ end] |- _ => destruct b; try discriminate
      | Y : match ?b with [] => _ | _ :: _ => _ end = Some _ |- _ => destruct b; try discriminate
      end; try discriminate; injection Y as <-; eexists; (split; [cbn [w_call w_lock s_call]; reflexivity|]); (split; [reflexivity|]); cbn [k_rest]; eauto. }
    destruct G as (k1 & G1 & G2 & G3). rewrite G1 in Q. destruct (tid_dec t u) as [->|N]; [|rewrite tupd_other in Q by exact N; apply (H t k Q)].
    rewrite tupd_same in Q. injection Q as <-. rewrite G2. destruct G3 as [->|(h & ->)]; [apply (TL u k0 E)|apply AB].
  - destruct (k_rest k0) eqn:L; [|discriminate]. injection X as <- <-. cbn [w_call s_call] in Q. destruct (tid_dec t u) as [->|N]; [rewrite tupd_same in Q; discriminate|rewrite tupd_other in Q by exact N; apply (H t k Q)].
Qed.
Lemma incl_run pref es s o : run pref es st0 = Some (s, o) -> forall t k, s_call s t = Some k -> incl (k_rest k) (IUnlock :: prog (k_op k)).
Proof.
  revert s o. induction es as [|e es IH] using rev_ind; intros s o X; [cbn in X; injection X as <- <-; discriminate|].
  destruct (run_snoc _ _ _ _ _ _ X) as (s1 & o1 & o2 & R & S & ->). apply (incl_step pref e s1 s o2 S). apply (IH s1 o1 R).
Qed.

(** Every race there is, is this one: the dispatcher ends a handshake and stores
    the new connection, holding the lock shared, while the user's send_msg reads
    the connection.  Missing: absence of that one. *)
Theorem C125_race_partial : forall pref es s o v, run pref es st0 = Some (s, o) -> race pref s v ->
  exists p n kd ku i j c, v = VFld p FConn /\ s_call s D = Some kd /\ k_op kd = OShake i (Some c) /\ k_reg kd = Some p /\
    s_call s (U n) = Some ku /\ k_op ku = OSend j /\ k_reg ku = Some p.
Proof.
  intros pref es s o v R (t1 & t2 & w1 & w2 & N & W & _ & _ & I1 & I2). pose proof (run_inv _ _ _ _ _ Inv0 R) as V.
  assert (G : forall n w, In (v, true) (accs s D) -> In (v, w) (accs s (U n)) -> exists p n kd ku i j c, v = VFld p FConn /\ s_call s D = Some kd /\ k_op kd = OShake i (Some c) /\ k_reg kd = Some p /\ s_call s (U n) = Some ku /\ k_op ku = OSend j /\ k_reg ku = Some p).
  { intros n w ID IU. destruct (accs_U s n v w V IU) as (-> & HU & CU).
    destruct (accs_D s v true V ID eq_refl) as [HX|[(p & ->)|(p & kd & c & l & -> & E & RG & L)]].
    - apply hold_X in HX; [|exact V]. rewrite (no_reader s (U n) V HX) in HU; discriminate.
    - destruct CU as [CU|(q & k & l & CU & _)]; discriminate.
    - destruct CU as [CU|(q & k & l' & CU & EU & RU & LU & _)]; [discriminate|]. injection CU as <-.
      pose proof (incl_run _ _ _ _ R D kd E (IConn c)) as IC. rewrite L in IC. specialize (IC (or_introl eq_refl)). destruct IC as [IC|IC]; [discriminate|].
      destruct (v_u s V n k EU) as (j & O & _).
      assert (exists i, k_op kd = OShake i (Some c)) as (i & O').
      { destruct (k_op kd) as [x y|x|x|x|x|x|x|x|x [y|]|x|x]; cbn [prog In app] in IC; try (intuition discriminate).
        - destruct IC as [IC|IC]; [discriminate|]. apply in_app_or in IC as [IC|IC]; [|cbn [In] in IC; intuition discriminate]. apply in_flat_map in IC as (z & _ & IC). cbn [In] in IC. intuition discriminate.
        - exists x. cbn [In] in IC. intuition congruence. }
      exists p, n, kd, k, i, j, c. repeat (split; [first [reflexivity|assumption]|]). assumption. }
  destruct t1 as [|n1], t2 as [|n2].
  - destruct (N eq_refl).
  - destruct w1; [apply (G n2 w2 I1 I2)|]. destruct w2; [|discriminate]. destruct (accs_U s n2 v true V I2); discriminate.
  - destruct w2; [apply (G n1 w1 I2 I1)|]. destruct w1; [|discriminate]. destruct (accs_U s n1 v true V I1); discriminate.
  - destruct (accs_U s n1 v w1 V I1) as (-> & _). destruct (accs_U s n2 v w2 V I2) as (-> & _). discriminate.
Qed.
Print Assumptions C125_race_partial.

(** No thread uses a destroyed peer. *)
Theorem C125_alive : forall pref es s o t p f w, run pref es st0 = Some (s, o) -> In (VFld p f, w) (accs s t) -> s_live s p = true \/ (t = D /\ p = s_next s).
Proof.
  intros pref es s o t p f w R I. pose proof (run_inv _ _ _ _ _ Inv0 R) as V. destruct t as [|n].
  - unfold accs in I. destruct (s_call s D) as [k|] eqn:E; [|destruct I]. pose proof (v_dr s V k) as DR. specialize (fun q => DR q E).
    destruct k as [o' l r a e]. cbn [k_op k_rest k_reg k_acc k_st] in *. destruct l as [|i l]; [destruct I|].
    destruct i as [| | |j|j|j|j c|j| |c|g|g]; cbn [In] in I; try contradiction; try (destruct I as [I|[]]; discriminate);
      try (destruct r as [q|]; cbn [In fst snd] in I; [|contradiction]; destruct I as [I|[]]; inversion I; subst; left; apply DR; reflexivity).
    + destruct I as [I|[I|[I|[]]]]; [discriminate|inversion I; subst; auto..].
    + destruct I as [I|I]; [discriminate|]. destruct (s_tab s j) as [q|] eqn:T; [|destruct I]. left. apply (v_live s V j). cbn [In] in I. destruct I as [I|[I|[]]]; inversion I; subst; exact T.
  - destruct (accs_U s n _ w V I) as (_ & _ & [Q|(q & k & l & Q & _ & _ & _ & L)]); [discriminate|]. inversion Q; subst. left. exact L.
Qed.
Print Assumptions C125_alive.

(** ** C125: calls take effect at one moment *)
(** What the table says of a peer: its connection, if it is known. *)
Definition conn_of (s : st) (i : nat) : option nat := option_map (s_conn s) (s_tab s i).
(** What a call answers when asked at one moment. *)
Fixpoint all_conns (m : nat -> option nat) (l : list nat) : list nat * status :=
  match l with
  | [] => ([], Ok)
  | i :: l' => match m i with Some c => (c :: fst (all_conns m l'), snd (all_conns m l')) | None => ([], NoPeer) end
  end.
Definition answer (o : op) (m : nat -> option nat) : list nat * status :=
  match o with
  | OAdd i _ => ([], if is_some (m i) then Exists else Ok)
  | ODel i | OConnPeer i | OSetAddr i | OShake i _ | OSetup i => ([], if is_some (m i) then Ok else NoPeer)
  | OHas i => ([if is_some (m i) then 1 else 0], Ok)
  | OGetConn i | OSend i => all_conns m [i]
  | OMulti l => all_conns m l
  | OOwn _ => ([], Ok)
  end.
(** What it makes of the table. *)
Definition effect (o : op) (m : nat -> option nat) : nat -> option nat :=
  match o with
  | OAdd i c => if is_some (m i) then m else upd m i (Some c)
  | ODel i => upd m i None
  | OShake i (Some c) => if is_some (m i) then upd m i (Some c) else m
  | _ => m
  end.

(** The rest of a call, run without interruption. *)
Fixpoint finr (tab : nat -> option nat) (conn : nat -> nat) (l : list instr) (r : option nat) (a : list nat) (e : status) : list nat * status :=
  match l with
  | [] => (a, e)
  | IFind i :: l' => match tab i with Some p => finr tab conn l' (Some p) a e | None => (a, NoPeer) end
  | IFresh i :: l' => match tab i with Some _ => (a, Exists) | None => finr tab conn l' r a e end
  | IHas i :: l' => finr tab conn l' r (a ++ [match tab i with Some _ => 1 | None => 0 end]) e
  | IGet :: l' => match r with Some p => finr tab conn l' r (a ++ [conn p]) e | None => (a, e) end
  | _ :: l' => finr tab conn l' r a e
  end.
Fixpoint finm (tab : nat -> option nat) (conn : nat -> nat) (l : list instr) (r : option nat) (j : nat) : option nat :=
  let m := option_map conn (tab j) in
  match l with
  | [] => m
  | IFind i :: l' => match tab i with Some p => finm tab conn l' (Some p) j | None => m end
  | IFresh i :: l' => match tab i with Some _ => m | None => finm tab conn l' r j end
  | IInsert i c :: _ => if Nat.eqb j i then Some c else m
  | IErase i :: _ => if Nat.eqb j i then None else m
  | IConn c :: _ => match r, tab j with Some p, Some q => if Nat.eqb q p then Some c else m | _, _ => m end
  | _ :: l' => finm tab conn l' r j
  end.
Definition fr s k := finr (s_tab s) (s_conn s) (k_rest k) (k_reg k) (k_acc k) (k_st k).
Definition fm s k := finm (s_tab s) (s_conn s) (k_rest k) (k_reg k).

Lemma fin_abort s h o r a e j : fr s (mkCall o (abort h) r a e) = (a, e) /\ fm s (mkCall o (abort h) r a e) j = conn_of s j.
Proof. destruct h; split; reflexivity. Qed.

Lemma exec_D_fin pref i k s s' : Inv s -> s_call s D = Some k -> k_rest k = i :: tl (k_rest k) -> exec pref D i k s = Some s' ->
  exists k', s_call s' D = Some k' /\ k_op k' = k_op k /\ fr s' k' = fr s k /\ forall j, fm s' k' j = fm s k j.
Proof.
  intros V E R X. pose proof (v_ds s V k E) as DS. pose proof (v_dr s V k) as DR. specialize (fun p => DR p E).
  destruct k as [o l r a e]. cbn [k_op k_rest k_reg k_acc k_st] in *. destruct l as [|i' l]; [discriminate|]. cbn [tl] in R. injection R as <-.
  unfold fr, fm. destruct i'; cbn [exec k_op k_rest k_reg k_acc k_st tl dsafe] in X, DS; cbn [k_op k_rest k_reg k_acc k_st finr finm].
  1-3: repeat match type of X with (match ?b with _ => _ end) = Some _ => destruct b; try discriminate end; try discriminate; injection X as <-; eexists; (split; [apply (tupd_same (s_call s))|]); auto.
  - injection X as <-. destruct (s_tab s i) as [p|] eqn:T; eexists; (split; [apply (tupd_same (s_call s))|]); auto.
    split; [reflexivity|]. cbn [k_rest k_reg k_acc k_st w_call s_tab s_conn]. destruct (hold s D); split; reflexivity.
  - injection X as <-. destruct (s_tab s i) as [p|] eqn:T; eexists; (split; [apply (tupd_same (s_call s))|]); auto.
    split; [reflexivity|]. cbn [k_rest k_reg k_acc k_st w_call s_tab s_conn]. destruct (hold s D); split; reflexivity.
  - injection X as <-. eexists; (split; [apply (tupd_same (s_call s))|]). auto.
  - injection X as <-. destruct DS as (T & ->). eexists; (split; [apply (tupd_same (s_call s))|]). split; [reflexivity|]. split; [reflexivity|]. intros j. cbn [k_rest k_reg w_call s_tab s_conn finm].
    unfold upd. destruct (Nat.eqb j i) eqn:J; cbn [option_map]; [rewrite Nat.eqb_refl; reflexivity|]. destruct (s_tab s j) as [q|] eqn:TJ; [|reflexivity]. cbn [option_map]. f_equal. apply (v_live s V), (v_next s V) in TJ. replace (Nat.eqb q (s_next s)) with false by (symmetry; apply Nat.eqb_neq; lia). reflexivity.
  - destruct (s_tab s i) as [p|] eqn:T; [|discriminate]. injection X as <-. destruct DS as (_ & ->). eexists; (split; [apply (tupd_same (s_call s))|]). split; [reflexivity|]. split; [reflexivity|]. intros j. cbn [k_rest k_reg w_call s_tab s_conn finm].
    unfold upd. destruct (Nat.eqb j i); reflexivity.
  - destruct r as [p|]; [|discriminate]. injection X as <-. eexists; (split; [apply (tupd_same (s_call s))|]). auto.
  - destruct r as [p|]; [|discriminate]. injection X as <-. subst l. eexists; (split; [apply (tupd_same (s_call s))|]). split; [reflexivity|]. split; [reflexivity|]. intros j. cbn [k_rest k_reg w_call s_tab s_conn finm].
    destruct (s_tab s j) as [q|]; [|reflexivity]. cbn [option_map]. unfold upd. destruct (Nat.eqb q p); reflexivity.
  - destruct r as [p|]; [|discriminate]. injection X as <-. eexists; (split; [apply (tupd_same (s_call s))|]). auto.
  - destruct r as [p|]; [|discriminate]. injection X as <-. eexists; (split; [apply (tupd_same (s_call s))|]). auto.
Qed.

(** Steps of the user's threads leave the table alone. *)
Lemma exec_U_tab pref n i k s s' : Inv s -> s_call s (U n) = Some k -> k_rest k = i :: tl (k_rest k) -> exec pref (U n) i k s = Some s' ->
  s_tab s' = s_tab s /\ s_conn s' = s_conn s /\ s_next s' = s_next s /\ s_live s' = s_live s.
Proof.
  intros V E R X. destruct (v_u s V n k E) as (j & O & H). destruct k as [o l r a e]. cbn [k_op k_rest k_reg k_acc k_st] in *.
  inversion H; subst; cbn [tl] in R; try discriminate; injection R as <-; cbn [exec k_op k_rest k_reg k_acc k_st tl] in X.
  - destruct (s_wr s); [discriminate|]. destruct (pref && wants s); [discriminate|]. injection X as <-. auto.
  - injection X as <-. destruct (s_tab s j); auto.
  - injection X as <-. auto.
  - injection X as <-. auto.
Qed.
Lemma step_other pref t e s s' o : step pref e s = Some (s', o) -> match e with EStart u _ | EStep u | EEnd u => u <> t end -> s_call s' t = s_call s t.
Proof.
  intros X N. destruct e as [u op0|u|u]; cbn [step] in X; destruct (s_call s u) as [k|]; try discriminate.
  - destruct (runs u op0 s); [|discriminate]. injection X as <- <-. apply tupd_other. congruence.
  - destruct (k_rest k) as [|i l]; [discriminate|]. destruct (exec pref u i k s) as [s1|] eqn:Y; [|discriminate]. injection X as <- <-.
    destruct i; cbn [exec] in Y; repeat match goal with
      | Y : (if ?b then _ else _) = Some _ |- _ => destruct b; try discriminate
      | Y : context [match ?b with Some _ => _ | None => _ end] |- _ => destruct b; try discriminate
      | Y : match ?b with [] => _ | _ :: _ => _ end = Some _ |- _ => destruct b; try discriminate
      end; try discriminate; injection Y as <-; cbn [w_call w_lock s_call]; apply tupd_other; congruence.
  - destruct (k_rest k); [|discriminate]. injection X as <- <-. apply tupd_other. congruence.
Qed.
Lemma step_tab_U pref e s s' o : Inv s -> step pref e s = Some (s', o) -> match e with EStart _ _ | EEnd _ => True | EStep u => u <> D end ->
  s_tab s' = s_tab s /\ s_conn s' = s_conn s.
Proof.
  intros V X N. destruct e as [u op0|[|n]|u]; cbn [step] in X; [|destruct (N eq_refl)| |].
  - destruct (s_call s u); [discriminate|]. destruct (runs u op0 s); [|discriminate]. injection X as <- <-. auto.
  - destruct (s_call s (U n)) as [k|] eqn:E; [|discriminate]. destruct (k_rest k) as [|i l] eqn:L; [discriminate|]. destruct (exec pref (U n) i k s) as [s1|] eqn:Y; [|discriminate]. injection X as <- <-.
    destruct (exec_U_tab pref n i k s s1 V E) as (A & B & _); [rewrite L; reflexivity|exact Y|auto].
  - destruct (s_call s u) as [k|]; [|discriminate]. destruct (k_rest k); [|discriminate]. injection X as <- <-. auto.
Qed.

Lemma fr_begin s o : fr s (begin o) = answer o (conn_of s).
Proof.
  unfold fr, conn_of. destruct o as [i c|i|i|i|i|i|i|l|i [c|]|i|p]; cbn [begin k_rest k_reg k_acc k_st prog finr answer all_conns app]; try (destruct (s_tab s i) as [p|]; reflexivity); try reflexivity.
  assert (G : forall a r, finr (s_tab s) (s_conn s) (flat_map (fun i => [IFind i; IGet]) l ++ [IUnlock]) r a Ok = (a ++ fst (all_conns (fun i => option_map (s_conn s) (s_tab s i)) l), snd (all_conns (fun i => option_map (s_conn s) (s_tab s i)) l))).
  { induction l as [|i l IH]; intros a r; [cbn; rewrite app_nil_r; reflexivity|]. cbn [flat_map app finr all_conns]. destruct (s_tab s i) as [p|]; cbn [option_map fst snd]; [|rewrite app_nil_r; reflexivity].
    rewrite IH. rewrite <- app_assoc. reflexivity. }
  rewrite G. cbn [app]. symmetry. apply surjective_pairing.
Qed.
Lemma fm_begin s o j : Inv s -> fm s (begin o) j = effect o (conn_of s) j.
Proof.
  intros V. unfold fm, conn_of. destruct o as [i c|i|i|i|i|i|i|l|i [c|]|i|p]; cbn [begin k_rest k_reg k_acc k_st prog finm effect app]; try (destruct (s_tab s i) as [p|]; reflexivity); try reflexivity.
  - destruct (s_tab s i) as [p|] eqn:T; cbn [option_map is_some]; unfold upd; [reflexivity|]. destruct (Nat.eqb j i) eqn:J; [|reflexivity]. apply Nat.eqb_eq in J as ->. rewrite T. reflexivity.
  - assert (G : forall r, finm (s_tab s) (s_conn s) (flat_map (fun i => [IFind i; IGet]) l ++ [IUnlock]) r j = option_map (s_conn s) (s_tab s j)); [|apply G].
    induction l as [|i l IH]; intros r; [reflexivity|]. cbn [flat_map app finm]. destruct (s_tab s i); [apply IH|reflexivity].
  - destruct (s_tab s i) as [p|] eqn:T; cbn [option_map is_some]; [|reflexivity]. unfold upd. destruct (Nat.eqb j i) eqn:J.
    + apply Nat.eqb_eq in J as ->. rewrite T, Nat.eqb_refl. reflexivity.
    + destruct (s_tab s j) as [q|] eqn:TJ; [|reflexivity]. destruct (Nat.eqb q p) eqn:QP; [|reflexivity]. apply Nat.eqb_eq in QP as ->. apply Nat.eqb_neq in J. destruct (J (v_inj s V _ _ _ TJ T)).
Qed.

(** The dispatcher's calls. *)
Lemma track_D pref o s1 : Inv s1 -> s_call s1 D = None -> forall es s2 o2, run pref (EStart D o :: es) s1 = Some (s2, o2) -> ~ In (EEnd D) es ->
  exists k, s_call s2 D = Some k /\ k_op k = o /\ fr s2 k = answer o (conn_of s1) /\ forall j, fm s2 k j = effect o (conn_of s1) j.
Proof.
  intros V1 ID es. induction es as [|e es IH] using rev_ind; intros s2 o2 R NE.
  - cbn [run step] in R. rewrite ID in R. destruct (runs D o s1); [|discriminate]. cbn in R. injection R as <- <-.
    exists (begin o). split; [apply (tupd_same (s_call s1))|]. split; [reflexivity|]. split; [exact (fr_begin s1 o)|]. intros j. exact (fm_begin s1 o j V1).
  - rewrite app_comm_cons in R. destruct (run_snoc _ _ _ _ _ _ R) as (s & o3 & o4 & R1 & S & ->). assert (NE' : ~ In (EEnd D) es) by (intros I; apply NE, in_or_app; auto).
    destruct (IH _ _ R1 NE') as (k & E & O & F1 & F2). pose proof (run_inv _ _ _ _ _ V1 R1) as V.
    assert (C : (exists t, e = EStep D /\ t = D) \/ match e with EStart u _ | EStep u | EEnd u => u <> D end).
    { destruct e as [[|n] op0|[|n]|[|n]]; try (right; discriminate).
      - cbn [step] in S. rewrite E in S. discriminate.
      - left. exists D. auto.
      - exfalso. apply NE, in_or_app. right. left. reflexivity. }
    destruct C as [(t & -> & _)|C].
    + cbn [step] in S. rewrite E in S. destruct (k_rest k) as [|i l] eqn:L; [discriminate|]. destruct (exec pref D i k s) as [s3|] eqn:Y; [|discriminate]. injection S as <- <-.
      destruct (exec_D_fin pref i k s s3 V E) as (k' & E' & O' & G1 & G2); [rewrite L; reflexivity|exact Y|]. exists k'. split; [exact E'|]. split; [congruence|]. split; [congruence|]. intros j. rewrite G2. apply F2.
    + exists k. rewrite (step_other pref D e s s2 o4 S C). destruct (step_tab_U pref e s s2 o4 V S) as (T1 & T2); [destruct e; auto|]. split; [exact E|]. split; [exact O|]. unfold fr, fm in *. rewrite T1, T2. auto.
Qed.

(** The user's. *)
Lemma track_U pref n i s1 : Inv s1 -> s_call s1 (U n) = None -> forall es s2 o2, run pref (EStart (U n) (OSend i) :: es) s1 = Some (s2, o2) -> ~ In (EEnd (U n)) es ->
  exists k, s_call s2 (U n) = Some k /\ k_op k = OSend i /\
  ((exists l, k_rest k = l ++ [IGet; IUnlock] /\ k_acc k = [] /\ k_st k = Ok /\ fr s2 k = answer (OSend i) (conn_of s2)) \/
   ((k_rest k = [IUnlock] \/ k_rest k = []) /\ exists a b s o, es = a ++ b /\ run pref (EStart (U n) (OSend i) :: a) s1 = Some (s, o) /\ (k_acc k, k_st k) = answer (OSend i) (conn_of s))).
Proof.
  intros V1 ID es. induction es as [|e es IH] using rev_ind; intros s2 o2 R NE.
  - cbn [run step] in R. rewrite ID in R. cbn in R. injection R as <- <-. exists (begin (OSend i)). split; [apply (tupd_same (s_call s1))|]. split; [reflexivity|]. left. exists [ILockS; IFind i]. repeat (split; [reflexivity|]). apply fr_begin.
  - rewrite app_comm_cons in R. destruct (run_snoc _ _ _ _ _ _ R) as (s & o3 & o4 & R1 & S & ->). assert (NE' : ~ In (EEnd (U n)) es) by (intros I; apply NE, in_or_app; auto).
    destruct (IH _ _ R1 NE') as (k & E & O & F). pose proof (run_inv _ _ _ _ _ V1 R1) as V. pose proof (step_inv _ _ _ _ _ V S) as V2.
    assert (C : e = EStep (U n) \/ match e with EStart u _ | EStep u | EEnd u => u <> U n end).
    { destruct e as [u op0|u|u]; destruct (tid_dec u (U n)) as [->|N]; auto.
      - cbn [step] in S. rewrite E in S. discriminate.
      - exfalso. apply NE, in_or_app. right. left. reflexivity. }
    destruct (v_u s V n k E) as (j & O' & H). rewrite O in O'. injection O' as <-.
    destruct C as [->|C].
    + cbn [step] in S. rewrite E in S. destruct k as [ko kl kr ka ke]. cbn [k_op k_rest k_reg k_acc k_st] in *. subst ko.
      inversion H as [HH|HH|p HH T|r' a' e' HH|r' a' e' HH]; subst; cbn [exec k_op k_rest k_reg k_acc k_st tl] in S; try discriminate.
      * destruct (s_wr s); [discriminate|]. destruct (pref && wants s); [discriminate|]. injection S as <- <-. eexists. split; [apply (tupd_same (s_call s))|]. split; [reflexivity|]. left. exists [IFind i]. repeat (split; [reflexivity|]).
        unfold fr, conn_of. cbn. destruct (s_tab s i); reflexivity.
      * injection S as <- <-. destruct (s_tab s i) as [p|] eqn:T; (eexists; split; [apply (tupd_same (s_call s))|]; split; [reflexivity|]).
        -- left. exists []. repeat (split; [reflexivity|]). unfold fr, conn_of. cbn. rewrite T. reflexivity.
        -- right. cbn [k_rest k_acc k_st]. rewrite HH. split; [left; reflexivity|]. exists es, [EStep (U n)], s, o3. split; [reflexivity|]. split; [exact R1|]. unfold conn_of. cbn. rewrite T. reflexivity.
      * injection S as <- <-. eexists; split; [apply (tupd_same (s_call s))|]; split; [reflexivity|]. right. cbn [k_rest k_acc k_st]. split; [left; reflexivity|]. exists es, [EStep (U n)], s, o3. split; [reflexivity|]. split; [exact R1|]. unfold conn_of. cbn. rewrite T. reflexivity.
      * injection S as <- <-. eexists; split; [apply (tupd_same (s_call s))|]; split; [reflexivity|]. right. cbn [k_rest k_acc k_st]. split; [right; reflexivity|].
        destruct F as [(l & F & _)|(_ & a & b & sm & om & -> & RM & A)]; [destruct l as [|? [|]]; discriminate|]. exists a, (b ++ [EStep (U n)]), sm, om. rewrite app_assoc. auto.
    + exists k. rewrite (step_other pref (U n) e s s2 o4 S C). split; [exact E|]. split; [exact O|].
      destruct F as [(l & F1 & F2 & F3 & F4)|(F1 & a & b & sm & om & -> & RM & A)]; [|right; split; [exact F1|]; exists a, (b ++ [e]), sm, om; rewrite app_assoc; auto].
      left. exists l. split; [exact F1|]. split; [exact F2|]. split; [exact F3|].
      assert (E2 : s_call s2 (U n) = Some k) by (rewrite (step_other pref (U n) e s s2 o4 S C); exact E).
      destruct (v_u s2 V2 n k E2) as (j & O' & H2). rewrite O in O'. injection O' as <-.
      unfold fr, conn_of. cbn [answer all_conns]. rewrite F1, F2, F3 in *. inversion H2 as [HH Q|HH Q|p HH T Q Q2|r' a' e' HH Q|r' a' e' HH Q].
      * cbn; destruct (s_tab s2 i); reflexivity.
      * cbn; destruct (s_tab s2 i); reflexivity.
      * cbn; rewrite T. reflexivity.
      * destruct l as [|? [|]]; discriminate.
      * destruct l as [|? [|]]; discriminate.
Qed.

(** Calls from any threads, under way at the same time, each answer as if they
    were made at one moment between their begin and their end; what calls of the
    dispatcher make of the table is done between, too. *)
Theorem C125_atomic : forall pref es1 s1 o1, run pref es1 st0 = Some (s1, o1) ->
  forall t o es2 s2 o2, run pref (EStart t o :: es2) s1 = Some (s2, o2) -> ~ In (EEnd t) es2 ->
  forall s3 x, step pref (EEnd t) s2 = Some (s3, x) ->
  exists a b s os r e, es2 = a ++ b /\ run pref (EStart t o :: a) s1 = Some (s, os) /\ (r, e) = answer o (conn_of s) /\ x = [(t, o, r, e)] /\
  (t = D -> forall i, conn_of s3 i = effect o (conn_of s1) i) /\
  (t <> D -> effect o = fun m => m).
Proof.
  intros pref es1 s1 o1 R1 t o es2 s2 o2 R NE s3 x S. pose proof (run_inv _ _ _ _ _ Inv0 R1) as V1.
  assert (ID : s_call s1 t = None /\ runs t o s1 = true). { cbn [run step] in R. destruct (s_call s1 t); [discriminate|]. destruct (runs t o s1); [auto|discriminate]. } destruct ID as (ID & RN).
  cbn [step] in S. destruct (s_call s2 t) as [k0|] eqn:E0; [|discriminate]. destruct (k_rest k0) eqn:L0; [|discriminate]. injection S as <- <-.
  destruct t as [|n].
  - destruct (track_D pref o s1 V1 ID es2 s2 o2 R NE) as (k & E & O & F1 & F2). rewrite E in E0. injection E0 as <-. unfold fr, fm in F1, F2. rewrite L0 in F1, F2. cbn [finr] in F1.
    exists [], es2. eexists _, _, _, _. split; [reflexivity|]. split; [cbn [run step]; rewrite ID, RN; reflexivity|]. split; [exact F1|]. split; [rewrite O; reflexivity|]. split; [|congruence].
    intros _ i. rewrite <- F2. reflexivity.
  - destruct o as [| | | | | |i| | | |]; try discriminate.
    destruct (track_U pref n i s1 V1 ID es2 s2 o2 R NE) as (k & E & O & F). rewrite E in E0. injection E0 as <-.
    destruct F as [(l & F & _)|(_ & a & b & s & os & -> & RM & A)]; [rewrite L0 in F; destruct l; discriminate|].
    exists a, b, s, os, (k_acc k), (k_st k). split; [reflexivity|]. split; [exact RM|]. split; [exact A|]. split; [rewrite O; reflexivity|]. split; [discriminate|reflexivity].
Qed.
Print Assumptions C125_atomic.

(** Several calls at once, one of them failing, a peer deleted meanwhile. *)
Definition crowd : list ev :=
  whole D (OAdd 7 1) 4 ++ EStart (U 0) (OSend 7) :: steps (U 0) 1 ++ EStart (U 1) (OSend 8) :: EStart D (OShake 7 (Some 2)) :: steps D 7 ++ EEnd D :: steps (U 0) 3
  ++ EEnd (U 0) :: EStart D (ODel 7) :: steps D 6 ++ EStart (U 0) (OSend 7) :: EEnd D :: steps (U 0) 3 ++ EEnd (U 0) :: steps (U 1) 3 ++ [EEnd (U 1)].
Example C125_nonvacuous : forall pref, option_map snd (run pref crowd st0) =
  Some [(D, OAdd 7 1, [], Ok); (D, OShake 7 (Some 2), [], Ok); (U 0, OSend 7, [2], Ok); (D, ODel 7, [], Ok); (U 0, OSend 7, [], NoPeer); (U 1, OSend 8, [], NoPeer)].
Proof. destruct pref; vm_compute; reflexivity. Qed.

(** ** C126 *)
Definition can (pref : bool) (s : st) (t : tid) : Prop := (exists x, step pref (EStep t) s = Some x) \/ (exists x, step pref (EEnd t) s = Some x).
Definition locking (l : list instr) : bool := match l with ILockS :: _ | ILockX :: _ => true | _ => false end.

Lemma can_free pref s t k : Inv s -> s_call s t = Some k -> locking (k_rest k) = false -> can pref s t.
Proof.
  intros V E L. unfold can. cbn [step]. rewrite E. destruct (k_rest k) as [|i l] eqn:R; [right; eauto|]. left.
  assert (G : exists s', exec pref t i k s = Some s').
  { destruct t as [|n].
    - pose proof (v_dw s V k E) as W. pose proof (v_ds s V k E) as DS. rewrite R in W, DS. destruct k as [o kl r a e]. cbn [k_rest k_reg] in *. subst kl.
      destruct i; cbn [locking] in L; try discriminate; cbn [exec k_reg k_rest] in *; eauto; cbn [wfp dsafe] in W, DS.
      + destruct (s_tab s i); [eauto|destruct DS as (DS & _); congruence].
      + destruct r; [eauto|discriminate].
      + destruct r; [eauto|discriminate].
      + destruct r; [eauto|discriminate].
      + destruct r; [eauto|destruct f; discriminate].
    - destruct (v_u s V n k E) as (j & O & H). destruct k as [o kl r a e]. cbn [k_op k_rest k_reg k_acc k_st] in *. rewrite R in H. inversion H; subst; try discriminate; cbn [exec k_reg]; eauto. }
  destruct G as (s' & ->). eexists. reflexivity.
Qed.
Lemma can_holder pref s t : Inv s -> hold s t <> HN -> s_call s t <> None /\ can pref s t.
Proof.
  intros V H. destruct (s_call s t) as [k|] eqn:E; [|destruct (H (v_idle s V t E))]. split; [discriminate|]. apply (can_free pref s t k V E).
  destruct t as [|n].
  - pose proof (v_dw s V k E) as W. destruct (k_rest k) as [|[] l]; try reflexivity; cbn [wfp] in W; destruct (hold s D); congruence.
  - destruct (v_u s V n k E) as (j & O & U). inversion U; subst; try reflexivity; congruence.
Qed.

(** Whenever calls are under way, one of them can go on: the lock cannot make
    them wait for each other. *)
Theorem C126_progress : forall pref es s o t, run pref es st0 = Some (s, o) -> s_call s t <> None -> exists u, s_call s u <> None /\ can pref s u.
Proof.
  intros pref es s o t R B. pose proof (run_inv _ _ _ _ _ Inv0 R) as V. destruct (s_call s t) as [k|] eqn:E; [|destruct (B eq_refl)].
  destruct (s_wr s) as [u|] eqn:W.
  { exists u. apply can_holder; [exact V|]. apply hold_X in W; [|exact V]. congruence. }
  destruct (s_rd s) as [|u l] eqn:RD.
  2: { exists u. apply can_holder; [exact V|]. assert (hold s u = HS) by (apply hold_S; [exact V|rewrite RD; left; reflexivity]). congruence. }
  destruct (wants s) eqn:WA.
  { exists D. unfold wants in WA. destruct (s_call s D) as [kd|] eqn:ED; [|discriminate]. split; [discriminate|]. destruct (k_rest kd) as [|i l] eqn:L; [discriminate|]. destruct i; try discriminate.
    left. cbn [step]. rewrite ED, L. cbn [exec]. rewrite W, RD. eexists. reflexivity. }
  exists t. split; [congruence|]. destruct (k_rest k) as [|i l] eqn:L; [apply (can_free pref s t k V E); rewrite L; reflexivity|].
  destruct (locking (i :: l)) eqn:LK; [|apply (can_free pref s t k V E); rewrite L; exact LK].
  left. cbn [step]. rewrite E, L. destruct i; try discriminate; cbn [exec]; rewrite ?W, ?RD, ?WA, ?andb_false_r; eexists; reflexivity.
Qed.
Print Assumptions C126_progress.

(** The steps a call still has to take. *)
Definition left_of (s : st) (t : tid) : nat := match s_call s t with Some k => 1 + length (k_rest k) | None => 0 end.
Definition left_all (ts : list tid) (s : st) : nat := list_sum (map (left_of s) ts).
Definition who (e : ev) : tid := match e with EStart t _ | EStep t | EEnd t => t end.
Definition starts (e : ev) : bool := match e with EStart _ _ => true | _ => false end.

Lemma step_left pref e s s' o : Inv s -> step pref e s = Some (s', o) -> starts e = false -> left_of s' (who e) < left_of s (who e).
Proof.
  intros V X N. destruct e as [t o'|t|t]; [discriminate| |]; cbn [step who] in *; unfold left_of; destruct (s_call s t) as [k|] eqn:E; try discriminate.
  - destruct (k_rest k) as [|i l] eqn:L; [discriminate|]. destruct (exec pref t i k s) as [s1|] eqn:Y; [|discriminate]. injection X as <- <-.
    assert (G : exists k1, s_call s1 = tupd (s_call s) t (Some k1) /\ (k_rest k1 = l \/ (match i with IFind _ | IFresh _ => True | _ => False end) /\ k_rest k1 = abort (hold s t))).
    { destruct i; cbn [exec] in Y; rewrite L in Y; cbn [tl] in Y; repeat match goal with
      | Y : (if ?b then _ else _) = Some _ |- _ => destruct b; try discriminate
      | Y : context [match ?b with Some _ => _ | None => _ end] |- _ => destruct b; try discriminate
      | Y : match ?b with [] => _ | _ :: _ => _ end = Some _ |- _ => destruct b; try discriminate
      end; try discriminate; injection Y as <-; eexists; (split; [cbn [w_call w_lock s_call]; reflexivity|]); cbn [k_rest]; auto. }
    destruct G as (k1 & G1 & G2). rewrite G1, tupd_same. cbn [length]. destruct G2 as [->|(G2 & ->)]; [lia|].
    assert (AB : length (abort (hold s t)) <= length l); [|lia].
    destruct (hold s t) eqn:H; cbn [abort length]; [lia| |]; (destruct l; [|cbn [length]; lia]); exfalso.
    all: destruct t as [|n]; [pose proof (v_dw s V k E) as W; rewrite L, H in W; destruct i; try contradiction; discriminate|destruct (v_u s V n k E) as (j & O & U); rewrite L in U; inversion U; subst; contradiction].
  - destruct (k_rest k) eqn:L; [|discriminate]. injection X as <- <-. cbn [w_call s_call]. rewrite tupd_same. lia.
Qed.
Lemma sum_upd (f g : tid -> nat) t ts : NoDup ts -> (forall u, u <> t -> g u = f u) -> g t < f t -> In t ts -> list_sum (map g ts) < list_sum (map f ts).
Proof.
  induction ts as [|u ts IH]; intros ND O L I; [destruct I|]. inversion ND; subst. cbn [map list_sum fold_right]. fold (list_sum (map g ts)). fold (list_sum (map f ts)).
  destruct (tid_dec u t) as [->|N].
  - assert (E : map g ts = map f ts) by (apply map_ext_in; intros a IA; apply O; intros ->; contradiction). rewrite E. lia.
  - rewrite (O u N). destruct I as [I|I]; [contradiction|]. specialize (IH H2 O L I). lia.
Qed.

(** Calls under way end: whatever the order of their steps, they take no more
    than what is left of them, and then no call is under way. *)
Theorem C126_ends : forall pref es0 s o0 ts, run pref es0 st0 = Some (s, o0) -> NoDup ts -> (forall t, s_call s t <> None -> In t ts) ->
  forall es s' o, run pref es s = Some (s', o) -> forallb (fun e => negb (starts e)) es = true ->
  length es <= left_all ts s /\ ((forall t, ~ can pref s' t) -> forall t, s_call s' t = None).
Proof.
  intros pref es0 s o0 ts R0 ND C es s' o R NS. split.
  - pose proof (run_inv _ _ _ _ _ Inv0 R0) as V. clear R0. revert s o V C R NS. induction es as [|e es IH]; intros s o V C R NS; [cbn; lia|].
    cbn [run] in R. destruct (step pref e s) as [(s1 & o1)|] eqn:S; [|discriminate]. destruct (run pref es s1) as [(s2 & o2)|] eqn:R2; [|discriminate]. injection R as <- <-.
    cbn [forallb] in NS. apply andb_prop in NS as (NS1 & NS2). apply negb_true_iff in NS1.
    assert (OTH : forall u, u <> who e -> s_call s1 u = s_call s u) by (intros u N; apply (step_other pref u e s s1 o1 S); destruct e; cbn [who] in N; congruence).
    assert (B : s_call s (who e) <> None) by (destruct e; cbn [step who] in *; [discriminate|destruct (s_call s t); discriminate..]).
    assert (LT : left_all ts s1 < left_all ts s).
    { apply (sum_upd _ _ (who e)); [exact ND| |apply (step_left pref e s s1 o1 V S NS1)|apply C; exact B]. intros u N. unfold left_of. rewrite OTH by exact N. reflexivity. }
    assert (C1 : forall t, s_call s1 t <> None -> In t ts). { intros t Q. apply C. destruct (tid_dec t (who e)) as [->|N]; [exact B|rewrite <- OTH by exact N; exact Q]. }
    specialize (IH s1 o2 (step_inv _ _ _ _ _ V S) C1 R2 NS2). cbn [length]. lia.
  - intros NC t. destruct (s_call s' t) as [k|] eqn:E; [|reflexivity]. exfalso.
    assert (R' : run pref (es0 ++ es) st0 = Some (s', o0 ++ o)).
    { clear - R0 R. revert R0. generalize st0 as z. revert o0. induction es0 as [|e es0 IH]; intros o0 z R0; cbn [run app] in *; [injection R0 as -> <-; exact R|].
      destruct (step pref e z) as [(z1 & oz)|]; [|discriminate]. destruct (run pref es0 z1) as [(z2 & oz2)|] eqn:Q; [|discriminate]. cbn in R0. injection R0 as -> <-. rewrite (IH oz2 z1 Q). cbn. rewrite app_assoc. reflexivity. }
    destruct (C126_progress _ _ _ _ t R') as (u & _ & CU); [congruence|]. exact (NC u CU).
Qed.
Print Assumptions C126_ends.

(** The dispatcher waits for the lock and does not get it in any of the states
    of a run. *)
Fixpoint held_up (pref : bool) (es : list ev) (s : st) : Prop :=
  wants s = true /\ step pref (EStep D) s = None /\
  match es with [] => True | e :: es' => match step pref e s with Some (s', _) => held_up pref es' s' | None => False end end.
(** In full: calls that begin while add_peer or del_peer waits do not end before it has the lock. *)
Definition C126_overtake_full : Prop := forall pref es1 s1 o1, run pref es1 st0 = Some (s1, o1) -> wants s1 = true ->
  forall a t o b s2 o2, run pref (a ++ EStart t o :: b) s1 = Some (s2, o2) -> ~ In (EStep D) (a ++ b) -> ~ In (EEnd t) b.

(** With a lock that prefers readers, two threads that keep sending keep del_peer
    waiting for ever. *)
Definition ends (e : ev) : bool := match e with EEnd _ => true | _ => false end.
Definition lap : list ev :=
  [EStart (U 1) (OSend 7); EStep (U 1)] ++ steps (U 0) 3 ++ [EEnd (U 0); EStart (U 0) (OSend 7); EStep (U 0)] ++ steps (U 1) 3 ++ [EEnd (U 1)].
Definition before : list ev := whole D (OAdd 7 1) 4 ++ [EStart (U 0) (OSend 7); EStep (U 0); EStart D (ODel 7)].
(** One event of a thread that sends to peer 7. *)
Definition next_of (t : tid) (k : option call) (rd : list tid) (s s' : st) : Prop :=
  s_call s' t = k /\ s_rd s' = rd /\ s_wr s' = None /\ s_tab s' = s_tab s /\ forall u, u <> t -> s_call s' u = s_call s u.
Definition at_ (l : list instr) (r : option nat) (a : list nat) : option call := Some (mkCall (OSend 7) l r a Ok).
Lemma one s n e k k' rd : s_wr s = None -> s_tab s 7 = Some 0 -> s_call s (U n) = k ->
  (e, k, k', rd) = (EStart (U n) (OSend 7), None, at_ [ILockS; IFind 7; IGet; IUnlock] None [], s_rd s) \/
  (e, k, k', rd) = (EStep (U n), at_ [ILockS; IFind 7; IGet; IUnlock] None [], at_ [IFind 7; IGet; IUnlock] None [], U n :: s_rd s) \/
  (e, k, k', rd) = (EStep (U n), at_ [IFind 7; IGet; IUnlock] None [], at_ [IGet; IUnlock] (Some 0) [], s_rd s) \/
  (e, k, k', rd) = (EStep (U n), at_ [IGet; IUnlock] (Some 0) [], at_ [IUnlock] (Some 0) [s_conn s 0], s_rd s) \/
  (exists c, (e, k, k', rd) = (EStep (U n), at_ [IUnlock] (Some 0) [c], at_ [] (Some 0) [c], filter (fun u => negb (teq (U n) u)) (s_rd s))) \/
  (exists c, (e, k, k', rd) = (EEnd (U n), at_ [] (Some 0) [c], None, s_rd s)) ->
  exists s' o, step false e s = Some (s', o) /\ next_of (U n) k' rd s s'.
Proof.
  intros W T C H. assert (G : forall x, next_of (U n) x (s_rd s) s (w_call (U n) x s)) by (intros x; split; [apply (tupd_same (s_call s))|]; repeat (split; [first [reflexivity|exact W]|]); intros u N; apply (tupd_other (s_call s) _ _ u N)).
  assert (G2 : forall x r, next_of (U n) x r s (w_call (U n) x (w_lock r None s))) by (intros x r; split; [apply (tupd_same (s_call s))|]; repeat (split; [reflexivity|]); intros u N; apply (tupd_other (s_call s) _ _ u N)).
  destruct H as [H|[H|[H|[H|[(c & H)|(c & H)]]]]]; inversion H; subst; clear H; cbn [step]; match goal with Q : _ = s_call s (U n) |- _ => rewrite <- Q | Q : s_call s (U n) = _ |- _ => rewrite Q | _ => idtac end; unfold at_; cbn [runs k_rest k_op k_reg k_acc k_st exec tl option_map].
  - do 2 eexists. split; [reflexivity|]. apply G.
  - rewrite W. cbn [andb option_map]. do 2 eexists. split; [reflexivity|]. apply G2.
  - rewrite T. do 2 eexists. split; [reflexivity|]. apply G.
  - do 2 eexists. split; [reflexivity|]. apply G.
  - rewrite W. do 2 eexists. split; [reflexivity|]. apply G2.
  - do 2 eexists. split; [reflexivity|]. apply G.
Qed.
Definition lapst (s : st) (k0 k1 : option call) (rd : list tid) : Prop :=
  s_wr s = None /\ s_rd s = rd /\ s_tab s 7 = Some 0 /\ s_call s D = Some (begin (ODel 7)) /\ s_call s (U 0) = k0 /\ s_call s (U 1) = k1.
Lemma lap_cons e es s k0 k1 rd (P : st -> Prop) n k' rd' :
  lapst s k0 k1 rd -> rd <> [] -> n < 2 ->
  (let k := if Nat.eqb n 0 then k0 else k1 in
   (e, k, k', rd') = (EStart (U n) (OSend 7), None, at_ [ILockS; IFind 7; IGet; IUnlock] None [], s_rd s) \/
  (e, k, k', rd') = (EStep (U n), at_ [ILockS; IFind 7; IGet; IUnlock] None [], at_ [IFind 7; IGet; IUnlock] None [], U n :: s_rd s) \/
  (e, k, k', rd') = (EStep (U n), at_ [IFind 7; IGet; IUnlock] None [], at_ [IGet; IUnlock] (Some 0) [], s_rd s) \/
  (e, k, k', rd') = (EStep (U n), at_ [IGet; IUnlock] (Some 0) [], at_ [IUnlock] (Some 0) [s_conn s 0], s_rd s) \/
  (exists c, (e, k, k', rd') = (EStep (U n), at_ [IUnlock] (Some 0) [c], at_ [] (Some 0) [c], filter (fun u => negb (teq (U n) u)) (s_rd s))) \/
  (exists c, (e, k, k', rd') = (EEnd (U n), at_ [] (Some 0) [c], None, s_rd s))) ->
  (forall s1, lapst s1 (if Nat.eqb n 0 then k' else k0) (if Nat.eqb n 0 then k1 else k') rd' -> exists s' o, run false es s1 = Some (s', o) /\ held_up false es s1 /\ P s') ->
  exists s' o, run false (e :: es) s = Some (s', o) /\ held_up false (e :: es) s /\ P s'.
Proof.
  intros (W & RD & T & CD & C0 & C1) NE NL H K. assert (CN : s_call s (U n) = (if Nat.eqb n 0 then k0 else k1)) by (destruct n as [|[|n]]; [exact C0|exact C1|lia]).
  destruct (one s n e _ k' rd' W T CN H) as (s1 & o1 & S & A1 & A2 & A3 & A4 & A5).
  destruct (K s1) as (s' & o & R & HU & PS).
  { split; [exact A3|]. split; [exact A2|]. split; [rewrite A4; exact T|]. split; [rewrite A5 by discriminate; exact CD|].
    destruct n as [|[|n]]; [| |lia]; cbn [Nat.eqb]; split; try exact A1; rewrite A5 by discriminate; assumption. }
  exists s', (o1 ++ o). cbn [run held_up]. rewrite S, R. split; [reflexivity|]. split; [|exact PS].
  split; [unfold wants; rewrite CD; reflexivity|]. split; [|exact HU]. cbn [step]. rewrite CD. cbn [begin k_rest prog exec]. rewrite W, RD. destruct rd; [congruence|reflexivity].
Qed.
Lemma lap_more es s (P : st -> Prop) : lapst s (at_ [IFind 7; IGet; IUnlock] None []) None [U 0] ->
  (forall s', lapst s' (at_ [IFind 7; IGet; IUnlock] None []) None [U 0] -> exists s2 o, run false es s' = Some (s2, o) /\ held_up false es s' /\ P s2) ->
  exists s' o, run false (lap ++ es) s = Some (s', o) /\ held_up false (lap ++ es) s /\ P s'.
Proof.
  intros L K. unfold lap. cbn [app steps].
  Local Ltac cat n w := match goal with Q : lapst ?s ?k0 ?k1 ?rd |- _ => let RDS := fresh in assert (RDS : s_rd s = rd) by apply Q; eapply (lap_cons _ _ _ k0 k1 rd _ n _ _ Q); [discriminate|lia|rewrite RDS; cbn [Nat.eqb]; w|clear Q RDS; cbn [Nat.eqb filter teq negb]; let s1 := fresh "s" in let Q1 := fresh "L" in intros s1 Q1] end.
  cat 1 ltac:(left; reflexivity).
  cat 1 ltac:(right; left; reflexivity).
  cat 0 ltac:(right; right; left; reflexivity).
  cat 0 ltac:(right; right; right; left; reflexivity).
  cat 0 ltac:(right; right; right; right; left; eexists; reflexivity).
  cat 0 ltac:(right; right; right; right; right; eexists; reflexivity).
  cat 0 ltac:(left; reflexivity).
  cat 0 ltac:(right; left; reflexivity).
  cat 1 ltac:(right; right; left; reflexivity).
  cat 1 ltac:(right; right; right; left; reflexivity).
  cat 1 ltac:(right; right; right; right; left; eexists; reflexivity).
  cat 1 ltac:(right; right; right; right; right; eexists; reflexivity).
  apply K. assumption.
Qed.
Fixpoint laps (n : nat) : list ev := match n with 0 => [] | Datatypes.S m => lap ++ laps m end.
Lemma laps_ends n : length (filter ends (laps n)) = 2 * n.
Proof. induction n as [|n IH]; [reflexivity|]. cbn [laps]. rewrite filter_app, app_length, IH. cbn. lia. Qed.
Lemma laps_ok n s : lapst s (at_ [IFind 7; IGet; IUnlock] None []) None [U 0] -> exists s' o, run false (laps n) s = Some (s', o) /\ held_up false (laps n) s /\ True.
Proof.
  revert s. induction n as [|n IH]; intros s L; [|apply (lap_more (laps n) s (fun _ => True) L); apply IH].
  exists s, []. split; [reflexivity|]. split; [|exact I]. destruct L as (W & RD & T & CD & _). cbn [laps held_up]. split; [unfold wants; rewrite CD; reflexivity|]. split; [|exact I].
  cbn [step]. rewrite CD. cbn [begin k_rest prog exec]. rewrite W, RD. reflexivity.
Qed.
Theorem C126_overtake_refuted :
  ~ C126_overtake_full /\
  forall n, exists es1 s1 o1 es2 s2 o2, run false es1 st0 = Some (s1, o1) /\ run false es2 s1 = Some (s2, o2) /\ held_up false es2 s1 /\ length (filter ends es2) >= n.
Proof.
  split.
  - intros F. set (es := before ++ EStart (U 1) (OSend 7) :: steps (U 1) 4 ++ [EEnd (U 1)]). destruct (run false es st0) as [(s2 & o2)|] eqn:R.
    2: { assert (Z : (if run false es st0 then true else false) = true) by (vm_compute; reflexivity). rewrite R in Z. discriminate Z. }
    destruct (run_app false before _ st0 s2 o2 R) as (s1 & o1 & o3 & R1 & R2 & _).
    assert (WA : wants s1 = true). { assert (Z : option_map (fun x => wants (fst x)) (run false before st0) = Some true) by (vm_compute; reflexivity). rewrite R1 in Z. cbn in Z. congruence. }
    apply (F false before s1 o1 R1 WA [] (U 1) (OSend 7) (steps (U 1) 4 ++ [EEnd (U 1)]) s2 o3 R2); [cbn [app steps In]; intuition discriminate|]. apply in_or_app. right. left. reflexivity.
  - intros n. exists before. destruct (run false before st0) as [(s1 & o1)|] eqn:R1.
    2: { assert (Z : (if run false before st0 then true else false) = true) by (vm_compute; reflexivity). rewrite R1 in Z. discriminate Z. }
    assert (L : lapst s1 (at_ [IFind 7; IGet; IUnlock] None []) None [U 0]).
    { assert (Z : option_map (fun x => (s_wr (fst x), s_rd (fst x), s_tab (fst x) 7, s_call (fst x) D, s_call (fst x) (U 0), s_call (fst x) (U 1))) (run false before st0) = Some (None, [U 0], Some 0, Some (begin (ODel 7)), at_ [IFind 7; IGet; IUnlock] None [], None)) by (vm_compute; reflexivity).
      rewrite R1 in Z. cbn [option_map fst] in Z. injection Z as Z1 Z2 Z3 Z4 Z5 Z6. repeat (split; [assumption|]). assumption. }
    destruct (laps_ok n s1 L) as (s2 & o2 & R2 & H & _). exists s1, o1, (laps n), s2, o2. repeat (split; [first [reflexivity|assumption]|]). rewrite laps_ends. lia.
Qed.
Print Assumptions C126_overtake_refuted.

(** With a lock that does not let readers pass a waiting writer.  Missing: locks
    that do, as many are. *)
Lemma wants_stays pref es s s' o : Inv s -> wants s = true -> run pref es s = Some (s', o) -> ~ In (EStep D) es -> s_call s' D = s_call s D /\ wants s' = true.
Proof.
  intros V W. revert s' o. induction es as [|e es IH] using rev_ind; intros s' o R NI; [cbn in R; injection R as <- <-; auto|].
  destruct (run_snoc _ _ _ _ _ _ R) as (s1 & o1 & o2 & R1 & S & ->). destruct (IH s1 o1 R1) as (C & W1); [intros I; apply NI, in_or_app; auto|].
  assert (E : s_call s' D = s_call s1 D).
  { apply (step_other pref D e s1 s' o2 S). unfold wants in W1. destruct (s_call s1 D) as [k|] eqn:E; [|discriminate].
    destruct e as [u o'|u|u]; intros ->; cbn [step] in S; [rewrite E in S; discriminate|apply NI, in_or_app; right; left; reflexivity|]. rewrite E in S. destruct (k_rest k); discriminate. }
  split; [congruence|]. unfold wants in *. rewrite E. exact W1.
Qed.
Theorem C126_overtake_partial : forall es1 s1 o1, run true es1 st0 = Some (s1, o1) -> wants s1 = true ->
  forall a t o b s2 o2, run true (a ++ EStart t o :: b) s1 = Some (s2, o2) -> ~ In (EStep D) (a ++ b) -> ~ In (EEnd t) b.
Proof.
  intros es1 s1 o1 R1 W1 a t o b s2 o2 R NI IE. pose proof (run_inv _ _ _ _ _ Inv0 R1) as V1.
  destruct (run_app _ _ _ _ _ _ R) as (sa & oa & ob & RA & RB & _). destruct (wants_stays true a s1 sa oa V1 W1 RA) as (CA & WA); [intros I; apply NI, in_or_app; auto|]. pose proof (run_inv _ _ _ _ _ V1 RA) as VA.
  apply in_split in IE as (b1 & b2 & ->). change (EStart t o :: b1 ++ EEnd t :: b2) with ([EStart t o] ++ b1 ++ [EEnd t] ++ b2) in RB. rewrite !app_assoc in RB. destruct (run_app _ _ _ _ _ _ RB) as (sc & oc & od & RC & _ & _).
  destruct (run_snoc _ _ _ _ _ _ RC) as (sd & o3 & o4 & RD & SE & _). clear RB RC R.
  assert (TU : exists n i, t = U n /\ o = OSend i).
  { cbn [app run step] in RD. destruct (s_call sa t) as [k|] eqn:E; [discriminate|]. destruct t as [|n]; [unfold wants in WA; rewrite E in WA; discriminate|]. cbn [runs] in RD. destruct o; try discriminate. eauto. }
  destruct TU as (n & i & -> & ->).
  assert (G : s_call sd (U n) = Some (begin (OSend i))).
  { clear SE. assert (NB : ~ In (EStep D) b1) by (intros I; apply NI, in_or_app; right; apply in_or_app; auto). clear NI. revert sd o3 RD NB. induction b1 as [|e b1 IH] using rev_ind; intros sd o3 RD NB.
    - cbn [app run step] in RD. destruct (s_call sa (U n)); [discriminate|]. cbn in RD. injection RD as <- <-. apply (tupd_same (s_call sa)).
    - rewrite app_assoc in RD. destruct (run_snoc _ _ _ _ _ _ RD) as (se & o5 & o6 & RE & S & _). assert (NB' : ~ In (EStep D) b1) by (intros I; apply NB, in_or_app; auto). specialize (IH se o5 RE NB').
      destruct (wants_stays true _ sa se o5 VA WA RE) as (_ & WE); [cbn [app In]; intuition discriminate|].
      rewrite (step_other true (U n) e se sd o6 S); [exact IH|]. destruct e as [u o'|u|u]; intros ->; cbn [step] in S; rewrite IH in S; cbn [begin k_rest prog exec andb] in S; try discriminate. rewrite WE in S. destruct (s_wr se); discriminate. }
  cbn [step] in SE. rewrite G in SE. discriminate.
Qed.
Print Assumptions C126_overtake_partial.

(** Two senders and a waiting deletion: the second sender has to wait. *)
Example C126_nonvacuous : exists s1 o1, run true before st0 = Some (s1, o1) /\ wants s1 = true /\
  (exists s2 o2, run true [EStart (U 1) (OSend 7)] s1 = Some (s2, o2) /\ step true (EStep (U 1)) s2 = None) /\
  exists s3 o3, run true (EStart (U 1) (OSend 7) :: steps (U 0) 3 ++ EEnd (U 0) :: steps D 6 ++ EEnd D :: steps (U 1) 3 ++ [EEnd (U 1)]) s1 = Some (s3, o3) /\
  o3 = [(U 0, OSend 7, [1], Ok); (D, ODel 7, [], Ok); (U 1, OSend 7, [], NoPeer)].
Proof. do 2 eexists. split; [vm_compute; reflexivity|]. split; [vm_compute; reflexivity|]. split; do 2 eexists; split; vm_compute; reflexivity. Qed.

(** Property C65: the registry of clients. *)
From Coq Require Import Arith NArith List Bool Lia.
From Verif Require Import ClientModel.
Import ListNotations.

(** ** Specification *)

(** From a history alone: the address of each connection and the connections
    that are set up and not torn down, oldest first. *)
Fixpoint addr_in (evs : list cev) (c : nat) : N :=
  match evs with [] => 0%N | CAccept d a :: evs => if d =? c then a else addr_in evs c | _ :: evs => addr_in evs c end.
Definition live (evs : list cev) : list nat :=
  fold_left (fun l e => match e with CSetup c => l ++ [c] | CTear c => filter (fun d => negb (d =? c)) l | _ => l end) evs [].
(** The live connection from a that was set up last. *)
Definition latest (evs : list cev) (a : N) : option nat := find (fun c => (addr_in evs c =? a)%N) (rev (live evs)).
Definition answer (r : option nat) : cobs := match r with Some c => Sent c | None => NotExist end.
(** No connection is torn down while another one from its address is live. *)
Definition no_overlap (evs : list cev) : Prop := forall e1 c e2, evs = e1 ++ CTear c :: e2 -> forall d, In d (live e1) -> addr_in evs d = addr_in evs c -> d = c.

(** ** Proofs *)

Lemma live_snoc evs e : live (evs ++ [e]) = match e with CSetup c => live evs ++ [c] | CTear c => filter (fun d => negb (d =? c)) (live evs) | _ => live evs end.
Proof. unfold live. rewrite fold_left_app. destruct e; reflexivity. Qed.
Lemma addr_app e1 e2 c : addr_in (e1 ++ e2) c = if existsb (fun e => match e with CAccept d _ => d =? c | _ => false end) e1 then addr_in e1 c else addr_in e2 c.
Proof. induction e1 as [|e e1 IH]; [reflexivity|]. cbn. destruct e; cbn; auto. destruct (c0 =? c); [reflexivity|exact IH]. Qed.

Lemma crun_app e1 e2 s s' o : crun (e1 ++ e2) s = Some (s', o) -> exists s1 o1 o2, crun e1 s = Some (s1, o1) /\ crun e2 s1 = Some (s', o2) /\ o = o1 ++ o2.
Proof.
  revert s o. induction e1 as [|e e1 IH]; intros s o R; cbn in *; [exists s, [], o; auto|]. destruct (cstep e s) as [(s1 & o1)|]; [|discriminate].
  destruct (crun (e1 ++ e2) s1) as [(s2 & o2)|] eqn:E; [|discriminate]. injection R as <- <-. destruct (IH _ _ E) as (s3 & o3 & o4 & -> & E4 & ->). exists s3, (o1 ++ o3), o4. rewrite <- app_assoc. auto.
Qed.

Lemma find_erase a b m : lookup b (erase a m) = if N.eqb b a then None else lookup b m.
Proof.
  unfold lookup, erase. induction m as [|(x & c) m IH]; cbn; [destruct (b =? a)%N; reflexivity|].
  destruct (N.eqb_spec x a) as [E|E]; cbn [negb].
  - rewrite IH. subst x. destruct (N.eqb_spec b a) as [->|F]; [reflexivity|]. destruct (N.eqb_spec a b); [congruence|reflexivity].
  - cbn. destruct (N.eqb_spec x b) as [F|F]; [|exact IH]. subst x. destruct (N.eqb_spec b a); [congruence|reflexivity].
Qed.
Lemma look_cons a b c m : lookup b ((a, c) :: m) = if N.eqb a b then Some c else lookup b m.
Proof. unfold lookup. cbn. destruct (a =? b)%N; reflexivity. Qed.

Record CInv (es : list cev) (s : cnet) : Prop := mkCInv {
  c_addr : forall c, n_phase s c <> Fresh -> n_addr s c = addr_in es c /\ existsb (fun e => match e with CAccept d _ => d =? c | _ => false end) es = true;
  c_fresh : forall c, n_phase s c = Fresh -> existsb (fun e => match e with CAccept d _ => d =? c | _ => false end) es = false;
  c_up : forall c, In c (live es) <-> n_phase s c = Up;
  c_sound : forall a c, lookup a (n_map s) = Some c -> n_phase s c = Up /\ n_addr s c = a }.

Lemma upd_same {B} (f : nat -> B) c v : upd f c v c = v.
Proof. unfold upd. rewrite Nat.eqb_refl. reflexivity. Qed.
Lemma upd_other {B} (f : nat -> B) c v d : d <> c -> upd f c v d = f d.
Proof. intros N. unfold upd. destruct (Nat.eqb_spec d c); [congruence|reflexivity]. Qed.

Lemma ex_snoc {A} (p : A -> bool) l a : existsb p (l ++ [a]) = existsb p l || p a.
Proof. rewrite existsb_app. cbn. rewrite orb_false_r. reflexivity. Qed.

Lemma cinv_step es ev s s' o : cstep ev s = Some (s', o) -> CInv es s -> CInv (es ++ [ev]) s'.
Proof.
  intros E [H1 H2 H3 H4]. destruct ev; cbn in E.
  - destruct (n_phase s c) eqn:P; try discriminate. injection E as <- <-. constructor; cbn [n_map n_phase n_addr].
    + intros d D. rewrite ex_snoc, addr_app. cbn. destruct (Nat.eq_dec d c) as [->|N].
      * rewrite upd_same. rewrite (H2 c P). cbn. rewrite Nat.eqb_refl. auto.
      * rewrite upd_other in D by auto. rewrite upd_other by auto. destruct (H1 d D) as (K1 & K2). rewrite K2. auto.
    + intros d D. rewrite ex_snoc. destruct (Nat.eq_dec d c) as [->|N]; [rewrite upd_same in D; discriminate|]. rewrite upd_other in D by auto. rewrite (H2 d D). cbn. apply Nat.eqb_neq. auto.
    + intros d. rewrite live_snoc, H3. destruct (Nat.eq_dec d c) as [->|N]; [rewrite upd_same, P; split; discriminate|]. rewrite upd_other by auto. reflexivity.
    + intros b d L. destruct (H4 b d L) as (K1 & K2). assert (d <> c) by congruence. rewrite !upd_other by auto. auto.
  - destruct (n_phase s c) eqn:P; try discriminate. injection E as <- <-. constructor; cbn [n_map n_phase n_addr].
    + intros d D. rewrite ex_snoc, addr_app, orb_false_r. destruct (Nat.eq_dec d c) as [->|N]; [destruct (H1 c) as (K1 & K2); [congruence|]|rewrite upd_other in D by auto; destruct (H1 d D) as (K1 & K2)]; rewrite K2; auto.
    + intros d D. rewrite ex_snoc, orb_false_r. destruct (Nat.eq_dec d c) as [->|N]; [rewrite upd_same in D; discriminate|]. rewrite upd_other in D by auto. auto.
    + intros d. rewrite live_snoc, in_app_iff. cbn. rewrite H3. destruct (Nat.eq_dec d c) as [->|N]; [rewrite upd_same; tauto|]. rewrite upd_other by auto. split; [intros [K|[K|K]]; [exact K|congruence|destruct K]|auto].
    + intros b d L. rewrite look_cons in L. destruct (N.eqb_spec (n_addr s c) b) as [<-|F]; [injection L as <-; rewrite upd_same; auto|]. rewrite find_erase in L. destruct (N.eqb_spec b (n_addr s c)); [discriminate|]. destruct (H4 b d L) as (K1 & K2). assert (d <> c) by congruence. rewrite upd_other by auto. auto.
  - assert (X : exists m, s' = mkCnet m (upd (n_phase s) c Gone) (n_addr s) /\ m = erase (n_addr s c) (n_map s) /\ n_phase s c <> Fresh). { destruct (n_phase s c); try discriminate; injection E as <- <-; (eexists; split; [reflexivity|split; congruence]). }
    destruct X as (m & -> & -> & P). constructor; cbn [n_map n_phase n_addr].
    + intros d D. rewrite ex_snoc, addr_app, orb_false_r. destruct (Nat.eq_dec d c) as [->|N]; [destruct (H1 c) as (K1 & K2); [congruence|]|rewrite upd_other in D by auto; destruct (H1 d D) as (K1 & K2)]; rewrite K2; auto.
    + intros d D. rewrite ex_snoc, orb_false_r. destruct (Nat.eq_dec d c) as [->|N]; [rewrite upd_same in D; discriminate|]. rewrite upd_other in D by auto. auto.
    + intros d. rewrite live_snoc, filter_In, H3. destruct (Nat.eqb_spec d c) as [->|N]; cbn; [rewrite upd_same; split; [intros (_ & ?); discriminate|discriminate]|]. rewrite upd_other by auto. tauto.
    + intros b d L. rewrite find_erase in L. destruct (N.eqb_spec b (n_addr s c)); [discriminate|]. destruct (H4 b d L) as (K1 & K2). assert (d <> c) by congruence. rewrite upd_other by auto. auto.
  - injection E as <- <-. constructor; auto.
    + intros d D. rewrite ex_snoc, addr_app, orb_false_r. destruct (H1 d D) as (K1 & K2). rewrite K2. auto.
    + intros d D. rewrite ex_snoc, orb_false_r. auto.
    + intros d. rewrite live_snoc. apply H3.
Qed.
Lemma cinv_run evs : forall es s s' o, crun evs s = Some (s', o) -> CInv es s -> CInv (es ++ evs) s'.
Proof.
  induction evs as [|ev evs IH]; intros es s s' o R I; cbn in R; [injection R as <- <-; rewrite app_nil_r; exact I|].
  destruct (cstep ev s) as [(s1 & o1)|] eqn:E; [|discriminate]. destruct (crun evs s1) as [(s2 & o2)|] eqn:E2; [|discriminate]. injection R as <- <-. change (ev :: evs) with ([ev] ++ evs). rewrite app_assoc. apply (IH _ s1 _ o2); auto. apply (cinv_step es ev s s1 o1); auto.
Qed.
Lemma cinv_new : CInv [] c_new.
Proof. constructor; cbn; try discriminate; [congruence|auto|]. intros c. split; [intros []|discriminate]. Qed.

(** ** C65 *)

(** A send never reaches a connection from another address or one that is not
    set up or already torn down. *)
Theorem C65_right_client_partial : forall evs a s o c, crun (evs ++ [CSend a]) c_new = Some (s, o ++ [Sent c]) -> In c (live evs) /\ addr_in evs c = a.
Proof.
  intros evs a s o c R. destruct (crun_app _ _ _ _ _ R) as (s1 & o1 & o2 & R1 & R2 & E). pose proof (cinv_run evs [] c_new s1 o1 R1 cinv_new) as H. cbn [app] in H.
  cbn in R2. injection R2 as <- <-. apply app_inj_tail in E. destruct E as (_ & E). destruct (lookup a (n_map s1)) as [d|] eqn:L; [|discriminate]. injection E as <-.
  destruct (c_sound _ _ H a c L) as (K1 & K2). split; [apply (c_up _ _ H); exact K1|]. destruct (c_addr _ _ H c) as (K3 & _); congruence.
Qed.
Print Assumptions C65_right_client_partial.

(** A client that reconnects from its address while the end of its previous
    connection is still to be processed is unknown afterwards, although its
    connection is live. *)
Theorem C65_reconnect_refuted : exists evs a s o c, crun (evs ++ [CSend a]) c_new = Some (s, o ++ [NotExist]) /\ In c (live evs) /\ addr_in evs c = a.
Proof.
  exists [CAccept 0 7; CSetup 0; CAccept 1 7; CSetup 1; CTear 0], 7%N. eexists. exists [], 1. split; [vm_compute; reflexivity|]. split; [left; reflexivity|reflexivity].
Qed.
Print Assumptions C65_reconnect_refuted.

(** Without such an overlap every send goes to the live connection from the
    address (to the one set up last if there are several), and reports that
    there is none exactly then.  In full: in every history. *)
Theorem C65_send_partial : forall evs a s o, no_overlap evs -> crun (evs ++ [CSend a]) c_new = Some (s, o) ->
  exists o', o = o' ++ [answer (latest evs a)].
Proof.
  intros evs a s o NO R. destruct (crun_app _ _ _ _ _ R) as (s1 & o1 & o2 & R1 & R2 & ->). cbn in R2. injection R2 as <- <-. exists o1. do 2 f_equal.
  assert (K : lookup a (n_map s1) = latest evs a); [|rewrite K; reflexivity]. clear R. revert a s1 o1 R1. induction evs as [|e evs IH] using rev_ind; intros a s1 o1 R1.
  - cbn in R1. injection R1 as <- <-. reflexivity.
  - destruct (crun_app _ _ _ _ _ R1) as (s2 & o2 & o3 & R2 & R3 & _). pose proof (cinv_run evs [] c_new s2 o2 R2 cinv_new) as H. cbn [app] in H.
    assert (AE : forall d, existsb (fun e => match e with CAccept c _ => c =? d | _ => false end) evs = true -> addr_in (evs ++ [e]) d = addr_in evs d) by (intros d X; rewrite addr_app, X; reflexivity).
    assert (AL : forall d, In d (live evs) -> addr_in (evs ++ [e]) d = addr_in evs d). { intros d I. apply AE. apply (c_addr _ _ H d). apply (c_up _ _ H) in I. congruence. }
    assert (IH' : forall a, lookup a (n_map s2) = latest evs a).
    { intros b. apply (IH) with (o1 := o2); [|exact R2]. intros e1 c e2 E d I A. assert (Ic : existsb (fun e => match e with CAccept x _ => x =? c | _ => false end) evs = true).
      { destruct (crun_app e1 (CTear c :: e2) c_new s2 o2) as (s3 & o4 & o5 & R4 & R5 & _); [rewrite <- E; exact R2|]. pose proof (cinv_run e1 [] c_new s3 o4 R4 cinv_new) as H3. cbn [app] in H3. rewrite E, existsb_app. apply orb_true_iff. left.
        apply (c_addr _ _ H3). intros F. cbn in R5. rewrite F in R5. discriminate. }
      assert (Id : existsb (fun e => match e with CAccept x _ => x =? d | _ => false end) evs = true).
      { destruct (crun_app e1 (CTear c :: e2) c_new s2 o2) as (s3 & o4 & o5 & R4 & R5 & _); [rewrite <- E; exact R2|]. pose proof (cinv_run e1 [] c_new s3 o4 R4 cinv_new) as H3. cbn [app] in H3. rewrite E, existsb_app. apply orb_true_iff. left.
        apply (c_addr _ _ H3). apply (c_up _ _ H3) in I. congruence. }
      apply (NO e1 c (e2 ++ [e])); [rewrite E, <- app_assoc; reflexivity|exact I|]. rewrite !AE by assumption. exact A. }
    assert (FE : forall (l : list nat) (p q : nat -> bool), (forall d, In d l -> p d = q d) -> find p l = find q l).
    { clear. induction l as [|x l IH]; intros p q HH; [reflexivity|]. cbn. rewrite (HH x) by (left; reflexivity). destruct (q x); [reflexivity|]. apply IH. intros d I. apply HH. right. exact I. }
    cbn [crun] in R3. destruct (cstep e s2) as [(s3 & o4)|] eqn:E3; [|discriminate]. injection R3 as <- <-.
    unfold latest. rewrite live_snoc. destruct e as [c b|c|c|b]; cbn in E3.
    + destruct (n_phase s2 c); try discriminate. injection E3 as <- <-. cbn [n_map]. rewrite IH'. apply FE. intros d I. rewrite <- in_rev in I. rewrite AL by exact I. reflexivity.
    + destruct (n_phase s2 c) eqn:P; try discriminate. injection E3 as <- <-. cbn [n_map]. rewrite look_cons, find_erase, rev_app_distr. cbn [rev app find].
      destruct (c_addr _ _ H c) as (K1 & K2); [congruence|]. rewrite AE, K1 by exact K2. destruct (N.eqb_spec (addr_in evs c) a) as [E|E]; [reflexivity|]. destruct (N.eqb_spec a (addr_in evs c)); [congruence|]. rewrite IH'. apply FE. intros d I. rewrite <- in_rev in I. rewrite AL by exact I. reflexivity.
    + assert (X : n_map s3 = erase (n_addr s2 c) (n_map s2) /\ n_phase s2 c <> Fresh). { destruct (n_phase s2 c); try discriminate; injection E3 as <- <-; split; (reflexivity || discriminate). }
      destruct X as (-> & P). destruct (c_addr _ _ H c P) as (K1 & K2). rewrite find_erase, K1, IH'. unfold latest.
      assert (NO' : forall d, In d (live evs) -> addr_in evs d = addr_in evs c -> d = c). { intros d I A. apply (NO evs c []); auto. rewrite AL, AE by assumption. exact A. }
      assert (FR : forall p (l : list nat), filter p (rev l) = rev (filter p l)). { clear. intros p. induction l as [|x l IH]; [reflexivity|]. cbn [rev filter]. rewrite filter_app, IH. cbn. destruct (p x); cbn; [reflexivity|rewrite app_nil_r; reflexivity]. }
      rewrite <- FR. destruct (N.eqb_spec a (addr_in evs c)) as [->|NA].
      * symmetry. destruct (find _ _) as [d|] eqn:F; [|reflexivity]. exfalso. apply find_some in F. destruct F as (F1 & F2). apply filter_In in F1. destruct F1 as (F1 & F3). apply in_rev in F1. apply N.eqb_eq in F2. rewrite AL in F2 by exact F1. rewrite (NO' d F1 F2), Nat.eqb_refl in F3. discriminate.
      * assert (I : forall d, In d (rev (live evs)) -> In d (live evs)) by (intros d; rewrite <- in_rev; auto). revert I. generalize (rev (live evs)). induction l as [|x l IHl]; intros I; [reflexivity|]. cbn [find filter].
        assert (Ix : In x (live evs)) by (apply I; left; reflexivity). assert (Il : forall d, In d l -> In d (live evs)) by (intros d J; apply I; right; exact J).
        destruct (Nat.eqb_spec x c) as [->|NX]; cbn [negb]; [destruct (N.eqb_spec (addr_in evs c) a); [congruence|]; apply IHl; exact Il|]. cbn [find]. rewrite AL by exact Ix. destruct (addr_in evs x =? a)%N; [reflexivity|apply IHl; exact Il].
    + injection E3 as <- <-. rewrite IH'. apply FE. intros d I. rewrite <- in_rev in I. rewrite AL by exact I. reflexivity.
Qed.
Print Assumptions C65_send_partial.

(** A client that comes back after its first connection ended, and another. *)
Example C65_nonvacuous : let evs := [CAccept 0 7; CSetup 0; CAccept 1 8; CSetup 1; CTear 0; CAccept 2 7; CSetup 2] in
  no_overlap evs /\ option_map snd (crun (evs ++ [CSend 7]) c_new) = Some [Sent 2] /\ latest evs 7 = Some 2 /\ latest evs 8 = Some 1 /\ latest evs 9 = None.
Proof.
  cbn zeta. split; [|repeat split; vm_compute; reflexivity]. intros e1 c e2 E d I A.
  destruct e1 as [|x1 e1]; [discriminate E|]. injection E as <- E. destruct e1 as [|x2 e1]; [discriminate E|]. injection E as <- E. destruct e1 as [|x3 e1]; [discriminate E|]. injection E as <- E. destruct e1 as [|x4 e1]; [discriminate E|]. injection E as <- E.
  destruct e1 as [|x5 e1]; [|injection E as <- E; destruct e1 as [|x6 e1]; [discriminate E|]; injection E as <- E; destruct e1 as [|x7 e1]; [discriminate E|]; injection E as <- E; destruct e1; discriminate E].
  injection E as <- _. cbn in I. destruct I as [<-|[<-|[]]]; [reflexivity|]. vm_compute in A. discriminate A.
Qed.

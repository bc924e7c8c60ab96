(** C45, C46, C47: atomic reference counting. *)
From Coq Require Import Arith List Bool Lia Permutation.
From Verif Require Import RefModel ArcModel.
Import ListNotations.

(** ** Specification: conditions on runs *)

(** [P] holds at each event of the run. *)
Fixpoint along (P : aev -> ast -> Prop) (es : list aev) (s : ast) : Prop :=
  match es with
  | [] => True
  | e :: es => P e s /\ match astep e s with Some s => along P es s | None => True end
  end.

(** Upgrades are not interrupted between their test and their increment. *)
Definition atomic_up (e : aev) (s : ast) : Prop :=
  forall i, nth_error (a_pcs s) i = Some U2 -> e = EStep i.

(** At most 256 operations are in progress at a time. *)
Definition few (e : aev) (s : ast) : Prop := length (a_pcs s) <= 256.

(** No strong handle is downgraded while the release of what was the only
    weak handle is about to look at the strong count. *)
Definition no_late_down (e : aev) (s : ast) : Prop := e = EDown -> ~ In W3 (a_pcs s).

(** A release only starts when no other one is using the control block. *)
Definition one_release (e : aev) (s : ast) : Prop :=
  e = ERelS \/ e = ERelW -> forall p, In p (a_pcs s) -> p = R6.

Definition both (P Q : aev -> ast -> Prop) (e : aev) (s : ast) : Prop := P e s /\ Q e s.

Lemma along_and P Q es : forall s, along (both P Q) es s -> along P es s /\ along Q es s.
Proof.
  induction es as [|e es IH]; intros s; cbn; [auto|]. intros ((p & q) & H).
  destruct (astep e s); [|auto]. destruct (IH _ H). auto.
Qed.

(** ** Counting *)

Fixpoint wsum (w : pc -> nat) (l : list pc) : nat := match l with [] => 0 | p :: l => w p + wsum w l end.

Lemma wsum_perm w l l' : Permutation l l' -> wsum w l = wsum w l'.
Proof. induction 1; cbn; lia. Qed.

Lemma pick {A} i l (p : A) : nth_error l i = Some p -> exists r, Permutation l (p :: r) /\ (forall q, Permutation (repl i q l) (q :: r)) /\ Permutation (remove_at i l) r.
Proof.
  revert l. induction i as [|i IH]; intros [|x l] H; cbn in H; try discriminate.
  - injection H as ->. exists l. repeat split; reflexivity.
  - destruct (IH l H) as (r & P1 & P2 & P3). exists (x :: r). cbn. split; [|split].
    + eapply perm_trans; [apply perm_skip; exact P1|]. apply perm_swap.
    + intros q. eapply perm_trans; [apply perm_skip; apply P2|]. apply perm_swap.
    + apply perm_skip. exact P3.
Qed.

Lemma wsum_in w l p : In p l -> w p <= wsum w l.
Proof. induction l as [|q l IH]; cbn; [contradiction|]. intros [->|H]; [lia|]. specialize (IH H). lia. Qed.

Lemma wsum_0 w l : wsum w l = 0 -> forall p, In p l -> w p = 0.
Proof. intros H p I. pose proof (wsum_in w l p I). lia. Qed.

(** Rewrites the counts of the new list of operations. *)
Ltac counts P1 P2 P3 :=
  rewrite ?(wsum_perm _ _ _ P1), ?(wsum_perm _ _ _ (P2 _)), ?(wsum_perm _ _ _ P3) in *.

Definition w_r1 p := match p with R1 => 1 | _ => 0 end.
Definition w_last p := match p with R3 | R4 | R5 | R6 => 1 | _ => 0 end.
Definition w_w1 p := match p with W1 => 1 | _ => 0 end.
Definition w_u2 p := match p with U2 => 1 | _ => 0 end.
Definition w_hold p := match p with R6 | U2 => 0 | _ => 1 end.
Definition w_r5 p := match p with R5 => 1 | _ => 0 end.
Definition w_w3 p := match p with W3 => 1 | _ => 0 end.
Definition w_w5 p := match p with W5 => 1 | _ => 0 end.

(** ** The object *)

Record OInv (s : ast) : Prop := mkOInv {
  o_ref : a_ref s = a_hs s + wsum w_r1 (a_pcs s);
  o_des : wsum w_last (a_pcs s) + a_destroyed s = if a_ref s =? 0 then 1 else 0;
  o_up : 0 < wsum w_u2 (a_pcs s) -> 0 < a_ref s }.

Lemma no_u2 s e : atomic_up e s -> (forall i, e <> EStep i) -> wsum w_u2 (a_pcs s) = 0.
Proof.
  intros A N. assert (H : ~ In U2 (a_pcs s)).
  { intros I. destruct (In_nth_error _ _ I) as (i & E). apply (N i). apply A. exact E. }
  induction (a_pcs s) as [|p l IH]; [reflexivity|]. cbn in *. rewrite IH by tauto. destruct p; cbn; tauto.
Qed.

Lemma no_u2_other s i p : atomic_up (EStep i) s -> nth_error (a_pcs s) i = Some p -> p <> U2 -> wsum w_u2 (a_pcs s) = 0.
Proof.
  intros A E N. assert (H : ~ In U2 (a_pcs s)).
  { intros I. destruct (In_nth_error _ _ I) as (j & F). pose proof (A j F) as X. injection X as <-. congruence. }
  clear E A. induction (a_pcs s) as [|q l IH]; [reflexivity|]. cbn in *. rewrite IH by tauto. destruct q; cbn; tauto.
Qed.

Ltac br := match goal with |- context[Nat.eqb ?a ?b] => destruct (Nat.eqb_spec a b) | H : context[Nat.eqb ?a ?b] |- _ => destruct (Nat.eqb_spec a b) end.

Lemma ostep e s s' : astep e s = Some s' -> atomic_up e s -> OInv s -> OInv s'.
Proof.
  intros E A [I1 I2 I3]. destruct s as [ref weak dcnt hs hw pcs des fr bad]. cbn [a_ref a_hs a_pcs a_destroyed] in *.
  destruct e; cbn [astep] in E.
  - destruct (Nat.eqb_spec hs 0); [discriminate|]. injection E as <-. constructor; cbn [a_ref a_hs a_pcs a_destroyed]; try lia.
    replace (S ref =? 0) with false by reflexivity. destruct (Nat.eqb_spec ref 0); lia.
  - destruct (Nat.eqb_spec hs 0); [discriminate|]. injection E as <-. constructor; auto.
  - destruct (Nat.eqb_spec hw 0); [discriminate|]. injection E as <-. constructor; auto.
  - destruct hs as [|hs]; [discriminate|]. injection E as <-. constructor; cbn [a_ref a_hs a_pcs a_destroyed wsum w_r1 w_last w_u2]; auto; lia.
  - destruct hw as [|hw]; [discriminate|]. injection E as <-. constructor; cbn [a_ref a_hs a_pcs a_destroyed wsum w_r1 w_last w_u2]; auto; lia.
  - destruct hw as [|hw]; [discriminate|]. destruct (Nat.eqb_spec ref 0) as [Z|NZ]; injection E as <-.
    + constructor; cbn [a_ref a_hs a_pcs a_destroyed]; auto. subst ref. rewrite Z. exact I2.
    + constructor; cbn [a_ref a_hs a_pcs a_destroyed wsum w_r1 w_last w_u2]; auto; try lia.
      destruct (Nat.eqb_spec ref 0); [contradiction|exact I2].
  - destruct (nth_error pcs i) as [p|] eqn:N; [|discriminate]. destruct (pick _ _ _ N) as (r & P1 & P2 & P3).
    assert (U : p <> U2 -> wsum w_u2 pcs = 0).
    { intros D. exact (no_u2_other _ _ _ A N D). }
    destruct p; injection E as <-;
      (constructor; cbn [a_ref a_hs a_pcs a_destroyed]; 
       [rewrite (wsum_perm w_r1 _ _ P1) in I1 | rewrite (wsum_perm w_last _ _ P1) in I2; rewrite (wsum_perm w_r1 _ _ P1) in I1 | rewrite (wsum_perm w_u2 _ _ P1) in I3, U; rewrite (wsum_perm w_r1 _ _ P1) in I1];
       rewrite ?(wsum_perm _ _ _ (P2 _)), ?(wsum_perm _ _ _ P3); cbn [wsum w_r1 w_last w_u2] in *;
       try (specialize (U ltac:(discriminate))); repeat br; cbn [w_r1 w_last w_u2] in *; try lia).
    rewrite (wsum_perm w_u2 _ _ P1) in I3. cbn in I3. lia.
Qed.

Lemma orun es : forall s s', arun es s = Some s' -> along atomic_up es s -> OInv s -> OInv s'.
Proof.
  induction es as [|e es IH]; intros s s' R A I; cbn in *; [congruence|].
  destruct (astep e s) as [s1|] eqn:E; [|discriminate]. destruct A as (A & B). apply (IH s1); auto. apply (ostep e s); auto.
Qed.

Lemma ainit_oinv : OInv ainit.
Proof. constructor; cbn; auto; lia. Qed.

(** However many threads copy, release, downgrade and (uninterrupted) upgrade
    handles, the object is destroyed at most once, never while a strong handle
    exists, and exactly once when no strong handle and no operation is left. *)
Theorem C45_object_once_partial : forall es s, arun es ainit = Some s -> along atomic_up es ainit ->
  a_destroyed s <= 1
  /\ (0 < a_hs s -> a_destroyed s = 0)
  /\ (a_hs s = 0 -> a_pcs s = [] -> a_destroyed s = 1).
Proof.
  intros es s R A. destruct (orun es _ _ R A ainit_oinv) as [I1 I2 I3].
  destruct (Nat.eqb_spec (a_ref s) 0) as [Z|NZ].
  - split; [lia|]. split; [lia|]. intros H P. rewrite P in *. cbn in *. lia.
  - split; [lia|]. split; [lia|]. intros H P. rewrite P in *. cbn in *. lia.
Qed.
Print Assumptions C45_object_once_partial.

(** ** The control block *)

Record CInv (s : ast) : Prop := mkCInv {
  c_o : OInv s;
  c_wk : a_weak s = a_hw s + wsum w_w1 (a_pcs s) + wsum w_u2 (a_pcs s);
  c_dc : a_dcnt s = wsum w_hold (a_pcs s) mod 256;
  c_r5 : 0 < wsum w_r5 (a_pcs s) -> a_ref s = 0 /\ a_weak s = 0;
  c_w3 : 0 < wsum w_w3 (a_pcs s) -> a_weak s = 0;
  c_w5 : 0 < wsum w_w5 (a_pcs s) -> a_ref s = 0 /\ a_weak s = 0;
  c_fr : a_freed s = 0 \/ a_freed s = 1 /\ a_ref s = 0 /\ a_weak s = 0 /\ wsum w_hold (a_pcs s) = 0;
  c_bad : a_bad s = false }.

Lemma wsum_le w w' l : (forall p, w p <= w' p) -> wsum w l <= wsum w' l.
Proof. intros H. induction l as [|p l IH]; cbn; [lia|]. specialize (H p). lia. Qed.

Lemma hold_len l : wsum w_hold l <= length l.
Proof. induction l as [|p l IH]; cbn; [lia|]. destruct p; cbn; lia. Qed.

Lemma dec_hold h : h <= 255 -> dec8 ((1 + h) mod 256) = h mod 256 /\ (dec8 ((1 + h) mod 256) =? 0) = (h =? 0).
Proof.
  intros L. unfold dec8. rewrite Nat.add_mod_idemp_l by discriminate. replace (1 + h + 255) with (h + 1 * 256) by lia. rewrite Nat.mod_add by discriminate.
  rewrite (Nat.mod_small h) by lia. auto.
Qed.

Lemma inc_hold h : inc8 (h mod 256) = (1 + h) mod 256.
Proof. unfold inc8. rewrite Nat.add_mod_idemp_l by discriminate. f_equal. lia. Qed.

Definition cond : aev -> ast -> Prop := both atomic_up (both few no_late_down).

Lemma in_w3 l : 0 < wsum w_w3 l -> In W3 l.
Proof. induction l as [|p l IH]; cbn; [lia|]. destruct p; cbn; auto. Qed.

Ltac ccbn := cbn [a_ref a_hs a_pcs a_destroyed a_weak a_hw a_dcnt a_freed a_bad].
Ltac ccbnin := cbn [a_ref a_hs a_pcs a_destroyed a_weak a_hw a_dcnt a_freed a_bad] in *.
Ltac wcbn := cbn [wsum w_r1 w_last w_u2 w_w1 w_hold w_r5 w_w3 w_w5] in *.

Lemma cstep e s s' : astep e s = Some s' -> cond e s -> CInv s -> CInv s'.
Proof.
  intros E (A & F & D) [I0 I1 I2 I3 I4 I5 I6 I7].
  pose proof (ostep _ _ _ E A I0) as O'. destruct I0 as [J1 J2 J3]. unfold few in F.
  pose proof (wsum_le w_r1 w_hold (a_pcs s) ltac:(intros []; cbn; lia)) as L1.
  pose proof (wsum_le w_w1 w_hold (a_pcs s) ltac:(intros []; cbn; lia)) as L2.
  pose proof (wsum_le w_u2 w_u2 (a_pcs s) ltac:(intros []; cbn; lia)) as L3.
  pose proof (hold_len (a_pcs s)) as L4.
  pose proof (in_w3 (a_pcs s)) as IW.
  destruct s as [ref weak dcnt hs hw pcs des fr bad]. ccbnin.
  assert (FR : 0 < hs \/ 0 < hw \/ 0 < wsum w_hold pcs \/ 0 < wsum w_u2 pcs -> fr = 0) by (destruct I6 as [I6|(_ & I6 & I6' & I6'')]; [auto|lia]).
  assert (TB : fr = 0 -> touch (mkA ref weak dcnt hs hw pcs des fr bad) = false) by (intros ->; unfold touch; ccbn; rewrite I7; reflexivity).
  destruct e; cbn [astep] in E.
  - destruct (Nat.eqb_spec hs 0); [discriminate|]. injection E as <-. rewrite TB in * by (apply FR; lia).
    constructor; ccbn; auto; try lia.
  - destruct (Nat.eqb_spec hs 0); [discriminate|]. injection E as <-. rewrite TB in * by (apply FR; lia).
    constructor; ccbn; auto; try lia. intros H. exfalso. apply (D eq_refl). apply IW. exact H.
  - destruct (Nat.eqb_spec hw 0); [discriminate|]. injection E as <-. rewrite TB in * by (apply FR; lia).
    constructor; ccbn; auto; try lia.
  - destruct hs as [|hs]; [discriminate|]. injection E as <-. rewrite TB in * by (apply FR; lia).
    constructor; ccbn; wcbn; auto; try lia. rewrite I2. apply inc_hold.
  - destruct hw as [|hw]; [discriminate|]. injection E as <-. rewrite TB in * by (apply FR; lia).
    constructor; ccbn; wcbn; auto; try lia. rewrite I2. apply inc_hold.
  - destruct hw as [|hw]; [discriminate|]. destruct (ref =? 0); injection E as <-; rewrite TB in * by (apply FR; lia);
      constructor; ccbn; wcbn; auto; try lia.
  - destruct (nth_error pcs i) as [p|] eqn:N; [|discriminate]. destruct (pick _ _ _ N) as (r & P1 & P2 & P3).
    assert (U : p <> U2 -> wsum w_u2 pcs = 0) by (intros Q; exact (no_u2_other _ _ _ A N Q)).
    rewrite (wsum_perm w_r1 _ _ P1) in *. rewrite (wsum_perm w_last _ _ P1) in *.
    rewrite (wsum_perm w_w1 _ _ P1) in *. rewrite (wsum_perm w_u2 _ _ P1) in *. rewrite (wsum_perm w_hold _ _ P1) in *.
    rewrite (wsum_perm w_r5 _ _ P1) in *. rewrite (wsum_perm w_w3 _ _ P1) in *. rewrite (wsum_perm w_w5 _ _ P1) in *.
    clear IW D A.
    destruct p; wcbn; try (specialize (U ltac:(discriminate)));
      try (rewrite TB in E by (apply FR; lia); assert (Z : fr = 0) by (apply FR; lia); subst fr);
      injection E as <-;
      (constructor; [exact O'| | | | | | |]); ccbn;
      rewrite ?(wsum_perm _ _ _ (P2 _)), ?(wsum_perm _ _ _ P3); wcbn;
      try (rewrite I2; destruct (dec_hold (wsum w_hold r)) as (DH1 & DH2); [lia|]; rewrite ?DH2; ccbn; first [exact DH1|idtac]);
      repeat br; wcbn; try lia; auto.
Qed.

Lemma crun es : forall s s', arun es s = Some s' -> along cond es s -> CInv s -> CInv s'.
Proof.
  induction es as [|e es IH]; intros s s' R A I; cbn in *; [congruence|].
  destruct (astep e s) as [s1|] eqn:E; [|discriminate]. destruct A as (A & B). apply (IH s1); auto. apply (cstep e s); auto.
Qed.

Lemma ainit_cinv : CInv ainit.
Proof. constructor; cbn; auto using ainit_oinv; lia. Qed.

(** With at most 256 operations in progress, uninterrupted upgrades and no
    downgrade racing with the release of the last weak handle, the control
    block is never freed twice and never used after being freed; it is only
    freed when no handle is left. *)
Theorem C45_control_block_partial : forall es s, arun es ainit = Some s ->
  along (both atomic_up (both few no_late_down)) es ainit ->
  a_bad s = false /\ a_freed s <= 1 /\ (a_freed s = 1 -> a_hs s = 0 /\ a_hw s = 0).
Proof.
  intros es s R A. destruct (crun es _ _ R A ainit_cinv) as [[J1 J2 J3] I1 I2 I3 I4 I5 I6 I7].
  split; [exact I7|]. destruct I6 as [->|(-> & Z1 & Z2 & Z3)]; [split; [lia|discriminate]|]. split; [lia|]. intros _. lia.
Qed.
Print Assumptions C45_control_block_partial.

(** Decidable versions, for examples. *)
Definition is_u2 (p : pc) : bool := match p with U2 => true | _ => false end.

(** Three threads sharing strong and weak handles. *)
Definition ex_arc : list aev :=
  [ECopy; EDown; ECopy; EUp; EStep 0; ERelS; ERelS; EStep 0; EStep 1; EStep 0; ERelW; ERelS; EStep 0; EStep 1; EStep 2; EStep 0; EStep 0; EStep 0; ERelS; EStep 0; EStep 0; EStep 0; EStep 0].

Example C45_nonvacuous : exists s, arun ex_arc ainit = Some s
  /\ along (both atomic_up (both few no_late_down)) ex_arc ainit
  /\ a_hs s = 0 /\ a_hw s = 0 /\ a_pcs s = [] /\ a_destroyed s = 1 /\ a_freed s = 1.
Proof.
  eexists. split; [vm_compute; reflexivity|]. split; [|repeat split].
  unfold ex_arc. cbn [along astep ainit].
  Ltac onec := split; [split; [intros i H; destruct i as [|[|[|[|i]]]]; cbn in H; first [discriminate H|reflexivity]|split; [unfold few; cbn; lia|intros H; try discriminate H; cbn; intuition discriminate]]|].
  cbn; repeat onec. exact I.
Qed.

(** The full claim fails with two threads: T1 releases a weak handle up to
    reading ref_cnt; T2 downgrades and releases its strong handle; T1 frees
    the control block that T2's weak handle still uses; the release of that
    handle uses it after the free. *)
Definition uaf : list aev :=
  [EDown; ERelW; EStep 0; EDown; ERelS; EStep 0; EStep 0; EStep 0; EStep 0; EStep 0; EStep 0].

Theorem C45_control_block_refuted : exists es s s',
  arun es ainit = Some s /\ along atomic_up es ainit /\ along few es ainit
  /\ a_hw s = 1 /\ a_freed s = 1 /\ a_bad s = false
  /\ astep ERelW s = Some s' /\ a_bad s' = true.
Proof.
  exists uaf. eexists. eexists. split; [vm_compute; reflexivity|].
  split; [|split; [|repeat split]].
  - cbn. repeat (split; [intros i H; destruct i as [|[|[|i]]]; cbn in H; discriminate|]). exact I.
  - cbn. unfold few. cbn. repeat (split; [lia|]). exact I.
Qed.
Print Assumptions C45_control_block_refuted.

(** It also fails without any weak handle, when 257 threads release their
    handles: the 8-bit counter dcnt wraps. *)
Definition overflow : list aev :=
  repeat ECopy 256 ++ flat_map (fun _ => [ERelS; EStep 0]) (repeat tt 256) ++ [ERelS; EStep 0; EStep 0; EStep 0].

Theorem C45_overflow_refuted : exists s s',
  arun overflow ainit = Some s /\ ~ In EDown overflow /\ a_freed s = 1 /\ a_bad s = false
  /\ astep (EStep 1) s = Some s' /\ a_bad s' = true.
Proof.
  eexists. eexists. split; [vm_compute; reflexivity|]. split; [|repeat split].
  unfold overflow. rewrite !in_app_iff. intros [H|[H|H]].
  - apply repeat_spec in H. discriminate.
  - apply in_flat_map in H. destruct H as (x & _ & H). cbn in H. intuition discriminate.
  - cbn in H. intuition discriminate.
Qed.
Print Assumptions C45_overflow_refuted.

(** ** C46 *)

(** The leak: two threads release the last two strong handles. *)
Definition leak : list aev :=
  [ECopy; ERelS; EStep 0; ERelS; EStep 0; EStep 0; EStep 0; EStep 1; EStep 0].

Theorem C46_reclaimed_refuted : exists es s, arun es ainit = Some s
  /\ a_hs s = 0 /\ a_hw s = 0 /\ a_pcs s = [] /\ a_destroyed s = 1 /\ a_freed s = 0.
Proof. exists leak. eexists. split; [vm_compute; reflexivity|]. repeat split. Qed.
Print Assumptions C46_reclaimed_refuted.

(** What the (single) release in progress knows, given the counts of strong
    and weak handles. *)
Definition holder_ok (hs hw : nat) (p : pc) : Prop :=
  match p with
  | R1 | W1 | R6 | U2 => True
  | R2 => 0 < hs
  | R3 => hs = 0
  | R4 => 0 < hw
  | R5 => hs = 0 /\ hw = 0
  | W2 => 0 < hs + hw
  | W3 => 0 < hs \/ hw = 0
  | W5 => hs = 0 /\ hw = 0
  end.

Record SInv (s : ast) : Prop := mkSInv {
  s_o : OInv s;
  s_wk : a_weak s = a_hw s + wsum w_w1 (a_pcs s) + wsum w_u2 (a_pcs s);
  s_dc : a_dcnt s = wsum w_hold (a_pcs s);
  s_one : wsum w_hold (a_pcs s) <= 1;
  s_ok : forall p, In p (a_pcs s) -> holder_ok (a_hs s) (a_hw s + wsum w_u2 (a_pcs s)) p;
  s_fr : a_freed s = if (wsum w_hold (a_pcs s) =? 0) && (a_ref s =? 0) && (a_weak s =? 0) then 1 else 0 }.

Lemma holder_mono hs hw hs' hw' p : hs <= hs' -> hw <= hw' -> (hs < hs' -> 0 < hs) -> (hw < hw' -> 0 < hs \/ 0 < hw) -> (p = R5 \/ p = W5 -> hs = hs' /\ hw = hw') -> (p = R3 -> hs = hs') ->
  holder_ok hs hw p -> holder_ok hs' hw' p.
Proof. intros A B C D E F. destruct p; cbn; auto; try lia. Qed.

Lemma all_r6 l : (forall p, In p l -> p = R6) -> wsum w_hold l = 0 /\ wsum w_r1 l = 0 /\ wsum w_w1 l = 0 /\ wsum w_u2 l = 0.
Proof.
  induction l as [|p l IH]; cbn; [auto|]. intros H. rewrite (H p (or_introl eq_refl)). cbn. apply IH. auto.
Qed.

Lemma hold0 l p : wsum w_hold l = 0 -> In p l -> p = R6 \/ p = U2.
Proof. intros H I. pose proof (wsum_0 _ _ H p I) as X. destruct p; cbn in X; auto; discriminate. Qed.

Lemma holder_any hs hw hs' hw' l : wsum w_hold l = 0 -> forall p, In p l -> holder_ok hs hw p /\ holder_ok hs' hw' p.
Proof. intros H p I. destruct (hold0 l p H I) as [-> | ->]; cbn; auto. Qed.

Lemma r3_r1 l : In R3 l -> wsum w_r1 l < wsum w_hold l.
Proof.
  induction l as [|p l IH]; cbn; [contradiction|]. pose proof (wsum_le w_r1 w_hold l ltac:(intros []; cbn; lia)) as H.
  intros [->|X]; [cbn; lia|]. specialize (IH X). destruct p; cbn; lia.
Qed.

Lemma sstep_inv e s s' : astep e s = Some s' -> both atomic_up one_release e s -> SInv s -> SInv s'.
Proof.
  intros E (A & D) [I0 I1 I2 I3 I4 I5].
  pose proof (ostep _ _ _ E A I0) as O'. destruct I0 as [J1 J2 J3].
  pose proof (wsum_le w_r1 w_hold (a_pcs s) ltac:(intros []; cbn; lia)) as L1.
  pose proof (wsum_le w_w1 w_hold (a_pcs s) ltac:(intros []; cbn; lia)) as L2.
  destruct s as [ref weak dcnt hs hw pcs des fr bad]. ccbnin.
  destruct e; cbn [astep] in E.
  - destruct (Nat.eqb_spec hs 0); [discriminate|]. injection E as <-. constructor; ccbn; auto.
    + intros p H. pose proof (I4 p H) as Q; revert Q. apply holder_mono; try lia; intros Hp; subst.
      * specialize (I4 p H). destruct Hp as [->| ->]; cbn in I4; lia.
      * specialize (I4 R3 H). cbn in I4. lia.
    + rewrite I5. rewrite andb_false_r. destruct (Nat.eqb_spec ref 0); [lia|]. rewrite andb_false_r. reflexivity.
  - destruct (Nat.eqb_spec hs 0); [discriminate|]. injection E as <-. constructor; ccbn; auto; try lia.
    + intros p H. pose proof (I4 p H) as Q; revert Q. apply holder_mono; try lia; intros Hp; subst.
      destruct Hp as [->| ->]; specialize (I4 _ H); cbn in I4; lia.
    + rewrite I5. destruct (Nat.eqb_spec ref 0); [lia|]. rewrite andb_false_r. reflexivity.
  - destruct (Nat.eqb_spec hw 0); [discriminate|]. injection E as <-. constructor; ccbn; auto; try lia.
    + intros p H. pose proof (I4 p H) as Q; revert Q. apply holder_mono; try lia; intros Hp; subst.
      destruct Hp as [->| ->]; specialize (I4 _ H); cbn in I4; lia.
    + rewrite I5. destruct (Nat.eqb_spec weak 0); [lia|]. rewrite !andb_false_r. reflexivity.
  - destruct hs as [|hs]; [discriminate|]. injection E as <-. unfold one_release in D. ccbnin.
    destruct (all_r6 _ (D (or_introl eq_refl))) as (H1 & H2 & H3 & H4).
    constructor; ccbn; wcbn; auto; try lia.
    + rewrite I2, H1. reflexivity.
    + intros p [<-|H]; [exact I|]. rewrite (D (or_introl eq_refl) p H). exact I.
    + rewrite I5. rewrite H1. cbn. destruct (Nat.eqb_spec ref 0); [lia|reflexivity].
  - destruct hw as [|hw]; [discriminate|]. injection E as <-. unfold one_release in D. ccbnin.
    destruct (all_r6 _ (D (or_intror eq_refl))) as (H1 & H2 & H3 & H4).
    constructor; ccbn; wcbn; auto; try lia.
    + rewrite I2, H1. reflexivity.
    + intros p [<-|H]; [exact I|]. rewrite (D (or_intror eq_refl) p H). exact I.
    + rewrite I5. rewrite H1. cbn. destruct (Nat.eqb_spec weak 0); [lia|]. rewrite andb_false_r. reflexivity.
  - destruct hw as [|hw]; [discriminate|]. destruct (Nat.eqb_spec ref 0); injection E as <-.
    + constructor; ccbn; auto. rewrite I5. subst ref. rewrite e. reflexivity.
    + constructor; ccbn; wcbn; auto; try lia.
      * intros p [<-|H]; [exact I|]. specialize (I4 p H). replace (hw + (1 + wsum w_u2 pcs)) with (S hw + wsum w_u2 pcs) by lia. exact I4.
      * rewrite I5. cbn [Nat.add]. destruct (Nat.eqb_spec ref 0); [contradiction|]. reflexivity.
  - destruct (nth_error pcs i) as [p|] eqn:N; [|discriminate]. destruct (pick _ _ _ N) as (r & P1 & P2 & P3).
    assert (U : p <> U2 -> wsum w_u2 pcs = 0) by (intros Q; exact (no_u2_other _ _ _ A N Q)).
    assert (J4 : forall q, In q (p :: r) -> holder_ok hs (hw + wsum w_u2 pcs) q).
    { intros q H. apply I4. apply (Permutation_in _ (Permutation_sym P1)). exact H. }
    rewrite (wsum_perm w_r1 _ _ P1) in *. rewrite (wsum_perm w_last _ _ P1) in *.
    rewrite (wsum_perm w_w1 _ _ P1) in *. rewrite (wsum_perm w_u2 _ _ P1) in *. rewrite (wsum_perm w_hold _ _ P1) in *.
    clear A D I4.
    pose proof (wsum_le w_r1 w_hold r ltac:(intros []; cbn; lia)) as M1.
    pose proof (wsum_le w_w1 w_hold r ltac:(intros []; cbn; lia)) as M2.
    pose proof (J4 p (or_introl eq_refl)) as K.
    assert (Q : forall x hs' hw', wsum w_hold r = 0 -> In x r -> holder_ok hs' hw' x).
    { intros x hs' hw' Z IN. destruct (hold0 _ _ Z IN) as [-> | ->]; exact I. }
    destruct p; wcbn; cbn [holder_ok] in K; try (specialize (U ltac:(discriminate)));
      injection E as <-;
      (constructor; [exact O'| | | | |]); ccbn;
      rewrite ?(wsum_perm _ _ _ (P2 _)), ?(wsum_perm _ _ _ P3); wcbn.
    all: try (repeat br; wcbn; lia).
    all: try (subst dcnt; replace (wsum w_hold r) with 0 by lia; reflexivity).
    all: try (intros x IX; first [apply (Permutation_in _ (P2 _)) in IX; destruct IX as [<-|IX] | apply (Permutation_in _ P3) in IX];
              try (apply Q; [lia|exact IX]); try (apply J4; right; exact IX); repeat br; wcbn; cbn [holder_ok]; try lia; auto; fail).
    all: try (assert (Z : wsum w_hold r = 0) by lia; rewrite Z in *; cbn [Nat.add Nat.eqb andb] in *; subst fr dcnt; try change (dec8 1) with 0;
      repeat (br; cbn [andb w_hold Nat.add Nat.eqb] in * ); lia).
    all: try (subst fr; repeat (br; cbn [andb w_hold Nat.add Nat.eqb] in * ); lia).
    intros x IX. apply (Permutation_in _ P3) in IX. specialize (J4 x (or_intror IX)).
    destruct x; cbn [holder_ok] in *; auto; try lia. apply r3_r1 in IX. lia.
Qed.

Lemma srun_inv es : forall s s', arun es s = Some s' -> along (both atomic_up one_release) es s -> SInv s -> SInv s'.
Proof.
  induction es as [|e es IH]; intros s s' R A J; cbn in *; [congruence|].
  destruct (astep e s) as [s1|] eqn:E; [|discriminate]. destruct A as (A & B). apply (IH s1); auto. apply (sstep_inv e s); auto.
Qed.

(** If releases never overlap, the control block has been freed exactly once
    when the last handle of either kind is gone, and is not freed before. *)
Theorem C46_reclaimed_partial : forall es s, arun es ainit = Some s -> along (both atomic_up one_release) es ainit ->
  (a_hs s = 0 -> a_hw s = 0 -> a_pcs s = [] -> a_freed s = 1) /\ (0 < a_hs s + a_hw s -> a_freed s = 0).
Proof.
  intros es s R A.
  assert (J0 : SInv ainit) by (constructor; cbn; auto using ainit_oinv; try lia; contradiction).
  destruct (srun_inv es _ _ R A J0) as [[J1 J2 J3] I1 I2 I3 I4 I5].
  split.
  - intros H1 H2 H3. rewrite H3 in *. cbn in *. rewrite I5. replace (a_ref s) with 0 by lia. replace (a_weak s) with 0 by lia. reflexivity.
  - intros H. rewrite I5. destruct (Nat.eqb_spec (a_ref s) 0), (Nat.eqb_spec (a_weak s) 0); rewrite ?andb_false_r; auto; lia.
Qed.
Print Assumptions C46_reclaimed_partial.

Definition ex_seq : list aev :=
  [ECopy; EDown; ERelS; EStep 0; EWCopy; EStep 0; EUp; EStep 0; ERelS; EStep 0; EStep 0; ERelS; EStep 0; EStep 0; EStep 0; ERelW; EStep 0; EStep 0; EStep 0; ERelW; EStep 0; EStep 0; EStep 0].

Example C46_nonvacuous : exists s, arun ex_seq ainit = Some s /\ along (both atomic_up one_release) ex_seq ainit
  /\ a_hs s = 0 /\ a_hw s = 0 /\ a_pcs s = [] /\ a_freed s = 1 /\ a_destroyed s = 1.
Proof.
  eexists. split; [vm_compute; reflexivity|]. split; [|repeat split].
  Ltac ones := split; [split; [intros i H; destruct i as [|[|[|[|i]]]]; cbn in H; first [discriminate H|reflexivity]|intros H p; cbn; first [exfalso; destruct H as [H|H]; discriminate H|intros Ip; destruct Ip as [<-|[]]; reflexivity|intros []]]|].
  unfold ex_seq. cbn. repeat ones. exact I.
Qed.

(** ** C47 *)

(** Uninterrupted upgrades are safe: the caller gets null exactly when no
    strong reference is left (the object is destroyed or about to be), and
    otherwise a handle of an object that is not destroyed, which stays alive
    as long as a handle exists. *)
Theorem C47_upgrade_partial : forall es s s1, arun es ainit = Some s -> along atomic_up es ainit ->
  ~ In U2 (a_pcs s) -> astep EUp s = Some s1 ->
  (a_hs s1 = a_hs s /\ a_hw s1 = a_hw s /\ a_pcs s1 = a_pcs s /\ a_hs s = 0
     /\ a_destroyed s + wsum w_last (a_pcs s) = 1)
  \/ (exists s2, astep (EStep 0) s1 = Some s2 /\ a_hs s2 = S (a_hs s) /\ a_hw s2 = a_hw s
       /\ a_pcs s2 = a_pcs s /\ a_destroyed s2 = 0
       /\ forall es' s3, arun es' s2 = Some s3 -> along atomic_up es' s2 -> 0 < a_hs s3 -> a_destroyed s3 = 0).
Proof.
  intros es s s1 R A NU E. pose proof (orun es _ _ R A ainit_oinv) as J.
  assert (AU : forall e, atomic_up e s) by (intros e i H; exfalso; apply NU; apply nth_error_In with i; exact H).
  pose proof (ostep _ _ _ E (AU EUp) J) as J1'.
  destruct J as [J1 J2 J3]. destruct s as [ref weak dcnt hs hw pcs des fr bad]. ccbnin. cbn [astep] in E.
  destruct hw as [|hw]; [discriminate|]. destruct (Nat.eqb_spec ref 0) as [Z|NZ]; injection E as <-; ccbnin.
  - left. repeat (split; [lia || reflexivity|]). lia.
  - right. eexists. split; [reflexivity|]. ccbn. split; [reflexivity|]. split; [reflexivity|]. split; [reflexivity|].
    split; [lia|]. intros es' s3 R' A' H.
    assert (J' : OInv (mkA (S ref) weak dcnt (S hs) (S hw) pcs des (fr) (touch (mkA ref weak dcnt hs hw (U2 :: pcs) des fr (touch (mkA ref weak dcnt hs (S hw) pcs des fr bad)))))).
    { refine (ostep (EStep 0) (mkA ref weak dcnt hs hw (U2 :: pcs) des fr (touch (mkA ref weak dcnt hs (S hw) pcs des fr bad))) _ eq_refl _ J1').
      intros [|i] Hi; [reflexivity|]. cbn in Hi. exfalso. apply NU. apply nth_error_In with i. exact Hi. }
    destruct (orun es' _ _ R' A' J') as [K1 K2 K3]. destruct (Nat.eqb_spec (a_ref s3) 0); lia.
Qed.
Print Assumptions C47_upgrade_partial.

Example C47_nonvacuous : exists s, arun [ECopy; EDown; ERelS] ainit = Some s /\ along atomic_up [ECopy; EDown; ERelS] ainit
  /\ ~ In U2 (a_pcs s) /\ exists s1, astep EUp s = Some s1 /\ a_pcs s1 <> a_pcs s.
Proof.
  eexists. split; [vm_compute; reflexivity|]. split.
  - cbn. repeat (split; [intros i H; destruct i as [|[|[|i]]]; cbn in H; discriminate|]). exact I.
  - split; [cbn; intuition discriminate|]. eexists. split; [vm_compute; reflexivity|]. discriminate.
Qed.

(** The full claim fails: the last strong handle is released between the test
    and the increment; the caller gets a handle of a destroyed object. *)
Theorem C47_upgrade_refuted : exists es s, arun es ainit = Some s
  /\ a_hs s = 1 /\ a_destroyed s = 1 /\ a_bad s = false.
Proof.
  exists [EDown; EUp; ERelS; EStep 0; EStep 0; EStep 0; EStep 0; EStep 0]. eexists. split; [vm_compute; reflexivity|]. repeat split.
Qed.
Print Assumptions C47_upgrade_refuted.

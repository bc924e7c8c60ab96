(** C96 - C98: the event-driven queue on weakly ordered memory. *)
From Coq Require Import Arith List Bool Lia.
From Verif Require Import QueueModel WeakModel WeakProofs.
Import ListNotations.

(** ** C96: no wake-up is lost

    What the property says of a state: the consumer's thread is not in its
    handler, nothing is pending, and no producer is inside enqueue. *)
Definition asleep (s : wsys) : Prop :=
  wc_pc (w_c s) = KIdle /\ w_nfd s = false /\ forall i p, nth_error (w_ps s) i = Some p -> wp_pc p = Wq FIdle PReady.

(** The consumer is about to be in its handler. *)
Definition pend (s : wsys) : Prop :=
  w_nfd s = true \/ (exists i p, nth_error (w_ps s) i = Some p /\ wp_pc p = WN) \/ wc_pc (w_c s) = KSig.

Definition vle (V W : view) : Prop := forall x, V x <= W x.

Definition sinv (s : wsys) : Prop :=
  exists n x b, (forall j, j <= n -> used j (w_M s LSig) = true) /\
    (forall m, In m (w_M s LSig) -> m_ts m <= n /\ vle (m_view m) b /\ (m_ts m = n -> m_val m = x /\ vle b (m_view m))) /\
    (x = 0 -> pend s) /\
    (forall i p, nth_error (w_ps s) i = Some p -> wp_pc p = WN -> vle (wp_view p) b).

(** Nobody but [WX] and [KSig] touches the signal. *)
Lemma frame_st rel l v w V M V' M' : st rel l v w V M = Some (V', M') -> leqb LSig l = false -> M' LSig = M LSig.
Proof. intros H N. apply st_inv in H. destruct H as (_ & _ & _ & _ & ->). apply mset_other, N. Qed.

Lemma frame_rmw acq rel l f r V M v V' M' : rmw acq rel l f r V M = Some (v, V', M') -> leqb LSig l = false -> M' LSig = M LSig.
Proof. intros H N. apply rmw_inv in H. destruct H as (m & _ & _ & _ & _ & _ & _ & _ & _ & _ & _ & ->). apply mset_other, N. Qed.

Lemma frame_cas acq rel spur l e n r V M ok V' M' : cas acq rel spur l e n r V M = Some (ok, V', M') -> leqb LSig l = false -> M' LSig = M LSig.
Proof.
  intros H N. apply cas_inv in H. destruct ok.
  - destruct H as (m & _ & _ & _ & _ & _ & _ & _ & _ & _ & ->). apply mset_other, N.
  - destruct H as (-> & _). reflexivity.
Qed.

Ltac opn H :=
  match type of H with
  | context [match ld ?a ?b ?c ?d ?e with _ => _ end] => let L := fresh "L" in destruct (ld a b c d e) as [[? ?]|] eqn:L; [|discriminate H]
  | context [match st ?a ?b ?c ?d ?e ?f with _ => _ end] => let L := fresh "L" in destruct (st a b c d e f) as [[? ?]|] eqn:L; [apply frame_st in L; [|reflexivity]|discriminate H]
  | context [match rmw ?a ?b ?c ?d ?e ?f ?g with _ => _ end] => let L := fresh "L" in destruct (rmw a b c d e f g) as [[[? ?] ?]|] eqn:L; [apply frame_rmw in L; [|reflexivity]|discriminate H]
  | context [match cas ?a ?b ?c ?d ?e ?f ?g ?h ?i with _ => _ end] => let L := fresh "L" in destruct (cas a b c d e f g h i) as [[[? ?] ?]|] eqn:L; [apply frame_cas in L; [|reflexivity]|discriminate H]
  | context [if ?b then _ else _] => destruct b
  | context [match ?x with Some _ => _ | None => _ end] => destruct x
  end.

Lemma frame_f spur r w f V M f' V' M' : wfstep spur r w f V M = Some (f', V', M') -> M' LSig = M LSig.
Proof. intros H. destruct f; cbn [wfstep] in H; try discriminate; repeat opn H; injection H as <- <- <-; (reflexivity || assumption). Qed.

Lemma frame_p B spur r w i p M n p' M' n' x nt o : wpstep B spur r w i p M n = Some (p', M', n', x, nt, o) -> wp_pc p <> WX -> wp_pc p <> WN ->
  M' LSig = M LSig /\ nt = false /\ wp_pc p' <> WN /\ (forall j, In (ORetE j true) o -> False).
Proof.
  intros H NX NN. destruct p as [pc v unb V]. cbn [wp_pc] in *. cbv beta iota zeta delta [wpstep] in H. destruct pc as [f m| |]; [|contradiction|contradiction].
  assert (G : forall f m V M, Some (p', M', n', x, nt, o) = Some (mkWP (Wq f m) v unb V, M, n, false, false, []) ->
                M' = M /\ nt = false /\ wp_pc p' <> WN /\ (forall j, In (ORetE j true) o -> False)).
  { intros f1 m1 V1 M1 [= -> -> -> -> -> ->]. split; [reflexivity|]. split; [reflexivity|]. split; [discriminate|]. intros j []. }
  destruct f;
  try (match type of H with context [wfstep ?a ?b ?c ?d ?e ?g] => destruct (wfstep a b c d e g) as [[[? ?] ?]|] eqn:FS; [|discriminate H] end;
       apply frame_f in FS; symmetry in H; apply G in H; destruct H as (-> & H); split; [exact FS|exact H]).
  - destruct m; try discriminate H; unfold put in H; repeat opn H; try discriminate H;
      try (symmetry in H; apply G in H; destruct H as (-> & H); split; [reflexivity || assumption|exact H]).
    + injection H as <- <- <- <- <- <-. split; [assumption|]. split; [reflexivity|]. split; [discriminate|]. intros j [A|[]]. discriminate A.
    + injection H as <- <- <- <- <- <-. split; [assumption|]. split; [reflexivity|]. split; [discriminate|]. intros j [].
  - destruct m; try discriminate H; injection H as <- <- <- <- <- <-; (split; [reflexivity|]); (split; [reflexivity|]); (split; [discriminate|]); intros j A; try contradiction A.
    destruct A as [A|[]]; discriminate A.
  - destruct m; try discriminate H; repeat opn H; injection H as <- <- <- <- <- <-; (split; [reflexivity|]); (split; [reflexivity|]); (split; [discriminate|]); intros j [].
Qed.

Lemma frame_c B spur r w c M c' M' x nt o : wcstep B spur r w c M = Some (c', M', x, nt, o) -> wc_pc c <> KSig ->
  M' LSig = M LSig /\ wc_pc c' <> KSig.
Proof.
  intros H NS. destruct c as [pc V]. cbn [wc_pc] in *. cbv beta iota zeta delta [wcstep] in H. destruct pc as [| |e| |inh f m]; try discriminate; try contradiction.
  - injection H as <- <- <- <- <-. split; [reflexivity|discriminate].
  - destruct f;
    try (match type of H with context [wfstep ?a ?b ?c ?d ?e ?g] => destruct (wfstep a b c d e g) as [[[? ?] ?]|] eqn:FS; [|discriminate H] end;
         apply frame_f in FS; injection H as <- <- <- <- <-; split; [exact FS|discriminate]).
    + destruct m; try discriminate H; unfold take in H; repeat opn H; try discriminate H; injection H as <- <- <- <- <-;
        (split; [reflexivity || assumption|]); destruct inh; discriminate.
    + destruct m; try discriminate H; injection H as <- <- <- <- <-; split; reflexivity || discriminate.
Qed.

(** Some exchange carries all of [W]. *)
Definition told (s : wsys) (W : view) : Prop := exists m, In m (w_M s LSig) /\ vle W (m_view m).

Lemma vle_refl V : vle V V. Proof. intros x. apply le_n. Qed.
Lemma vle_trans U V W : vle U V -> vle V W -> vle U W.
Proof. intros H1 H2 x. specialize (H1 x). specialize (H2 x). lia. Qed.

Lemma pend_prod M n ps c nfd race M' n' nfd' race' i p p' : pend (mkWS M n ps c nfd race) -> nth_error ps i = Some p ->
  wp_pc p <> WN -> (nfd = true -> nfd' = true) -> pend (mkWS M' n' (repl i p' ps) c nfd' race').
Proof.
  intros [H|[(j & q & Hq & WW)|H]] N NW NF; unfold pend; cbn [w_nfd w_ps w_c] in *.
  - left. apply NF, H.
  - right. left. assert (NE : j <> i) by (intros ->; rewrite N in Hq; injection Hq as <-; contradiction).
    exists j, q. rewrite nth_repl_other by exact NE. split; assumption.
  - right. right. exact H.
Qed.

Lemma wn_prod (b : view) ps i p p' : (forall j q, nth_error ps j = Some q -> wp_pc q = WN -> vle (wp_view q) b) -> nth_error ps i = Some p ->
  (wp_pc p' = WN -> vle (wp_view p') b) -> forall j q, nth_error (repl i p' ps) j = Some q -> wp_pc q = WN -> vle (wp_view q) b.
Proof.
  intros H N HP j q Hq WW. destruct (nth_repl_inv i j p' q p ps N Hq) as [(-> & ->)|(_ & Hq')]; [apply HP, WW|apply (H j q Hq' WW)].
Qed.

Lemma sinv_step B ev s s' o : sinv s -> wstep B ev s = Some (s', o) -> sinv s'.
Proof.
  intros (n & x & b & U & L & J & WV) H. destruct s as [M k ps c nfd race]. cbn [w_M w_ps] in *. cbv beta iota zeta delta [wstep] in H.
  destruct ev as [i v unb|i spur r w| | |more|spur r w].
  - destruct (nth_error ps i) as [[[[] []| |] v0 u0 V]|] eqn:N; try discriminate. injection H as <- <-.
    exists n, x, b. cbn [w_M w_ps]. split; [exact U|]. split; [exact L|]. split.
    + intros e. apply (pend_prod M k ps c nfd race _ _ _ _ i _ _ (J e) N); [discriminate|auto].
    + apply (wn_prod b ps i _ _ WV N). discriminate.
  - destruct (nth_error ps i) as [p|] eqn:N; [|discriminate]. destruct (wpstep B spur r w i p M k) as [[[[[[p' M'] n'] x'] nt] o']|] eqn:P; [|discriminate].
    injection H as <- <-. destruct p as [pc v unb V]. destruct pc as [f m| |].
    + destruct (frame_p _ _ _ _ _ _ _ _ _ _ _ _ _ _ P) as (F1 & F2 & F3 & _); [discriminate|discriminate|]. exists n, x, b. cbn [w_M w_ps]. rewrite F1.
      split; [exact U|]. split; [exact L|]. split.
      * intros e. apply (pend_prod M k ps c nfd race _ _ _ _ i _ _ (J e) N); [discriminate|]. intros ->. apply orb_true_r.
      * apply (wn_prod b ps i _ _ WV N). intros A. contradiction.
    + cbv beta iota zeta delta [wpstep] in P. destruct (rmw true true LSig (fun _ => 0) r V M) as [[[z V1] M1]|] eqn:R; [|discriminate].
      apply rmw_inv in R. destruct R as (m & _ & Im & Tm & Vm & _ & UU & _ & LV & AV & _ & ->). specialize (AV eq_refl).
      destruct (L m Im) as (L1 & L2 & L3). assert (RN : r = n) by (apply (last_only _ _ _ U); [lia|exact UU]). destruct (L3 ltac:(lia)) as (L4 & L5).
      assert (BV : vle b V1) by (apply (vle_trans _ _ _ L5 AV)).
      assert (EX : forall pc' nt', nt' = nfd \/ nt' = true -> (z = 0 -> pc' = Wq FIdle PReady) -> (z <> 0 -> pc' = WN) ->
              sinv (mkWS (mset M LSig (mkMsg (S r) 0 (vjoin (m_view m) V1) :: M LSig)) k (repl i (mkWP pc' v unb V1) ps) c nt' (x' || race))).
      { intros pc' nt' NT Z0 Z1. exists (S n), 0, V1. cbn [w_M w_ps]. rewrite mset_same. split; [|split; [|split]].
        - intros j Hj. destruct (Nat.eq_dec j (S n)) as [->|NE]; [rewrite <- RN; apply used_head|apply used_cons, U; lia].
        - intros m' [<-|Hm]; cbn [m_ts m_val m_view].
          + split; [lia|]. split; [intros y; specialize (AV y); unfold vjoin; lia|]. intros _. split; [reflexivity|]. intros y. unfold vjoin. lia.
          + destruct (L m' Hm) as (M1 & M2 & _). split; [lia|]. split; [apply (vle_trans _ _ _ M2 BV)|]. lia.
        - intros _. destruct (Nat.eq_dec z 0) as [Z|Z].
          + apply (pend_prod M k ps c nfd race _ _ _ _ i _ _ (J ltac:(lia)) N); [discriminate|]. intros ->. destruct NT; assumption.
          + right. left. exists i. eexists. split; [apply (nth_repl_same i _ _ ps N)|]. apply Z1, Z.
        - apply (wn_prod V1 ps i _ _ (fun j q A Q => vle_trans _ _ _ (WV j q A Q) BV) N). intros _. apply vle_refl. }
      destruct (z =? 0) eqn:Z; injection P as <- <- <- <- <- <-.
      * apply Nat.eqb_eq in Z. apply EX; [left; reflexivity|reflexivity|intros A; contradiction].
      * apply Nat.eqb_neq in Z. apply EX; [left; reflexivity|intros A; contradiction|reflexivity].
    + injection P as <- <- <- <- <- <-. exists n, x, b. cbn [w_M w_ps]. split; [exact U|]. split; [exact L|]. split.
      * intros _. left. reflexivity.
      * apply (wn_prod b ps i _ _ WV N). discriminate.
  - destruct c as [[] V]; try discriminate. destruct nfd; [|discriminate]. injection H as <- <-.
    exists n, x, b. cbn [w_M w_ps]. split; [exact U|]. split; [exact L|]. split; [|exact WV]. intros _. right. right. reflexivity.
  - destruct c as [[] V]; try discriminate; injection H as <- <-; exists n, x, b; cbn [w_M w_ps]; (split; [exact U|]); (split; [exact L|]); (split; [|exact WV]);
      intros X0; (destruct (J X0) as [A|[A|A]]; [left; exact A|right; left; exact A|discriminate A]).
  - destruct c as [[] V]; try discriminate. destruct more; [|destruct e; [|discriminate]]; injection H as <- <-; exists n, x, b; cbn [w_M w_ps]; (split; [exact U|]); (split; [exact L|]);
      (split; [|exact WV]); intros e'; (destruct (J e') as [A|[A|A]]; [left; exact A|right; left; exact A|discriminate A]).
  - destruct (wcstep B spur r w c M) as [[[[[c' M'] x'] nt] o']|] eqn:P; [|discriminate]. injection H as <- <-. destruct c as [pc V].
    assert (D : pc = KSig \/ pc <> KSig) by (destruct pc; [right; discriminate|left; reflexivity|right; discriminate|right; discriminate|right; discriminate]).
    destruct D as [->|NS].
    + cbv beta iota zeta delta [wcstep] in P. destruct (rmw true true LSig (fun _ => 1) r V M) as [[[z V1] M1]|] eqn:R; [|discriminate].
      apply rmw_inv in R. destruct R as (m & _ & Im & Tm & Vm & _ & UU & _ & LV & AV & _ & ->). specialize (AV eq_refl). injection P as <- <- <- <- <-.
      destruct (L m Im) as (L1 & L2 & L3). assert (RN : r = n) by (apply (last_only _ _ _ U); [lia|exact UU]). destruct (L3 ltac:(lia)) as (L4 & L5).
      assert (BV : vle b V1) by (apply (vle_trans _ _ _ L5 AV)).
      exists (S n), 1, V1. cbn [w_M w_ps]. rewrite mset_same. split; [|split; [|split]].
      * intros j Hj. destruct (Nat.eq_dec j (S n)) as [->|NE]; [rewrite <- RN; apply used_head|apply used_cons, U; lia].
      * intros m' [<-|Hm]; cbn [m_ts m_val m_view].
        -- split; [lia|]. split; [intros y; specialize (AV y); unfold vjoin; lia|]. intros _. split; [reflexivity|]. intros y. unfold vjoin. lia.
        -- destruct (L m' Hm) as (M1 & M2 & _). split; [lia|]. split; [apply (vle_trans _ _ _ M2 BV)|]. lia.
      * discriminate.
      * intros j q Hq WW. apply (vle_trans _ _ _ (WV j q Hq WW) BV).
    + destruct (frame_c _ _ _ _ _ _ _ _ _ _ _ P NS) as (F1 & F2). exists n, x, b. cbn [w_M w_ps]. rewrite F1. split; [exact U|]. split; [exact L|]. split; [|exact WV].
      intros e. destruct (J e) as [A|[A|A]]; [left; cbn [w_nfd] in *; rewrite A; apply orb_true_r|right; left; exact A|contradiction].
Qed.

Lemma sinv_run B evs : forall s s' o, sinv s -> wrun B evs s = Some (s', o) -> sinv s'.
Proof.
  induction evs as [|ev evs IH]; intros s s' o I H; cbn [wrun] in H; [injection H as <- <-; exact I|].
  destruct (wstep B ev s) as [[s1 o1]|] eqn:S; [|discriminate]. destruct (wrun B evs s1) as [[s2 o2]|] eqn:R; [|discriminate]. injection H as <- <-.
  apply (IH s1 s2 o2 (sinv_step _ _ _ _ _ I S) R).
Qed.

Lemma sinv_init k np : sinv (wsys0 k np).
Proof.
  exists 0, 1, vzero. unfold wsys0. cbn [w_M w_ps]. split; [intros j Hj; assert (j = 0) as -> by lia; reflexivity|]. split; [|split].
  - intros m [<-|[]]. split; [apply le_n|]. split; [apply vle_refl|]. intros _. split; [reflexivity|apply vle_refl].
  - discriminate.
  - intros i p H W. apply nth_error_In in H. apply repeat_spec in H. subst p. discriminate W.
Qed.

(** Once something is pending it stays so until the handler starts, and then
    the handler sees all that was told. *)
Lemma pend_step B ev s s' o W : sinv s -> pend s -> told s W -> wstep B ev s = Some (s', o) ->
  (pend s' /\ told s' W) \/ (wc_pc (w_c s') = KFn false /\ vle W (wc_view (w_c s'))).
Proof.
  intros (n & x & b & U & L & J & WV) PE (mt & It & Wt) H. destruct s as [M k ps c nfd race]. cbn [w_M w_ps] in *. cbv beta iota zeta delta [wstep] in H.
  assert (TM : forall M' n' ps' c' nfd' race', M' LSig = M LSig -> told (mkWS M' n' ps' c' nfd' race') W)
    by (intros M' n' ps' c' nfd' race' E; exists mt; cbn [w_M]; rewrite E; split; assumption).
  destruct ev as [i v unb|i spur r w| | |more|spur r w].
  - left. destruct (nth_error ps i) as [[[[] []| |] v0 u0 V]|] eqn:N; try discriminate. injection H as <- <-. split; [|apply TM; reflexivity].
    apply (pend_prod M k ps c nfd race _ _ _ _ i _ _ PE N); [discriminate|auto].
  - left. destruct (nth_error ps i) as [p|] eqn:N; [|discriminate]. destruct (wpstep B spur r w i p M k) as [[[[[[p' M'] n'] x'] nt] o']|] eqn:P; [|discriminate].
    injection H as <- <-. destruct p as [pc v unb V]. destruct pc as [f m| |].
    + destruct (frame_p _ _ _ _ _ _ _ _ _ _ _ _ _ _ P) as (F1 & F2 & F3 & _); [discriminate|discriminate|]. split; [|apply TM, F1].
      apply (pend_prod M k ps c nfd race _ _ _ _ i _ _ PE N); [discriminate|]. intros ->. apply orb_true_r.
    + cbv beta iota zeta delta [wpstep] in P. destruct (rmw true true LSig (fun _ => 0) r V M) as [[[z V1] M1]|] eqn:R; [|discriminate].
      apply rmw_inv in R. destruct R as (m & _ & _ & _ & _ & _ & _ & _ & _ & _ & _ & ->).
      assert (NT : nt = false /\ M' = mset M LSig (mkMsg (S r) 0 (vjoin (m_view m) V1) :: M LSig)).
      { destruct (z =? 0); injection P as <- <- <- <- <- <-; split; reflexivity. }
      destruct NT as (-> & ->). split.
      * apply (pend_prod M k ps c nfd race _ _ _ _ i _ _ PE N); [discriminate|auto].
      * exists mt. cbn [w_M]. rewrite mset_same. split; [right; exact It|exact Wt].
    + injection P as <- <- <- <- <- <-. split; [left; reflexivity|apply TM; reflexivity].
  - left. destruct c as [[] V]; try discriminate. destruct nfd; [|discriminate]. injection H as <- <-. split; [right; right; reflexivity|apply TM; reflexivity].
  - left. destruct c as [[] V]; try discriminate; injection H as <- <-; (split; [|apply TM; reflexivity]);
      (destruct PE as [A|[A|A]]; [left; exact A|right; left; exact A|discriminate A]).
  - left. destruct c as [[] V]; try discriminate. destruct more; [|destruct e; [|discriminate]]; injection H as <- <-; (split; [|apply TM; reflexivity]);
      (destruct PE as [A|[A|A]]; [left; exact A|right; left; exact A|discriminate A]).
  - destruct (wcstep B spur r w c M) as [[[[[c' M'] x'] nt] o']|] eqn:P; [|discriminate]. injection H as <- <-. destruct c as [pc V].
    assert (D : pc = KSig \/ pc <> KSig) by (destruct pc; [right; discriminate|left; reflexivity|right; discriminate|right; discriminate|right; discriminate]).
    destruct D as [->|NS].
    + right. cbv beta iota zeta delta [wcstep] in P. destruct (rmw true true LSig (fun _ => 1) r V M) as [[[z V1] M1]|] eqn:R; [|discriminate].
      apply rmw_inv in R. destruct R as (m & _ & Im & Tm & Vm & _ & UU & _ & LV & AV & _ & ->). specialize (AV eq_refl). injection P as <- <- <- <- <-.
      cbn [w_c wc_pc wc_view]. split; [reflexivity|].
      destruct (L m Im) as (L1 & L2 & L3). assert (RN : r = n) by (apply (last_only _ _ _ U); [lia|exact UU]). destruct (L3 ltac:(lia)) as (L4 & L5).
      destruct (L mt It) as (_ & T2 & _). apply (vle_trans _ _ _ Wt), (vle_trans _ _ _ T2), (vle_trans _ _ _ L5 AV).
    + left. destruct (frame_c _ _ _ _ _ _ _ _ _ _ _ P NS) as (F1 & F2). split; [|apply TM, F1].
      destruct PE as [A|[A|A]]; [left; cbn [w_nfd] in *; rewrite A; apply orb_true_r|right; left; exact A|contradiction].
Qed.

Lemma pend_run B evs : forall s s' o W, sinv s -> pend s -> told s W -> wrun B evs s = Some (s', o) ->
  pend s' \/ exists ea eb sa oa ob, evs = ea ++ eb /\ wrun B ea s = Some (sa, oa) /\ wrun B eb sa = Some (s', ob) /\
                                    wc_pc (w_c sa) = KFn false /\ vle W (wc_view (w_c sa)).
Proof.
  induction evs as [|ev evs IH]; intros s s' o W I PE TO H; cbn [wrun] in H; [injection H as <- <-; left; exact PE|].
  destruct (wstep B ev s) as [[s1 o1]|] eqn:S; [|discriminate]. destruct (wrun B evs s1) as [[s2 o2]|] eqn:R; [|discriminate]. injection H as <- <-.
  destruct (pend_step B ev s s1 o1 W I PE TO S) as [(PE1 & TO1)|(K & V)].
  - destruct (IH s1 s2 o2 W (sinv_step _ _ _ _ _ I S) PE1 TO1 R) as [P|(ea & eb & sa & oa & ob & -> & E1 & E2 & E3 & E4)]; [left; exact P|right].
    exists (ev :: ea), eb, sa, (o1 ++ oa), ob. split; [reflexivity|]. cbn [wrun]. rewrite S, E1. repeat (split; [reflexivity || assumption|]). exact E4.
  - right. exists [ev], evs, s1, (o1 ++ []), o2. split; [reflexivity|]. cbn [wrun]. rewrite S. repeat (split; [reflexivity || assumption|]). exact V.
Qed.

(** The step in which an enqueue returns true. *)
Lemma ret_step B ev s s' o i : sinv s -> wstep B ev s = Some (s', o) -> In (ORetE i true) o ->
  exists p, nth_error (w_ps s') i = Some p /\ wp_pc p = Wq FIdle PReady /\ pend s' /\ told s' (wp_view p).
Proof.
  intros I H RE. pose proof (sinv_step B ev s s' o I H) as I'. destruct I as (n & x & b & U & L & J & WV). destruct s as [M k ps c nfd race].
  cbn [w_M w_ps] in *. cbv beta iota zeta delta [wstep] in H.
  destruct ev as [a v unb|a spur r w| | |more|spur r w].
  - destruct (nth_error ps a) as [[[[] []| |] v0 u0 V]|] eqn:N; try discriminate. injection H as <- <-. destruct RE as [A|[]]; discriminate A.
  - destruct (nth_error ps a) as [p|] eqn:N; [|discriminate]. destruct (wpstep B spur r w a p M k) as [[[[[[p' M'] n'] x'] nt] o']|] eqn:P; [|discriminate].
    injection H as <- <-. destruct p as [pc v unb V]. destruct pc as [f m| |].
    + destruct (frame_p _ _ _ _ _ _ _ _ _ _ _ _ _ _ P) as (_ & _ & _ & F); [discriminate|discriminate|]. contradiction (F i RE).
    + cbv beta iota zeta delta [wpstep] in P. destruct (rmw true true LSig (fun _ => 0) r V M) as [[[z V1] M1]|] eqn:R; [|discriminate].
      apply rmw_inv in R. destruct R as (m & _ & Im & Tm & Vm & _ & UU & _ & LV & AV & _ & ->). specialize (AV eq_refl).
      destruct (L m Im) as (L1 & L2 & L3). assert (RN : r = n) by (apply (last_only _ _ _ U); [lia|exact UU]). destruct (L3 ltac:(lia)) as (L4 & L5).
      destruct (z =? 0) eqn:Z; injection P as <- <- <- <- <- <-; [|contradiction RE]. destruct RE as [[= <-]|[]]. apply Nat.eqb_eq in Z.
      exists (mkWP (Wq FIdle PReady) v unb V1). cbn [w_ps]. split; [apply (nth_repl_same a _ _ ps N)|]. split; [reflexivity|]. split.
      * apply (pend_prod M k ps c nfd race _ _ _ _ a _ _ (J ltac:(lia)) N); [discriminate|auto].
      * exists (mkMsg (S r) 0 (vjoin (m_view m) V1)). cbn [w_M m_view wp_view]. rewrite mset_same. split; [left; reflexivity|].
        intros y. unfold vjoin. lia.
    + injection P as <- <- <- <- <- <-. destruct RE as [[= <-]|[]].
      exists (mkWP (Wq FIdle PReady) v unb V). cbn [w_ps]. split; [apply (nth_repl_same a _ _ ps N)|]. split; [reflexivity|]. split; [left; reflexivity|].
      assert (exists m, In m (M LSig) /\ m_ts m = n) as (m & Im & Tm) by (apply used_in, U, le_n).
      exists m. cbn [w_M wp_view]. split; [exact Im|]. destruct (L m Im) as (_ & _ & L3). destruct (L3 Tm) as (_ & L5).
      apply (vle_trans _ b); [apply (WV a _ N eq_refl)|exact L5].
  - destruct c as [[] V]; try discriminate. destruct nfd; [|discriminate]. injection H as <- <-. contradiction RE.
  - destruct c as [[] V]; try discriminate; injection H as <- <-; contradiction RE.
  - destruct c as [[] V]; try discriminate. destruct more; [|destruct e; [|discriminate]]; injection H as <- <-; contradiction RE.
  - destruct (wcstep B spur r w c M) as [[[[[c' M'] x'] nt] o']|] eqn:P; [|discriminate]. injection H as <- <-. exfalso.
    destruct c as [pc V]. cbv beta iota zeta delta [wcstep] in P. destruct pc as [| |e| |inh f m]; try discriminate.
    + destruct (rmw true true LSig (fun _ => 1) r V M) as [[[? ?] ?]|]; [|discriminate]. injection P as <- <- <- <- <-. contradiction RE.
    + injection P as <- <- <- <- <-. contradiction RE.
    + destruct f;
      try (match type of P with context [wfstep ?a ?b ?c ?d ?e ?g] => destruct (wfstep a b c d e g) as [[[? ?] ?]|] eqn:FS; [|discriminate P] end;
           injection P as <- <- <- <- <-; contradiction RE).
      * destruct m; try discriminate P; unfold take in P; repeat opn P; try discriminate P; injection P as <- <- <- <- <-;
          cbn [In] in RE; decompose [or] RE; try discriminate; contradiction.
      * destruct m; try discriminate P; injection P as <- <- <- <- <-; contradiction RE.
Qed.

(** After an enqueue returned true (in state [s1]) everything is asleep again
    only if the handler's function was started in between, at a moment when
    the consumer's thread saw everything the producer had done or seen up to
    the return.  For every number of producers, blocks and events. *)
Theorem C96_handler_sees : forall B k np evs s0 o0 ev s1 o1 i evs2 s2 o2,
  wrun B evs (wsys0 k np) = Some (s0, o0) -> wstep B ev s0 = Some (s1, o1) -> In (ORetE i true) o1 ->
  wrun B evs2 s1 = Some (s2, o2) -> asleep s2 ->
  exists p ea eb sa oa ob, nth_error (w_ps s1) i = Some p /\ evs2 = ea ++ eb /\ wrun B ea s1 = Some (sa, oa) /\ wrun B eb sa = Some (s2, ob) /\
    wc_pc (w_c sa) = KFn false /\ forall x, wp_view p x <= wc_view (w_c sa) x.
Proof.
  intros B k np evs s0 o0 ev s1 o1 i evs2 s2 o2 R0 S1 RE R2 (A1 & A2 & A3).
  pose proof (sinv_run B evs _ _ _ (sinv_init k np) R0) as I0. pose proof (sinv_step B ev s0 s1 o1 I0 S1) as I1.
  destruct (ret_step B ev s0 s1 o1 i I0 S1 RE) as (p & N & _ & PE & TO).
  destruct (pend_run B evs2 s1 s2 o2 _ I1 PE TO R2) as [[P|[(j & q & Hq & W)|P]]|(ea & eb & sa & oa & ob & E1 & E2 & E3 & E4 & E5)].
  - rewrite A2 in P. discriminate.
  - rewrite (A3 j q Hq) in W. discriminate.
  - rewrite A1 in P. discriminate.
  - exists p, ea, eb, sa, oa, ob. repeat (split; [assumption|]). exact E5.
Qed.
Print Assumptions C96_handler_sees.

Definition pr (i : nat) (l : list (nat * nat)) : list wev := map (fun c => WProd i false (fst c) (snd c)) l.
Definition co (l : list (nat * nat)) : list wev := map (fun c => WCons false (fst c) (snd c)) l.

(** Two producers: the second one overtakes the first and is served, then the
    first finishes and is served. *)
Definition good_pre : list wev :=
  [WEnq 0 7 true] ++ pr 0 [(0, 0); (0, 0); (0, 0); (0, 0); (0, 0)] ++
  [WEnq 1 8 true] ++ pr 1 [(0, 0); (1, 0); (1, 0); (0, 0); (0, 0); (0, 0); (0, 5); (0, 3); (2, 0); (0, 0); (0, 0)].
Definition good_post : list wev :=
  [WWake] ++ co [(1, 0)] ++ [WDeq] ++ co [(0, 0); (0, 0); (1, 0); (0, 1); (3, 0); (5, 6); (0, 4)] ++
  [WDeq] ++ co [(0, 0); (1, 0); (1, 0)] ++ [WRet false] ++
  pr 0 [(1, 0); (3, 0); (0, 0); (0, 0); (4, 0); (4, 0); (0, 0); (1, 0); (1, 0); (0, 1); (0, 1); (5, 0); (0, 0); (2, 0); (0, 0)] ++
  [WWake] ++ co [(3, 0)] ++ [WDeq] ++ co [(0, 0); (1, 0); (2, 0); (0, 2); (1, 0); (1, 2); (0, 2)] ++
  [WDeq] ++ co [(0, 0); (2, 0); (2, 0)] ++ [WRet false].
Definition good_run : list wev := good_pre ++ [WProd 1 false 0 0] ++ good_post.

Example C96_nonvacuous : exists s0 o0 s1 o1 s2 o2, wrun 4 good_pre (wsys0 1 2) = Some (s0, o0) /\ wstep 4 (WProd 1 false 0 0) s0 = Some (s1, o1) /\
  In (ORetE 1 true) o1 /\ wrun 4 good_post s1 = Some (s2, o2) /\ asleep s2.
Proof.
  assert (X : match wrun 4 good_pre (wsys0 1 2) with
              | Some (s0, _) => match wstep 4 (WProd 1 false 0 0) s0 with
                | Some (s1, o1) => o1 = [ORetE 1 true] /\ match wrun 4 good_post s1 with
                  | Some (s, _) => wc_pc (w_c s) = KIdle /\ w_nfd s = false /\ map wp_pc (w_ps s) = [Wq FIdle PReady; Wq FIdle PReady]
                  | None => False end
                | None => False end
              | None => False end) by (vm_compute; repeat split).
  destruct (wrun 4 good_pre (wsys0 1 2)) as [[s0 o0]|] eqn:R0; [|contradiction X].
  destruct (wstep 4 (WProd 1 false 0 0) s0) as [[s1 o1]|] eqn:R1; [|contradiction X]. destruct X as (X1 & X).
  destruct (wrun 4 good_post s1) as [[s2 o2]|] eqn:R2; [|contradiction X]. destruct X as (X2 & X3 & X4).
  exists s0, o0, s1, o1, s2, o2. split; [reflexivity|]. split; [exact R1|]. split; [rewrite X1; left; reflexivity|]. split; [exact R2|].
  split; [exact X2|]. split; [exact X3|].
  intros i p N. apply (map_nth_error wp_pc) in N. rewrite X4 in N. destruct i as [|[|[|]]]; cbn [nth_error] in N; try discriminate N; injection N as <-; reflexivity.
Qed.

(** ** C97: order and completeness *)

(** Within the first block (no more calls than it has slots): what comes out
    is what went in, in the order of the reservations, and when everything is
    asleep all of it has come out. *)
Theorem C97_order_partial : forall B k np evs s o, length (filter is_call evs) <= B -> wrun B evs (wsys0 k np) = Some (s, o) ->
  exists rest, enqs o = deqs o ++ rest.
Proof.
  intros B k np evs s o L R. pose proof (winv_run B evs _ _ _ _ _ _ (winv_init k np) L R) as I. apply (i_out _ _ _ _ _ _ _ _ _ I).
Qed.
Print Assumptions C97_order_partial.

Theorem C97_emptied_partial : forall B k np evs s o, length (filter is_call evs) <= B -> wrun B evs (wsys0 k np) = Some (s, o) ->
  asleep s -> deqs o = enqs o.
Proof.
  intros B k np evs s o L R (A1 & A2 & A3). pose proof (winv_run B evs _ _ _ _ _ _ (winv_init k np) L R) as I. unfold winv in I. cbn [app] in I.
  destruct (i_out _ _ _ _ _ _ _ _ _ I) as (rest & EE). destruct (i_sig _ _ _ _ _ _ _ _ _ I) as (n & x & b & U & LL & A & J1 & J2 & J3).
  rewrite A1, A2 in *.
  assert (NX : x <> 0).
  { intros X. destruct (J1 X) as [H|[(j & q & Hq & W)|H]]; [discriminate|rewrite (A3 j q Hq) in W; discriminate|discriminate]. }
  destruct (J3 NX Logic.I) as [H|H]; [discriminate|].
  assert (LE : length (enqs o) <= length (deqs o)).
  { destruct (le_lt_dec (length (enqs o)) (length (deqs o))) as [G|G]; [exact G|]. destruct (A _ G) as [C|(j & q & Hq & F & _)]; [lia|].
    exfalso. unfold fly in F. rewrite (A3 j q Hq) in F. discriminate F. }
  rewrite EE in LE |- *. rewrite app_length in LE. destruct rest as [|y rest]; [symmetry; apply app_nil_r|cbn [length] in LE; lia].
Qed.
Print Assumptions C97_emptied_partial.

(** Beyond the first block it fails, with one producer: try_dequeue loads
    Block::next relaxed (253), so in the block it goes on to, one that is used
    for the second time, the consumer may still read what it left there the
    first time.  It takes the block for exhausted, follows the old link, and
    hands blocks that are in use to the free list. *)
Definition stale_run : list wev :=
    [WEnq 0 10 false] ++
    pr 0 [(0, 0); (0, 0); (0, 0); (0, 0); (0, 0); (0, 0); (0, 1); (0, 1); (1, 0); (0, 0); (0, 0); (0, 0)] ++
    [WEnq 0 20 false] ++
    pr 0 [(0, 0); (2, 0); (2, 0); (0, 0); (1, 0); (0, 0); (0, 0); (0, 0); (0, 0); (0, 0); (0, 0); (1, 0); (0, 0); (0, 1); (0, 1); (0, 1); (0, 0); (0,
          1); (0, 1); (3, 0); (0, 0); (1, 0); (2, 0); (2, 0); (1, 0); (1, 0); (1, 0); (0, 1); (0, 1); (3, 0); (0, 0); (1, 0)] ++
    [WDeq] ++
    co [(0, 0); (0, 0); (1, 0); (0, 1); (1, 0); (1, 2); (0, 2)] ++
    [WDeq] ++
    co [(0, 0); (1, 0); (1, 0); (1, 0); (0, 1); (0, 1); (4, 0); (1, 0); (0, 1); (1, 0); (0, 6); (0, 0); (1, 0); (1, 0); (2, 0); (0, 2); (1, 0); (1,
          2); (0, 2)] ++
    [WEnq 0 30 false] ++
    pr 0 [(1, 0); (4, 0); (4, 0); (1, 0); (2, 0); (1, 0); (2, 0); (6, 0); (6, 0); (1, 0); (2, 0); (7, 0); (0, 0); (0, 2); (0, 2); (0, 2); (1, 0); (0,
          2); (0, 2); (5, 0); (0, 0); (2, 0); (8, 0); (8, 0); (2, 0); (2, 0); (2, 0); (0, 3); (0, 3); (9, 0); (0, 0); (2, 0)] ++
    [WDeq] ++
    co [(1, 0); (2, 0); (2, 0); (2, 0); (0, 2); (0, 2); (6, 0); (3, 0); (0, 1); (3, 0); (0, 8); (0, 0); (2, 0); (1, 0); (1, 0); (1, 0); (0, 3); (0,
          3); (10, 0); (4, 0); (0, 2); (4, 0); (0, 12); (0, 0); (3, 0); (2, 0); (2, 0); (2, 0); (0, 4); (0, 3); (8, 0); (5, 0); (0, 2); (5, 0); (0,
          10); (0, 0)] ++
    [WEnq 0 40 false] ++
    pr 0 [(2, 0); (12, 0); (12, 0); (2, 0); (3, 0); (2, 0); (6, 0); (10, 0); (10, 0); (2, 0); (6, 0); (11, 0); (0, 0); (0, 3); (0, 3); (0, 3); (2, 0);
          (0, 3); (0, 4); (13, 0); (0, 0); (3, 0); (12, 0); (12, 0); (4, 0); (3, 0); (3, 0); (0, 3); (0, 3); (13, 0); (0, 0); (3, 0)] ++
    [WEnq 0 50 false] ++
    pr 0 [(3, 0); (14, 0); (14, 0); (4, 0); (4, 0); (3, 0); (7, 0); (14, 0); (14, 0); (2, 0); (7, 0); (15, 0); (0, 0); (0, 3); (0, 4); (0, 4); (3, 0);
          (0, 4); (0, 4); (15, 0); (0, 0); (4, 0); (16, 0); (16, 0); (4, 0); (4, 0); (4, 0); (0, 4); (0, 4); (17, 0); (0, 0); (4, 0)] ++
    co [(4, 0); (3, 0); (5, 0); (0, 4); (4, 0); (4, 5); (0, 5)].

Theorem C97_order_refuted : exists B k np evs s o, 0 < B /\ wrun B evs (wsys0 k np) = Some (s, o) /\
  length (filter is_call evs) = length (filter (fun e => match e with ORetE _ true => true | _ => false end) o) /\
  ~ exists rest, enqs o = deqs o ++ rest.
Proof.
  exists 1, 1, 1, stale_run.
  assert (X : match wrun 1 stale_run (wsys0 1 1) with
              | Some (_, o) => enqs o = [10; 20; 30; 40; 50] /\ deqs o = [10; 20; 50] /\
                               length (filter (fun e => match e with ORetE _ true => true | _ => false end) o) = 5
              | None => False end) by (vm_compute; repeat split).
  destruct (wrun 1 stale_run (wsys0 1 1)) as [[s o]|]; [|contradiction X]. exists s, o. destruct X as (O1 & O2 & O3). split; [apply le_n|]. split; [reflexivity|]. split; [rewrite O3; vm_compute; reflexivity|].
  intros (rest & E). rewrite O1, O2 in E. discriminate E.
Qed.
Print Assumptions C97_order_refuted.

Example C97_nonvacuous : length (filter is_call good_run) <= 4 /\ exists s o,
  wrun 4 good_run (wsys0 1 2) = Some (s, o) /\ asleep s /\ enqs o = [8; 7] /\ deqs o = [8; 7].
Proof.
  split; [vm_compute; repeat constructor|].
  assert (X : match wrun 4 good_run (wsys0 1 2) with
              | Some (s, o) => (wc_pc (w_c s) = KIdle /\ w_nfd s = false /\ map wp_pc (w_ps s) = [Wq FIdle PReady; Wq FIdle PReady]) /\
                               enqs o = [8; 7] /\ deqs o = [8; 7]
              | None => False end) by (vm_compute; repeat split).
  destruct (wrun 4 good_run (wsys0 1 2)) as [[s o]|]; [|contradiction X]. exists s, o. destruct X as ((X1 & X2 & X3) & X4).
  split; [reflexivity|]. split; [|exact X4]. split; [exact X1|]. split; [exact X2|].
  intros i p N. apply (map_nth_error wp_pc) in N. rewrite X3 in N. destruct i as [|[|[|]]]; cbn [nth_error] in N; try discriminate N; injection N as <-; reflexivity.
Qed.

(** ** C98: elements are accessed in order *)
Theorem C98_no_race_partial : forall B k np evs s o, length (filter is_call evs) <= B -> wrun B evs (wsys0 k np) = Some (s, o) -> w_race s = false.
Proof.
  intros B k np evs s o L R. pose proof (winv_run B evs _ _ _ _ _ _ (winv_init k np) L R) as I. apply (i_race _ _ _ _ _ _ _ _ _ I).
Qed.
Print Assumptions C98_no_race_partial.

(** The run of C97's example: two calls, both elements written by one thread and moved out by another. *)
Example C98_nonvacuous : length (filter is_call good_run) <= 4 /\ exists s o, wrun 4 good_run (wsys0 1 2) = Some (s, o) /\
  w_race s = false /\ length (w_M s (LEl 0 0)) = 3 /\ length (w_M s (LEl 0 1)) = 3.
Proof.
  split; [vm_compute; repeat constructor|].
  assert (X : match wrun 4 good_run (wsys0 1 2) with
              | Some (s, _) => w_race s = false /\ length (w_M s (LEl 0 0)) = 3 /\ length (w_M s (LEl 0 1)) = 3
              | None => False end) by (vm_compute; repeat split).
  destruct (wrun 4 good_run (wsys0 1 2)) as [[s o]|]; [|contradiction X]. exists s, o. split; [reflexivity|exact X].
Qed.

(** Beyond the first block elements are accessed out of order: the reference
    counts are relaxed (33, 67, 117), so when the consumer gives back a block
    on which a producer still has a temporary reference, and that producer then
    puts it on the free list, nothing orders the consumer's last accesses to
    the block before the accesses of its next user.  The consumer's clearing
    of avail (263) can then end up after the next user's setting of it: an
    element whose enqueue returned true makes try_dequeue spin for ever. *)
Definition relaxed_run : list wev :=
    [WEnq 0 10 false] ++
    pr 0 [(0, 0); (0, 0); (0, 0); (0, 0); (0, 0); (0, 0); (0, 1); (0, 1); (1, 0); (0, 0); (0, 0); (0, 0)] ++
    [WEnq 1 20 false] ++
    pr 1 [(0, 0); (2, 0); (2, 0)] ++
    [WEnq 0 30 false] ++
    pr 0 [(0, 0); (3, 0); (3, 0); (0, 0); (1, 0); (0, 0); (0, 0); (0, 0); (0, 0); (0, 0); (0, 0); (1, 0); (0, 0); (0, 1); (0, 1); (0, 1); (0, 0); (0,
          1); (0, 1); (4, 0); (0, 0); (1, 0); (2, 0); (2, 0); (1, 0); (1, 0); (1, 0); (0, 1); (0, 1); (3, 0); (0, 0); (1, 0)] ++
    [WDeq] ++
    co [(0, 0); (0, 0); (1, 0); (0, 1); (1, 0); (1, 2); (0, 5)] ++
    [WDeq] ++
    co [(0, 0); (1, 0); (1, 0); (1, 0); (0, 1); (0, 1); (5, 0); (0, 0); (1, 0); (1, 0); (2, 0); (0, 2); (1, 0); (1, 2); (0, 2)] ++
    pr 1 [(1, 0); (6, 0); (1, 0); (0, 1); (1, 0); (0, 8); (0, 0); (1, 0); (4, 0); (4, 0); (1, 0); (2, 0); (1, 0); (2, 0); (8, 0); (8, 0); (1, 0); (2,
          0); (9, 0); (0, 0); (0, 2); (0, 2); (0, 2); (1, 0); (0, 2); (0, 2); (5, 0); (0, 0); (2, 0); (10, 0); (10, 0); (2, 0); (2, 0); (2, 0); (0,
          3); (0, 2); (11, 0); (0, 0); (2, 0)] ++
    [WDeq] ++
    co [(1, 0); (2, 0); (2, 0); (2, 0); (0, 2); (0, 2); (6, 0); (3, 0); (0, 1); (3, 0); (0, 8); (0, 0); (2, 0); (2, 0); (3, 0); (0, 3); (5, 0)].

(** Events of the consumer's thread only. *)
Definition of_cons (ev : wev) : bool := match ev with WEnq _ _ _ | WProd _ _ _ _ => false | _ => true end.

Definition stuck (s : wsys) : Prop :=
  wc_pc (w_c s) = Kq false FIdle (K5 0 0) /\ forall m, In m (w_M s (LAv 0 0)) -> wc_view (w_c s) (LAv 0 0) <= m_ts m -> m_val m = 0.

Lemma stuck_step B ev s s' o : stuck s -> of_cons ev = true -> wstep B ev s = Some (s', o) -> stuck s' /\ o = [].
Proof.
  intros (K & A) OC H. destruct s as [M n ps [pc V] nfd race]. cbn [w_c w_M wc_pc wc_view] in *. subst pc. cbv beta iota zeta delta [wstep] in H.
  destruct ev; try discriminate. cbv beta iota zeta delta [wcstep] in H. destruct (ld true (LAv 0 0) r V M) as [[x V1]|] eqn:L; [|discriminate].
  injection H as <- <-. apply ld_inv in L. destruct L as (m & Im & Tm & Vm & LR & _ & LV & _). rewrite (A m Im) in Vm by lia. subst x.
  split; [|reflexivity]. split; [reflexivity|]. cbn [w_c w_M wc_view]. intros m' Im' G. apply (A m' Im'). specialize (LV (LAv 0 0)). lia.
Qed.

Lemma stuck_run B evs : forall s s' o, stuck s -> forallb of_cons evs = true -> wrun B evs s = Some (s', o) -> stuck s' /\ o = [].
Proof.
  induction evs as [|ev evs IH]; intros s s' o K F H; cbn [wrun forallb] in *; [injection H as <- <-; split; [exact K|reflexivity]|].
  apply andb_true_iff in F. destruct F as (F1 & F2). destruct (wstep B ev s) as [[s1 o1]|] eqn:S; [|discriminate].
  destruct (wrun B evs s1) as [[s2 o2]|] eqn:R; [|discriminate]. injection H as <- <-.
  destruct (stuck_step _ _ _ _ _ K F1 S) as (K1 & ->). destruct (IH _ _ _ K1 F2 R) as (K2 & ->). split; [exact K2|reflexivity].
Qed.

Theorem C98_race_refuted : exists B k np evs s o, 0 < B /\ wrun B evs (wsys0 k np) = Some (s, o) /\ w_race s = true.
Proof.
  exists 1, 1, 2, relaxed_run.
  assert (X : match wrun 1 relaxed_run (wsys0 1 2) with Some (s, _) => w_race s = true | None => False end) by (vm_compute; reflexivity).
  destruct (wrun 1 relaxed_run (wsys0 1 2)) as [[s o]|]; [|contradiction X]. exists s, o. split; [apply le_n|]. split; [reflexivity|exact X].
Qed.
Print Assumptions C98_race_refuted.

Theorem C98_taken_refuted : exists B k np evs s o, 0 < B /\ wrun B evs (wsys0 k np) = Some (s, o) /\
  enqs o = [10; 30; 20] /\ deqs o = [10; 30] /\ In (ORetE 1 true) o /\
  (forall i p, nth_error (w_ps s) i = Some p -> wp_pc p = Wq FIdle PReady) /\
  forall evs' s' o', forallb of_cons evs' = true -> wrun B evs' s = Some (s', o') -> o' = [] /\ exists inh f m, wc_pc (w_c s') = Kq inh f m.
Proof.
  exists 1, 1, 2, relaxed_run.
  assert (X : match wrun 1 relaxed_run (wsys0 1 2) with
              | Some (s, o) => (enqs o = [10; 30; 20] /\ deqs o = [10; 30] /\ existsb (fun e => match e with ORetE 1 true => true | _ => false end) o = true /\
                               map wp_pc (w_ps s) = [Wq FIdle PReady; Wq FIdle PReady]) /\
                               wc_pc (w_c s) = Kq false FIdle (K5 0 0) /\
                               forallb (fun m => (m_ts m <? wc_view (w_c s) (LAv 0 0)) || (m_val m =? 0)) (w_M s (LAv 0 0)) = true
              | None => False end) by (vm_compute; repeat split).
  destruct (wrun 1 relaxed_run (wsys0 1 2)) as [[s o]|]; [|contradiction X]. exists s, o. destruct X as ((X1 & X2 & X3 & X4) & X5 & X6).
  split; [apply le_n|]. split; [reflexivity|]. split; [exact X1|]. split; [exact X2|]. split; [|split].
  - apply existsb_exists in X3. destruct X3 as (e & Ie & He). destruct e as [| |[|[|]] []| | | |]; try discriminate He. exact Ie.
  - intros i p N. apply (map_nth_error wp_pc) in N. rewrite X4 in N. destruct i as [|[|[|]]]; cbn [nth_error] in N; try discriminate N; injection N as <-; reflexivity.
  - assert (ST : stuck s).
    { split; [exact X5|]. intros m Im G. rewrite forallb_forall in X6. specialize (X6 m Im). apply orb_true_iff in X6. destruct X6 as [Y|Y].
      - apply Nat.ltb_lt in Y. lia.
      - apply Nat.eqb_eq in Y. exact Y. }
    intros evs' s' o' F R'. destruct (stuck_run 1 evs' s s' o' ST F R') as ((K & _) & ->). split; [reflexivity|]. exists false, FIdle, (K5 0 0). exact K.
Qed.
Print Assumptions C98_taken_refuted.

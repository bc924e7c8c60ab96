(** Heartbeat and timeout: C128 - C131. *)
From Coq Require Import Arith List Bool Lia.
From Verif Require Import HeartModel.
Import ListNotations.

Ltac opt H := match type of H with
  | context [if ?b then _ else _] => let Q := fresh "B" in destruct b eqn:Q; try discriminate H
  | context [match ?x with Some _ => _ | None => _ end] => let Q := fresh "O" in destruct x eqn:Q; try discriminate H
  | context [match ?x with [] => _ | _ :: _ => _ end] => let Q := fresh "Z" in destruct x eqn:Q; try discriminate H
  end.
Ltac bools := repeat match goal with
  | H : (_ && _)%bool = true |- _ => apply andb_prop in H as (? & ?)
  | H : (_ <=? _) = true |- _ => apply Nat.leb_le in H
  end.

Lemma run_snoc P T G a e s s' o : run P T G (a ++ [e]) s = Some (s', o) -> exists s1 o1 o2, run P T G a s = Some (s1, o1) /\ step P T G e s1 = Some (s', o2) /\ o = o1 ++ o2.
Proof.
  revert s o. induction a as [|x a IH]; intros s o X; cbn [app run] in X.
  - destruct (step P T G e s) as [(s1 & o1)|] eqn:E; [|discriminate]. cbn in X. injection X as <- <-. exists s, [], o1. rewrite app_nil_r. auto.
  - destruct (step P T G x s) as [(s1 & o1)|] eqn:E; [|discriminate]. destruct (run P T G (a ++ [e]) s1) as [(s2 & o2)|] eqn:R; [|discriminate]. cbn in X. injection X as <- <-.
    destruct (IH _ _ R) as (s3 & o3 & o4 & R1 & S & ->). exists s3, (o1 ++ o3), o4. cbn [run]. rewrite E, R1. cbn. rewrite app_assoc. auto.
Qed.
Lemma along_snoc P T G Q a e s s1 o1 : run P T G a s = Some (s1, o1) -> along P T G Q (a ++ [e]) s -> along P T G Q a s /\ forall s' o, step P T G e s1 = Some (s', o) -> Q s'.
Proof.
  revert s o1. induction a as [|x a IH]; intros s o1 R A; cbn [app run along] in *.
  - injection R as <- <-. destruct A as (A1 & A2). split; [auto|]. intros s' o S. rewrite S in A2. exact (proj1 A2).
  - destruct (step P T G x s) as [(s2 & o2)|] eqn:E; [|discriminate]. destruct (run P T G a s2) as [(s3 & o3)|] eqn:R2; [|discriminate]. cbn in R. injection R as <- <-.
    destruct A as (A1 & A2). destruct (IH _ _ R2 A2) as (B1 & B2). auto.
Qed.
Lemma along_end P T G Q es s s' o : run P T G es s = Some (s', o) -> along P T G Q es s -> Q s'.
Proof.
  revert s o. induction es as [|e es IH]; intros s o R A; cbn [run along] in *; [injection R as <- <-; exact (proj1 A)|].
  destruct (step P T G e s) as [(s1 & o1)|] eqn:E; [|discriminate]. destruct (run P T G es s1) as [(s2 & o2)|] eqn:R2; [|discriminate]. cbn in R. injection R as <- <-. exact (IH _ _ R2 (proj2 A)).
Qed.
(** Induction over runs during which Q holds. *)
Lemma run_ind P T G (Q I : st -> Prop) : (Q st0 -> I st0) -> (forall e s s' o, Q s -> Q s' -> I s -> step P T G e s = Some (s', o) -> I s') ->
  forall es s o, run P T G es st0 = Some (s, o) -> along P T G Q es st0 -> I s.
Proof.
  intros B SI es. induction es as [|e es IH] using rev_ind; intros s o R A; [cbn in R; injection R as <- <-; exact (B (proj1 A))|].
  destruct (run_snoc _ _ _ _ _ _ _ _ R) as (s1 & o1 & o2 & R1 & S & ->). destruct (along_snoc _ _ _ _ _ _ _ _ _ R1 A) as (A1 & A2).
  exact (SI e s1 s o2 (along_end _ _ _ _ _ _ _ _ R1 A1) (A2 _ _ S) (IH _ _ R1 A1) S).
Qed.

Lemma gone_step P T G e s s' o : step P T G e s = Some (s', o) -> s_gone s = true -> s_gone s' = true /\ s_fired s' = s_fired s /\ o = [].
Proof. intros S Z. destruct s as [now wq dl uq dq est timer ptok pmok fired gone lst wait heard]. cbn in Z. subst gone. destruct e; try discriminate S. cbn in S. injection S as <- <-. auto. Qed.
Lemma up_ind P T G (Q I : st -> Prop) : I st0 -> (forall e s s' o, s_gone s = false -> Q s -> I s -> step P T G e s = Some (s', o) -> I s') ->
  forall es s o, run P T G es st0 = Some (s, o) -> along P T G (up Q) es st0 -> s_gone s = false -> Q s /\ I s.
Proof.
  intros B SI es s o R A N. split; [exact (along_end _ _ _ _ _ _ _ _ R A N)|].
  refine (run_ind P T G (up Q) (fun s => s_gone s = false -> I s) (fun _ _ => B) _ es s o R A N).
  intros e s1 s2 o2 Q1 Q2 H S Z. destruct (s_gone s1) eqn:E; [destruct (gone_step _ _ _ _ _ _ _ S E) as (F & _); congruence|]. exact (SI e s1 s2 o2 E (Q1 E) (H eq_refl) S).
Qed.

(** ** C128: a connection whose peer answers is kept *)
Section kept.
Variables P T G L U R H : nat.
Hypothesis TH : H + L + G < T.
Hypothesis TP : P + P / 2 + 2 * L + G < T.
Hypothesis TR : R + U + 2 * L + G < T.
Definition M : nat := Nat.max (P + P / 2 + L) (R + U + L).
Record Kept (s : st) : Prop := {
  k_wq : s_wq s = [] -> match s_dl s with Some d => s_last s + T <= d + G | None => False end;
  k_dl : forall x l d, s_wq s = x :: l -> s_dl s = Some d -> x + L < d;
  k_lst : s_wq s <> [] -> last (s_wq s) 0 = s_last s;
  k_le : s_last s <= s_now s /\ forall x, In x (s_wq s) -> x <= s_now s;
  k_est : s_est s = false -> s_last s = 0 /\ s_ptok s = false /\ s_pmok s = false /\ s_timer s = None;
  k_tim : s_est s = true -> match s_timer s with Some p => p <= s_last s + (P + P / 2) | None => s_ptok s = true end;
  k_pt : s_ptok s = true -> s_pmok s = false /\ s_timer s = None;
  k_in : s_est s = true -> s_wait s = false -> s_pmok s = true \/ (exists a, In a (s_uq s) /\ a <= s_last s + R) \/ (exists b, In b (s_dq s) /\ b <= s_last s + R + U);
  k_ok : s_fired s = false }.
Definition Qk (s : st) : Prop := prompt L U s /\ answered R s /\ shaken H s.

Lemma now_le s : Qk s -> Kept s -> s_now s <= s_last s + (if s_est s then M else H).
Proof.
  intros ((Q1 & Q2 & Q3 & Q4 & Q5) & QA & QH) K. unfold M. destruct (s_est s) eqn:E.
  - pose proof (k_tim s K E) as TM. destruct (s_timer s) as [p|] eqn:PT; [specialize (Q4 p eq_refl); lia|].
    destruct (s_wait s) eqn:W; [specialize (QA E W); lia|]. destruct (k_pt s K TM) as (PM & _). destruct (k_in s K E W) as [B|[(a & I & B)|(b & I & B)]]; [congruence| |].
    + specialize (Q3 a I). lia.
    + specialize (Q2 b I). lia.
  - specialize (QH E). lia.
Qed.
Lemma kept0 : Kept st0.
Proof. constructor; cbn; try discriminate; auto; try lia. split; [lia|]. intros x [<-|[]]. auto. Qed.
Lemma last_app (l : list nat) x : last (l ++ [x]) 0 = x.
Proof. induction l as [|a l IH]; [reflexivity|]. cbn [app last]. destruct (l ++ [x]) eqn:E; [destruct l; discriminate|exact IH]. Qed.
Lemma ne_app (l : list nat) x : l ++ [x] <> [].
Proof. destruct l; discriminate. Qed.

(** A ping is sent in a state like s, with an older last restart. *)
Lemma kept_send s x y uq dq tm b h hd : Qk s -> Kept s -> P <= x <= P + P / 2 ->
  Kept (send_ping x y (mkSt (s_now s) (s_wq s) (s_dl s) uq dq true tm b h (s_fired s) (s_gone s) (s_last s) (s_wait s) hd)).
Proof.
  intros Q K X. pose proof (now_le s Q K) as NL. assert (N2 : s_now s + L + G < s_last s + T) by (unfold M in NL; destruct (s_est s); lia).
  constructor; cbn [send_ping s_now s_wq s_dl s_uq s_dq s_est s_timer s_ptok s_pmok s_fired s_last s_wait]; try discriminate.
  - intros Z. destruct (ne_app _ _ Z).
  - intros z l d Z D. destruct (s_wq s) as [|w wl] eqn:W; cbn [app] in Z; injection Z as <- Z.
    + pose proof (k_wq s K W) as KW. rewrite D in KW. lia.
    + exact (k_dl s K _ _ _ W D).
  - intros _. apply last_app.
  - destruct (k_le s K) as (K1 & K2). split; [lia|]. intros z I. apply in_app_or in I as [I|[<-|[]]]; auto.
  - intros _. lia.
  - exact (k_ok s K).
Qed.
Lemma kept_step e s s' o : s_gone s = false -> Qk s -> Kept s -> step P T G e s = Some (s', o) -> Kept s'.
Proof.
  intros NG Q K S. pose proof (now_le s Q K) as NL. destruct s as [now wq dl uq dq est timer ptok pmok fired gone lst wait heard]. cbv beta zeta iota delta [step] in S.
  destruct e as [d| | | |x y|x y|x y|y| |]; [injection S as <- <-|destruct gone; [discriminate|]..]; cbn [s_now s_wq s_dl s_uq s_dq s_est s_timer s_ptok s_pmok s_fired s_last s_wait] in NL.
  - destruct K as [K1 K2 K3 (K4 & K4') K5 K6 K7 K8 K9]. constructor; cbn in *; auto. split; [lia|]. intros z I. specialize (K4' z I). lia.
  - injection S as <- <-. exact K.
  - injection S as <- <-. destruct K as [K1 K2 K3 K4 K5 K6 K7 K8 K9]. constructor; cbn in *; auto. intros E _.
    destruct wait eqn:W; [|destruct (K8 E eq_refl) as [B|[(a & I & B)|B]]; auto; right; left; exists a; split; [apply in_or_app; auto|exact B]].
    destruct Q as (_ & QA & _). specialize (QA E eq_refl). cbn in QA. right; left. exists now. split; [apply in_or_app; right; left; reflexivity|exact QA].
  - opt S. injection S as <- <-. destruct K as [K1 K2 K3 K4 K5 K6 K7 K8 K9]. constructor; cbn in *; auto. intros E W. destruct (K8 E W) as [B|[(a & [<-|I] & B)|(b & I & B)]]; [auto| | |].
    + right; right. exists now. split; [apply in_or_app; right; left; reflexivity|]. destruct Q as ((_ & _ & Q3 & _) & _). specialize (Q3 n (or_introl eq_refl)). cbn in Q3. lia.
    + right; left. eauto.
    + right; right. exists b. split; [apply in_or_app; auto|exact B].
  - destruct est eqn:E; [discriminate|]. opt S. bools. unfold drawn in *. bools. injection S as <- <-. exact (kept_send (mkSt now wq dl uq dq false timer ptok pmok fired false lst wait heard) x y uq dq timer ptok pmok now Q K (conj H0 H2)).
  - destruct dq as [|n l]; [discriminate|]. destruct est eqn:E; [destruct ptok eqn:PT; [opt S; bools; unfold drawn in *; bools|]|]; injection S as <- <-.
    + exact (kept_send (mkSt now wq dl uq (n :: l) true timer true pmok fired false lst wait heard) x y uq l timer true true heard Q K (conj H0 H2)).
    + destruct K as [K1 K2 K3 K4 K5 K6 K7 K8 K9]. constructor; cbn in *; auto; discriminate.
    + destruct K as [K1 K2 K3 K4 K5 K6 K7 K8 K9]. constructor; cbn in *; auto; discriminate.
  - destruct timer as [n|]; [|discriminate]. destruct (n <=? now) eqn:LE; [|discriminate]. bools. destruct est eqn:E; [|destruct (k_est _ K eq_refl) as (_ & _ & _ & Z); discriminate Z]. destruct pmok eqn:PM; [opt S; bools; unfold drawn in *; bools|]; injection S as <- <-.
    + exact (kept_send (mkSt now wq dl uq dq true (Some n) ptok true fired false lst wait heard) x y uq dq None true true heard Q K (conj H0 H2)).
    + destruct K as [K1 K2 K3 K4 K5 K6 K7 K8 K9]. constructor; cbn in *; auto; discriminate.
  - destruct wq as [|n l]; [discriminate|]. destruct (y <=? G) eqn:LE; [|discriminate]. bools. injection S as <- <-. destruct K as [K1 K2 K3 (K4 & K4') K5 K6 K7 K8 K9]. constructor; cbn in *; auto.
    + intros ->. cbn in K3. specialize (K3 ltac:(discriminate)). subst. lia.
    + intros z l0 d -> [= <-]. specialize (K4' z (or_intror (or_introl eq_refl))). lia.
    + intros N. rewrite <- (K3 ltac:(discriminate)). destruct l; [destruct (N eq_refl)|reflexivity].
  - exfalso. destruct dl as [n|]; [|discriminate]. destruct (n <=? now) eqn:LE; [|discriminate]. bools. destruct wq as [|z l].
    + pose proof (k_wq _ K eq_refl) as KW. cbn in KW. unfold M in NL. destruct est; lia.
    + pose proof (k_dl _ K z l n eq_refl eq_refl). destruct Q as ((Q1 & _) & _). specialize (Q1 z (or_introl eq_refl)). cbn in Q1. lia.
  - injection S as <- <-. destruct K as [K1 K2 K3 K4 K5 K6 K7 K8 K9]. constructor; cbn in *; auto.
Qed.
End kept.

(** In words: the handshake ends within H, each ping is answered within R, the
    threads are not held up for more than L (the user's: U), and conn_timeout T
    is long enough for that.  Then the connection is never ended by its timeout,
    and pings keep being sent, each at most M after the one before. *)
Theorem C128_kept : forall P T G L U R H es s o, H + L + G < T -> P + P / 2 + 2 * L + G < T -> R + U + 2 * L + G < T ->
  run P T G es st0 = Some (s, o) -> along P T G (up (fun s => prompt L U s /\ answered R s /\ shaken H s)) es st0 ->
  (forall t, ~ In (t, OTimeout) o) /\ (s_est s = true -> s_gone s = false -> s_now s <= s_last s + Nat.max (P + P / 2 + L) (R + U + L)).
Proof.
  intros P T G L U R H es s o TH TP TR E A. split.
  - revert s o E A. induction es as [|e es IH] using rev_ind; intros s o E A t I; [cbn in E; injection E as <- <-; destruct I|].
    destruct (run_snoc _ _ _ _ _ _ _ _ E) as (s1 & o1 & o2 & R1 & S & ->). destruct (along_snoc _ _ _ _ _ _ _ _ _ R1 A) as (A1 & A2).
    apply in_app_or in I as [I|I]; [exact (IH _ _ R1 A1 t I)|]. destruct (s_gone s1) eqn:NG; [destruct (gone_step _ _ _ _ _ _ _ S NG) as (_ & _ & ->); destruct I|].
    destruct (up_ind P T G _ _ (kept0 P T G L U R H TH TP TR) (kept_step P T G L U R H TH TP TR) es s1 o1 R1 A1 NG) as (Q1 & K1). pose proof (kept_step P T G L U R H TH TP TR e s1 s o2 NG Q1 K1 S) as K.
    assert (F : s_fired s = true). { clear - S I. destruct s1 as [now wq dl uq dq est timer ptok pmok fired gone lst wait heard]. cbv beta zeta iota delta [step] in S. destruct e; repeat opt S; injection S as <- <-; try reflexivity; cbn [In] in I; intuition discriminate. }
    rewrite (k_ok _ _ _ _ _ _ _ K) in F. discriminate.
  - intros ES NG. destruct (up_ind P T G _ _ (kept0 P T G L U R H TH TP TR) (kept_step P T G L U R H TH TP TR) es s o E A NG) as (Q & K). pose proof (now_le P T G L U R H TH TP TR s Q K) as N. rewrite ES in N. exact N.
Qed.
Print Assumptions C128_kept.

(** ** C129: a connection over which nothing comes any more is given up *)
Section lost.
Variables P T G L U : nat.
(** X: when the other side was last heard. *)
Definition B1 (s : st) : nat := s_heard s + U + 2 * L + (P + P / 2).
Record Lost (s : st) : Prop := {
  l_le : s_last s <= s_now s /\ s_heard s <= s_now s /\ (forall x, In x (s_wq s) -> x <= s_last s);
  l_uq : forall x, In x (s_uq s) -> x <= s_heard s;
  l_dq : forall x, In x (s_dq s) -> x <= s_heard s + U;
  l_pm : s_pmok s = true -> s_last s <= s_heard s + U + L;
  l_tm : forall p, s_timer s = Some p -> p <= s_last s + (P + P / 2);
  l_last : s_last s <= B1 s;
  l_wq : s_wq s = [] -> s_fired s = false -> s_dl s <> None;
  l_dl : forall d, s_dl s = Some d -> d <= s_last s + L + T;
  l_est : s_est s = false -> s_pmok s = false }.
Definition Ql (s : st) : Prop := prompt L U s.
Lemma lost0 : Lost st0.
Proof. constructor; cbn; try discriminate; try tauto; try lia. repeat split; auto. intros x [<-|[]]. auto. Qed.
Lemma lost_send s x y uq dq est tm b h hd : Lost s -> (forall z, In z uq -> In z (s_uq s)) -> (forall z, In z dq -> In z (s_dq s)) -> s_heard s <= hd <= s_now s -> s_now s <= hd + U + 2 * L + (P + P / 2) -> P <= x <= P + P / 2 ->
  Lost (send_ping x y (mkSt (s_now s) (s_wq s) (s_dl s) uq dq est tm b h (s_fired s) (s_gone s) (s_last s) (s_wait s) hd)).
Proof.
  intros K Iu Id HD N X. destruct K as [(K1 & K2 & K3) K4 K5 K6 K7 K8 K9 K10 K11]. constructor; cbn [send_ping s_now s_wq s_dl s_uq s_dq s_est s_timer s_ptok s_pmok s_fired s_last s_wait s_heard]; try discriminate; auto.
  - repeat split; try lia. intros z I. apply in_app_or in I as [I|[<-|[]]]; [specialize (K3 z I); lia|lia].
  - intros z I. specialize (K4 z (Iu z I)). lia.
  - intros z I. specialize (K5 z (Id z I)). lia.
  - intros p [= <-]. lia.
  - intros Z. destruct (ne_app _ _ Z).
  - intros d D. specialize (K10 d D). lia.
Qed.
Lemma lost_step e s s' o : s_gone s = false -> Ql s -> Lost s -> step P T G e s = Some (s', o) -> Lost s'.
Proof.
  intros NG Q K S. destruct s as [now wq dl uq dq est timer ptok pmok fired gone lst wait heard]. cbv beta zeta iota delta [step] in S.
  destruct e as [d| | | |x y|x y|x y|y| |]; [injection S as <- <-|destruct gone; [discriminate|]..].
  - destruct K as [(K1 & K2 & K3) K4 K5 K6 K7 K8 K9 K10 K11]. constructor; cbn in *; auto. repeat split; auto; lia.
  - injection S as <- <-. exact K.
  - injection S as <- <-. destruct K as [(K1 & K2 & K3) K4 K5 K6 K7 K8 K9 K10 K11]. unfold B1 in *. constructor; cbn in *; auto; try lia.
    + intros z I. apply in_app_or in I as [I|[<-|[]]]; [specialize (K4 z I); lia|lia].
    + intros z I. specialize (K5 z I). lia.
  - destruct uq as [|n l]; [discriminate|]. injection S as <- <-. destruct K as [(K1 & K2 & K3) K4 K5 K6 K7 K8 K9 K10 K11]. constructor; cbn in *; auto.
    intros z I. apply in_app_or in I as [I|[<-|[]]]; [auto|]. destruct Q as (_ & _ & Q3 & _). specialize (Q3 n (or_introl eq_refl)). specialize (K4 n (or_introl eq_refl)). cbn in Q3. lia.
  - destruct est eqn:E; [discriminate|]. opt S. bools. unfold drawn in *. bools. injection S as <- <-.
    refine (lost_send (mkSt now wq dl uq dq false timer ptok pmok fired false lst wait heard) x y uq dq true timer ptok pmok now K _ _ _ _ (conj H H1)); cbn; auto; try lia. destruct K as [(K1 & K2 & K3) _ _ _ _ _ _ _ _]. cbn in *. lia.
  - destruct dq as [|n l]; [discriminate|]. destruct Q as (_ & Q2 & _). specialize (Q2 n (or_introl eq_refl)). cbn in Q2. pose proof (l_dq _ K n (or_introl eq_refl)) as D. cbn in D.
    destruct est eqn:E; [destruct ptok eqn:PT; [opt S; bools; unfold drawn in *; bools|]|]; injection S as <- <-.
    + refine (lost_send (mkSt now wq dl uq (n :: l) true timer true pmok fired false lst wait heard) x y uq l true timer true true heard K _ _ _ _ (conj H H1)); cbn; auto; try lia. destruct K as [(K1 & K2 & K3) _ _ _ _ _ _ _ _]. cbn in *. lia.
    + destruct K as [(K1 & K2 & K3) K4 K5 K6 K7 K8 K9 K10 K11]. constructor; cbn in *; auto; lia.
    + destruct K as [(K1 & K2 & K3) K4 K5 K6 K7 K8 K9 K10 K11]. constructor; cbn in *; auto.
  - destruct timer as [n|]; [|discriminate]. destruct (n <=? now) eqn:LE; [|discriminate]. bools. destruct Q as (_ & _ & _ & Q4 & _). specialize (Q4 n eq_refl). cbn in Q4. pose proof (l_tm _ K n eq_refl) as TM. cbn in TM.
    destruct pmok eqn:PM; [opt S; bools; unfold drawn in *; bools|]; injection S as <- <-.
    + pose proof (l_pm _ K eq_refl) as PL. cbn in PL.
      refine (lost_send (mkSt now wq dl uq dq est (Some n) ptok true fired false lst wait heard) x y uq dq est None true true heard K _ _ _ _ (conj H H1)); cbn; auto; try lia. destruct K as [(K1 & K2 & K3) _ _ _ _ _ _ _ _]. cbn in *. lia.
    + destruct K as [(K1 & K2 & K3) K4 K5 K6 K7 K8 K9 K10 K11]. constructor; cbn in *; auto; discriminate.
  - destruct wq as [|n l]; [discriminate|]. destruct (y <=? G) eqn:LE; [|discriminate]. injection S as <- <-. destruct Q as (Q1 & _). specialize (Q1 n (or_introl eq_refl)). cbn in Q1.
    destruct K as [(K1 & K2 & K3) K4 K5 K6 K7 K8 K9 K10 K11]. constructor; cbn in *; auto; try discriminate. intros d [= <-]. specialize (K3 n (or_introl eq_refl)). lia.
  - destruct dl as [n|]; [|discriminate]. destruct (n <=? now) eqn:LE; [|discriminate]. injection S as <- <-. destruct K as [(K1 & K2 & K3) K4 K5 K6 K7 K8 K9 K10 K11]. constructor; cbn in *; auto; discriminate.
  - injection S as <- <-. destruct K as [(K1 & K2 & K3) K4 K5 K6 K7 K8 K9 K10 K11]. constructor; cbn in *; auto.
Qed.
End lost.


Lemma fired_out P T G es s o : run P T G es st0 = Some (s, o) -> s_fired s = true -> exists t, In (t, OTimeout) o /\ t <= s_now s.
Proof.
  revert s o. induction es as [|e es IH] using rev_ind; intros s o E F; [cbn in E; injection E as <- <-; discriminate F|].
  destruct (run_snoc _ _ _ _ _ _ _ _ E) as (s1 & o1 & o2 & R1 & S & ->).
  assert (C : s_now s1 <= s_now s /\ (s_fired s1 = true \/ In (s_now s, OTimeout) o2)).
  { clear - S F. destruct s1 as [now wq dl uq dq est timer ptok pmok fired gone lst wait heard]. cbv beta zeta iota delta [step] in S. destruct e; repeat opt S; injection S as <- <-; cbn in *; auto; split; auto; lia. }
  destruct C as (C1 & [C|C]); [destruct (IH _ _ R1 C) as (t & I & LE); exists t; split; [apply in_or_app; auto|lia]|exists (s_now s); split; [apply in_or_app; auto|auto]].
Qed.
(** In words: when nothing was heard for the time below, the timeout has
    expired and worker_terminate was called (or the connection was ended before). *)
Theorem C129_found : forall P T G L U es s o, run P T G es st0 = Some (s, o) -> along P T G (up (prompt L U)) es st0 ->
  s_heard s + U + (P + P / 2) + T + 4 * L < s_now s -> s_gone s = true \/ exists t, In (t, OTimeout) o /\ t <= s_now s.
Proof.
  intros P T G L U es s o E A N. destruct (s_gone s) eqn:NG; [auto|right].
  destruct (up_ind P T G _ _ (lost0 P T L U) (lost_step P T G L U) es s o E A NG) as ((Q1 & _ & _ & _ & Q5) & K).
  destruct (s_fired s) eqn:F; [exact (fired_out _ _ _ _ _ _ E F)|exfalso].
  pose proof (l_last _ _ _ _ _ K) as KL. unfold B1 in KL. destruct (s_wq s) as [|x l] eqn:W.
  - pose proof (l_wq _ _ _ _ _ K W F) as D. destruct (s_dl s) as [d|] eqn:DL; [|destruct (D eq_refl)]. pose proof (l_dl _ _ _ _ _ K d DL). specialize (Q5 d eq_refl). lia.
  - specialize (Q1 x (or_introl eq_refl)). destruct (l_le _ _ _ _ _ K) as (_ & _ & K3). rewrite W in K3. specialize (K3 x (or_introl eq_refl)). lia.
Qed.
Print Assumptions C129_found.

Lemma rev_last {A} (l : list A) : l = [] \/ exists l' x, l = l' ++ [x].
Proof. destruct l as [|x l] using rev_ind; [auto|right; eauto]. Qed.
(** ** C130: pings are not sent more often than agreed *)
Record Rate (P G : nat) (s : st) (o : list (nat * obs)) : Prop := {
  r_now : forall t, In (t, OPing) o -> t <= s_now s;
  r_tm : forall p t, s_timer s = Some p -> In (t, OPing) o -> t + P <= p + G;
  r_tok : forall t, s_ptok s = true -> In (t, OPing) o -> t + P <= s_now s + G;
  r_est : s_est s = false -> (forall t, ~ In (t, OPing) o) /\ s_timer s = None /\ s_ptok s = false }.
(** Any two pings, in the order they were sent. *)
Theorem C130_rate : forall P T G es s o, run P T G es st0 = Some (s, o) -> forall a t1 b t2 c, o = a ++ (t1, OPing) :: b ++ (t2, OPing) :: c -> t1 + P <= t2 + G.
Proof.
  intros P T G es s o E.
  assert (X : Rate P G s o /\ forall a t1 b t2 c, o = a ++ (t1, OPing) :: b ++ (t2, OPing) :: c -> t1 + P <= t2 + G).
  { revert s o E. induction es as [|e es IH] using rev_ind; intros s o E.
    { cbn in E. injection E as <- <-. split; [constructor; cbn; try discriminate; try (intros; tauto); auto|]. intros a t1 b t2 c Z. destruct a; discriminate. }
    destruct (run_snoc _ _ _ _ _ _ _ _ E) as (s1 & o1 & o2 & R1 & S & ->). destruct (IH s1 o1 R1) as (K & O). clear IH E R1.
    assert (PING : forall t2 : nat, (forall t, In (t, OPing) o1 -> t + P <= t2 + G) -> forall a t1 b t3 c, o1 ++ [(t2, OPing)] = a ++ (t1, OPing) :: b ++ (t3, OPing) :: c -> t1 + P <= t3 + G).
    { intros t2 LE a t1 b t3 c Z. destruct (rev_last c) as [->|(c' & z & ->)].
      - replace (a ++ (t1, OPing) :: b ++ [(t3, OPing)]) with ((a ++ (t1, OPing) :: b) ++ [(t3, OPing)]) in Z by (rewrite <- app_assoc; reflexivity). apply app_inj_tail in Z as (Z1 & Z2). injection Z2 as <-. apply LE. rewrite Z1. apply in_or_app. right. left. reflexivity.
      - replace (a ++ (t1, OPing) :: b ++ (t3, OPing) :: c' ++ [z]) with ((a ++ (t1, OPing) :: b ++ (t3, OPing) :: c') ++ [z]) in Z by (rewrite <- !app_assoc; cbn; rewrite <- !app_assoc; reflexivity). apply app_inj_tail in Z as (Z1 & Z2). exact (O _ _ _ _ _ Z1). }
    assert (SAME : forall x, x <> OPing -> forall a t1 b t3 c (t : nat), o1 ++ [(t, x)] = a ++ (t1, OPing) :: b ++ (t3, OPing) :: c -> t1 + P <= t3 + G).
    { intros x N a t1 b t3 c t Z. destruct (rev_last c) as [->|(c' & z & ->)].
      - replace (a ++ (t1, OPing) :: b ++ [(t3, OPing)]) with ((a ++ (t1, OPing) :: b) ++ [(t3, OPing)]) in Z by (rewrite <- app_assoc; reflexivity). apply app_inj_tail in Z as (Z1 & Z2). injection Z2 as _ Z2. destruct (N Z2).
      - replace (a ++ (t1, OPing) :: b ++ (t3, OPing) :: c' ++ [z]) with ((a ++ (t1, OPing) :: b ++ (t3, OPing) :: c') ++ [z]) in Z by (rewrite <- !app_assoc; cbn; rewrite <- !app_assoc; reflexivity). apply app_inj_tail in Z as (Z1 & Z2). exact (O _ _ _ _ _ Z1). }
    destruct s1 as [now wq dl uq dq est timer ptok pmok fired gone lst wait heard]. cbv beta zeta iota delta [step] in S. destruct K as [K1 K2 K3 K4]. cbn [s_now s_timer s_ptok s_est] in *.
    assert (SEND : forall x y uq' dq' tm' b' h' w' hd', drawn P x && (y <=? G) = true -> (forall t, In (t, OPing) o1 -> t + P <= now + G) ->
      Rate P G (send_ping x y (mkSt now wq dl uq' dq' true tm' b' h' fired false lst w' hd')) (o1 ++ [(now, OPing)])).
    { intros x y uq' dq' tm' b' h' w' hd' D LE. unfold drawn in D. bools. constructor; cbn [send_ping s_now s_timer s_ptok s_est]; try discriminate.
      - intros t I. apply in_app_or in I as [I|[[= <-]|[]]]; auto.
      - intros p t [= <-] I. apply in_app_or in I as [I|[[= <-]|[]]]; [specialize (K1 t I); lia|lia]. }
    destruct e as [d| | | |x y|x y|x y|y| |]; [injection S as <- <-|destruct gone; [discriminate|]..].
    - rewrite app_nil_r. split; [|exact O]. constructor; cbn; auto. + intros t I. specialize (K1 t I). lia. + intros t Z I. specialize (K3 t Z I). lia.
    - injection S as <- <-. rewrite app_nil_r. split; [constructor; cbn; auto|exact O].
    - injection S as <- <-. rewrite app_nil_r. split; [constructor; cbn; auto|exact O].
    - destruct uq; [discriminate|]. injection S as <- <-. rewrite app_nil_r. split; [constructor; cbn; auto|exact O].
    - destruct est; [discriminate|]. destruct (drawn P x && (y <=? G)) eqn:D; [|discriminate]. injection S as <- <-. destruct (K4 eq_refl) as (N & _). split; [apply SEND; [exact D|]|apply PING]; intros t I; destruct (N t I).
    - destruct dq as [|n l]; [discriminate|]. destruct est; [destruct ptok; [destruct (drawn P x && (y <=? G)) eqn:D; [|discriminate]|]|]; injection S as <- <-.
      + split; [apply SEND; [exact D|]|apply PING]; intros t I; exact (K3 t eq_refl I).
      + rewrite app_nil_r. split; [constructor; cbn; auto; discriminate|exact O].
      + rewrite app_nil_r. split; [constructor; cbn; auto|exact O].
    - destruct timer as [n|]; [|discriminate]. destruct (n <=? now) eqn:LE; [|discriminate]. apply Nat.leb_le in LE. destruct est; [|destruct (K4 eq_refl) as (_ & Z & _); discriminate Z].
      assert (NW : forall t, In (t, OPing) o1 -> t + P <= now + G) by (intros t I; specialize (K2 n t eq_refl I); lia).
      destruct pmok; [destruct (drawn P x && (y <=? G)) eqn:D; [|discriminate]|]; injection S as <- <-.
      + split; [apply SEND; [exact D|exact NW]|apply PING; exact NW].
      + rewrite app_nil_r. split; [constructor; cbn; auto; discriminate|exact O].
    - destruct wq; [discriminate|]. destruct (y <=? G); [|discriminate]. injection S as <- <-. rewrite app_nil_r. split; [constructor; cbn; auto|exact O].
    - destruct dl as [n|]; [|discriminate]. destruct (n <=? now); [|discriminate]. injection S as <- <-. split; [|intros a t1 b t2 c Z; exact (SAME OTimeout ltac:(discriminate) _ _ _ _ _ _ Z)].
      assert (SUB : forall t, In (t, OPing) (o1 ++ [(now, OTimeout)]) -> In (t, OPing) o1) by (intros t I; apply in_app_or in I as [I|[I|[]]]; [exact I|discriminate I]). constructor; cbn; auto.
      intros Z. destruct (K4 Z) as (N & N2). split; [|exact N2]. intros t I. exact (N t (SUB t I)).
    - injection S as <- <-. rewrite app_nil_r. split; [constructor; cbn; auto|exact O]. }
  exact (proj2 X).
Qed.
Print Assumptions C130_rate.

(* evaluates what is claimed along a concrete run *)
Ltac sides := cbn; unfold up, prompt, answered, shaken; cbn; repeat split; intros; try (match goal with H : Some _ = Some _ |- _ => injection H as <- end); try discriminate; repeat (match goal with H : _ \/ _ |- _ => destruct H as [<-|H] end); try tauto; try lia.
(** ** C131: a connection over which messages come is kept *)
(** The other side never is silent for longer than D; g: how long it has been so far. *)
Fixpoint fed (D g : nat) (es : list ev) : Prop :=
  match es with
  | [] => True
  | Tick d :: es => g + d <= D /\ fed D (g + d) es
  | (Data | Arrive) :: es => fed D 0 es
  | _ :: es => fed D g es
  end.
Definition C131_full : Prop := forall P T G L U D es s o, P + P / 2 + D + U + 4 * L + G < T ->
  run P T G es st0 = Some (s, o) -> along P T G (up (prompt L U)) es st0 -> fed D 0 es -> forall t, ~ In (t, OTimeout) o.
(** A connection the user made with connect(): a message comes every
    millisecond, and it is ended all the same when conn_timeout has passed. *)
Definition busy : list ev := [Reset 0; Tick 1; Data; Tick 1; Data; Tick 1; Data; Tick 1; Data; Tick 1; Data; Tick 1; Data; Fire].
Theorem C131_refuted : exists P T G L U D es s o, P + P / 2 + D + U + 4 * L + G < T /\
  run P T G es st0 = Some (s, o) /\ along P T G (up (prompt L U)) es st0 /\ fed D 0 es /\ o = [(T, OTimeout)].
Proof.
  exists 2, 6, 0, 0, 0, 1, busy. eexists; eexists. split; [cbn; lia|]. split; [vm_compute; reflexivity|]. split; [|split; [cbn; lia|reflexivity]].
  sides.
Qed.
Print Assumptions C131_refuted.
(** The same with a peer that answers every ping at once, when the user's thread
    is held up for longer than conn_timeout: what C128 needs U for. *)
Definition held : list ev := [Reset 0; Shake 2 0; Reset 0; Arrive; Tick 2; Ping 2 0; Tick 4; Fire].
Theorem C131_user_refuted : exists P T G L R es s o, P + P / 2 + R + 4 * L + G < T /\
  run P T G es st0 = Some (s, o) /\ along P T G (up (fun s => (forall x, In x (s_wq s) -> s_now s <= x + L) /\ (forall x, In x (s_dq s) -> s_now s <= x + L) /\
    (forall p, s_timer s = Some p -> s_now s <= p + L) /\ (forall d, s_dl s = Some d -> s_now s <= d + L) /\ answered R s)) es st0 /\ o = [(0, OPing); (T, OTimeout)].
Proof.
  exists 2, 6, 0, 0, 0, held. eexists; eexists. split; [cbn; lia|]. split; [vm_compute; reflexivity|]. split; [|reflexivity].
  sides.
Qed.
Print Assumptions C131_user_refuted.

(** What holds: a connection that does not become a peer's is ended by the
    timeout when conn_timeout has passed since it was made, not before (but for
    the age of the loop's clock) and at most two delays of the worker later,
    whatever comes over it. *)
Theorem C131_once_partial : forall P T G L U es s o, run P T G es st0 = Some (s, o) -> along P T G (up (prompt L U)) es st0 -> (forall x y, ~ In (Shake x y) es) ->
  (forall t, In (t, OTimeout) o -> T <= t + G /\ t <= T + 2 * L) /\ (forall t, ~ In (t, OPing) o) /\
  (T + 2 * L < s_now s -> s_gone s = true \/ exists t, In (t, OTimeout) o).
Proof.
  intros P T G L U es s o E A N.
  assert (X : (forall t, In (t, OTimeout) o -> T <= t + G /\ t <= T + 2 * L) /\ (forall t, ~ In (t, OPing) o) /\ s_est s = false /\ s_timer s = None /\ s_ptok s = false /\
    (s_wq s = [0] /\ s_dl s = None \/ s_wq s = [] /\ (exists d, s_dl s = Some d /\ d <= T + L /\ T <= d + G) \/ (s_wq s = [] /\ s_dl s = None /\ exists t, In (t, OTimeout) o))).
  { revert s o E A. induction es as [|e es IH] using rev_ind; intros s o E A.
    { cbn in E. injection E as <- <-. cbn. repeat split; try tauto; auto. }
    destruct (run_snoc _ _ _ _ _ _ _ _ E) as (s1 & o1 & o2 & R1 & S & ->). destruct (along_snoc _ _ _ _ _ _ _ _ _ R1 A) as (A1 & A2).
    destruct (IH (fun x y I => N x y (in_or_app _ _ _ (or_introl I))) s1 o1 R1 A1) as (K1 & K2 & K3 & K4 & K5 & K6).
    pose proof (along_end _ _ _ _ _ _ _ _ R1 A1) as AE.
    assert (NS : forall x y, e <> Shake x y) by (intros x y ->; apply (N x y), in_or_app; right; left; reflexivity). clear IH N E R1 A A1 A2.
    destruct s1 as [now wq dl uq dq est timer ptok pmok fired gone lst wait heard]. cbn [s_est s_timer s_ptok s_wq s_dl] in *. subst est timer ptok.
    cbv beta zeta iota delta [step] in S. destruct e as [d| | | |x y|x y|x y|y| |]; [|destruct gone; [discriminate|]..]; try (injection S as <- <-; rewrite app_nil_r; cbn; tauto).
    - destruct uq; [discriminate|]. injection S as <- <-. rewrite app_nil_r. cbn. tauto.
    - destruct (NS x y eq_refl).
    - destruct dq; [discriminate|]. injection S as <- <-. rewrite app_nil_r. cbn. tauto.
    - discriminate.
    - destruct wq as [|w wq]; [discriminate|]. destruct (y <=? G) eqn:YG; [|discriminate]. apply Nat.leb_le in YG. injection S as <- <-. rewrite app_nil_r. cbn.
      destruct K6 as [([= -> ->] & ->)|[(? & _)|(? & _)]]; [|discriminate..]. destruct (AE eq_refl) as (Q1 & _). specialize (Q1 0 (or_introl eq_refl)). cbn in Q1.
      repeat split; auto; try apply K1; auto. right. left. split; [auto|]. exists (now + T - y). split; [auto|lia].
    - destruct dl as [n|]; [|discriminate]. destruct (n <=? now) eqn:LE; [|discriminate]. apply Nat.leb_le in LE. injection S as <- <-. cbn.
      destruct K6 as [(_ & ?)|[(-> & d & [= ->] & D1 & D2)|(_ & ? & _)]]; [discriminate| |discriminate]. destruct (AE eq_refl) as (_ & _ & _ & _ & Q5). specialize (Q5 d eq_refl). cbn in Q5.
      split; [|split; [|split; [auto|split; [auto|split; [auto|]]]]].
      + intros t I. apply in_app_or in I as [I|[[= <-]|[]]]; [auto|lia].
      + intros t I. apply in_app_or in I as [I|[I|[]]]; [exact (K2 t I)|discriminate].
      + right. right. repeat split; auto. exists now. apply in_or_app. right. left. reflexivity. }
  destruct X as (X1 & X2 & X3 & X4 & X5 & X6). split; [exact X1|split; [exact X2|]]. intros W. destruct (s_gone s) eqn:NG; [auto|right].
  destruct (along_end _ _ _ _ _ _ _ _ E A NG) as (Q1 & _ & _ & _ & Q5). destruct X6 as [(X6 & _)|[(_ & d & X6 & X7 & _)|(_ & _ & X6)]]; [|specialize (Q5 d X6); lia|exact X6].
  rewrite X6 in Q1. specialize (Q1 0 (or_introl eq_refl)). lia.
Qed.
Print Assumptions C131_once_partial.

(** ** The hypotheses are met *)
(** A connection that becomes a peer's; two pings are answered, the second late. *)
Definition beats : list ev := [Tick 1; Reset 0; Shake 5 1; Reset 0; Tick 1; Arrive; Tick 1; User; Pong 0 0; Tick 2; Ping 4 0; Reset 1; Tick 4; Ping 0 0; Tick 1; Arrive; User; Tick 1; Pong 4 0; Reset 0].
Example C128_nonvacuous : exists s o, 1 + 1 + 1 < 20 /\ 4 + 4 / 2 + 2 * 1 + 1 < 20 /\ 5 + 1 + 2 * 1 + 1 < 20 /\ run 4 20 1 beats st0 = Some (s, o) /\
  along 4 20 1 (up (fun s => prompt 1 1 s /\ answered 5 s /\ shaken 1 s)) beats st0 /\ s_est s = true /\ s_gone s = false /\ o = [(1, OPing); (5, OPing); (11, OPing)].
Proof. eexists; eexists. split; [lia|]. split; [cbn; lia|]. split; [lia|]. split; [vm_compute; reflexivity|]. split; [sides|auto]. Qed.
(** The other side answers once and then no more. *)
Definition silent : list ev := [Reset 0; Tick 1; Shake 5 0; Reset 0; Tick 1; Arrive; User; Pong 0 0; Tick 4; Ping 4 0; Reset 0; Tick 4; Ping 0 0; Tick 5; Tick 1; Fire; Tick 4].
Example C129_nonvacuous : exists s o, run 4 10 1 silent st0 = Some (s, o) /\ along 4 10 1 (up (prompt 0 0)) silent st0 /\ s_heard s + 0 + (4 + 4 / 2) + 10 + 4 * 0 < s_now s /\ o = [(1, OPing); (6, OPing); (16, OTimeout)].
Proof. eexists; eexists. split; [vm_compute; reflexivity|]. split; [sides|split; [cbn; lia|reflexivity]]. Qed.
(** The smallest distance that C130 allows is met: the ping timer drew P, and
    the loop's clock was G old. *)
Definition quick : list ev := [Reset 0; Tick 1; Shake 4 1; Arrive; User; Pong 0 0; Tick 3; Ping 6 0].
Example C130_nonvacuous : exists s, run 4 20 1 quick st0 = Some (s, [] ++ (1, OPing) :: [] ++ (4, OPing) :: []) /\ 1 + 4 = 4 + 1.
Proof. eexists. split; [vm_compute; reflexivity|reflexivity]. Qed.
(** A connection made with connect() over which messages and pongs come. *)
Example C131_nonvacuous : exists s o, run 2 6 1 [Tick 1; Reset 1; Data; Tick 3; Arrive; User; Pong 0 0; Data; Tick 3; Fire; Tick 3] st0 = Some (s, o) /\
  along 2 6 1 (up (prompt 1 1)) [Tick 1; Reset 1; Data; Tick 3; Arrive; User; Pong 0 0; Data; Tick 3; Fire; Tick 3] st0 /\ 6 + 2 * 1 < s_now s /\ s_gone s = false /\ o = [(7, OTimeout)].
Proof. eexists; eexists. split; [vm_compute; reflexivity|]. split; [sides|split; [cbn; lia|auto]]. Qed.

(** C119, C120, C121: message statistics (StatModel). *)
From Coq Require Import Arith NArith List Bool Lia.
From Verif Require Import StatModel.
Import ListNotations.
Local Open Scope N_scope.

(** ** Specification *)
Fixpoint sum (l : list N) : N := match l with [] => 0 | x :: l => x + sum l end.
Definition count {A} (l : list A) : N := N.of_nat (length l).
(** Payload lengths of messages accepted for sending, tried to be sent, handed to handlers. *)
Definition accepted (l : list op) : list N := flat_map (fun o => match o with Send n true => [n] | _ => [] end) l.
Definition tried (l : list op) : list N := flat_map (fun o => match o with Send n _ => [n] | _ => [] end) l.
Definition handled (l : list op) : list N := flat_map (fun o => match o with Recv n true => [n] | _ => [] end) l.
(** Operations since the last clear. *)
Fixpoint since (l : list op) : list op :=
  match l with
  | [] => []
  | o :: l' => if existsb (fun o => match o with Clear => true | _ => false end) l' then since l' else match o with Clear => l' | _ => o :: l' end
  end.
(** No operation is under way. *)
Definition at_rest (s : st) : Prop := forall l, In l (s_run s) -> l = [].
(** clear_msgstat is called and completed while nothing else is under way. *)
Definition one_clear (es : list ev) (s s' : st) : Prop :=
  at_rest s /\ let i := length (s_run s) in es = [Begin Clear; Go i; Go i; Go i; Go i] /\ run es s = Some s'.

(** ** Invariant *)
Definition todo (k : counter) (a : acc) : N := match a with Add k' n => match k, k' with Nsent, Nsent | Nrecv, Nrecv | Nsentb, Nsentb | Nrecvb, Nrecvb => n | _, _ => 0 end | Zero _ => 0 end.
Definition todos (k : counter) (l : list acc) : N := sum (map (todo k) l).
Definition pend (k : counter) (l : list (list acc)) : N := sum (map (todos k) l).
Definition total (k : counter) (l : list op) : N :=
  match k with Nsent => count (tried l) | Nsentb => sum (tried l) | Nrecv => count (handled l) | Nrecvb => sum (handled l) end.
Definition clearing (a : acc) : bool := match a with Zero _ => true | _ => false end.

Lemma sum_app l m : sum (l ++ m) = sum l + sum m.
Proof. induction l as [|x l IH]; cbn [app sum]; [reflexivity|]. rewrite IH. lia. Qed.
Lemma count_app {A} (l m : list A) : count (l ++ m) = count l + count m.
Proof. unfold count. rewrite app_length. lia. Qed.
Lemma pend_put k i a rest l : nth_error l i = Some (a :: rest) -> pend k l = todo k a + pend k (put i rest l).
Proof.
  revert i. induction l as [|x l IH]; intros [|i] E; cbn in E; try discriminate.
  - injection E as ->. unfold pend. cbn. unfold todos. cbn. lia.
  - specialize (IH i E). unfold pend in *. cbn [map sum put] in *. lia.
Qed.
Lemma total_app k l o : total k (l ++ [o]) = total k l + total k [o].
Proof. destruct k; cbn [total]; unfold tried, handled; rewrite flat_map_app; (rewrite count_app || rewrite sum_app); reflexivity. Qed.
Lemma total_one k o : o <> Clear -> todos k (accesses o) = total k [o].
Proof. destruct o as [n ok|n [|]|]; intros N; destruct k; try congruence; unfold todos; cbn; unfold count; cbn; lia. Qed.
Lemma get_set k k' v c : get k (set k' v c) = match k, k' with Nsent, Nsent | Nrecv, Nrecv | Nsentb, Nsentb | Nrecvb, Nrecvb => v | _, _ => get k c end.
Proof. destruct k, k'; reflexivity. Qed.

(** [b]: what the counters were at the start. *)
Definition SI (b : counters) (s : st) : Prop :=
  (forall l, In l (s_run s) -> forallb (fun a => negb (clearing a)) l = true) /\
  (forall k, get k (s_c s) < 2 ^ 64) /\
  forall k, (get k (s_c s) + pend k (s_run s)) mod 2 ^ 64 = (get k b + total k (s_ops s)) mod 2 ^ 64.

Lemma put_in {A} i (x y : A) l : In y (put i x l) -> y = x \/ In y l.
Proof. revert i. induction l as [|z l IH]; intros [|i] I; cbn in I; auto; destruct I as [I|I]; cbn; auto. destruct (IH i I); auto. Qed.

Lemma SI_step b e s s' : SI b s -> e <> Begin Clear -> step e s = Some s' -> SI b s'.
Proof.
  intros (H1 & H2 & H3) N X. destruct e as [o|i]; cbn [step] in X.
  - injection X as <-. assert (NO : o <> Clear) by congruence. split; [|split]; cbn [s_c s_run s_ops].
    + intros l I. apply in_app_or in I as [I|[<-|[]]]; [auto|]. destruct o as [n ok|n [|]|]; try reflexivity. congruence.
    + exact H2.
    + intros k. rewrite total_app, N.add_assoc, <- (total_one k o NO). unfold pend in *. rewrite map_app, sum_app. cbn [map sum]. rewrite N.add_0_r, N.add_assoc.
      rewrite <- N.add_mod_idemp_l by discriminate. rewrite H3. rewrite N.add_mod_idemp_l by discriminate. reflexivity.
  - destruct (nth_error (s_run s) i) as [[|a rest]|] eqn:E; try discriminate X. injection X as <-. pose proof (H1 _ (nth_error_In _ _ E)) as C. cbn in C. apply andb_true_iff in C as (C1 & C2).
    destruct a as [k' n|k']; [|discriminate C1]. split; [|split]; cbn [s_c s_run s_ops access].
    + intros l I. apply put_in in I as [->|I]; auto.
    + intros k. rewrite get_set. unfold wrap. destruct k, k'; auto; apply N.mod_lt; discriminate.
    + intros k. rewrite <- H3. rewrite (pend_put k i _ _ _ E). rewrite get_set. unfold wrap. destruct k, k'; cbn [todo]; rewrite ?N.add_0_l; auto; rewrite N.add_mod_idemp_l by discriminate; f_equal; lia.
Qed.
Lemma SI_run b es : forall s s', SI b s -> ~ In (Begin Clear) es -> run es s = Some s' -> SI b s'.
Proof.
  induction es as [|e es IH]; intros s s' H N X; cbn in X; [injection X as <-; exact H|]. destruct (step e s) as [s1|] eqn:E; [|discriminate].
  apply (IH s1); [|intros I; apply N; right; exact I|exact X]. apply (SI_step b e s); auto. intros ->. apply N. left. reflexivity.
Qed.
Lemma SI0 : SI (mkC 0 0 0 0) st0.
Proof. split; [intros l []|]. split; intros []; reflexivity. Qed.
Lemma rest_pend k s : at_rest s -> pend k (s_run s) = 0.
Proof. unfold at_rest, pend. intros H. induction (s_run s) as [|l r IH]; [reflexivity|]. cbn. rewrite (H l (or_introl eq_refl)), IH; [reflexivity|]. intros x I. apply H. right. exact I. Qed.
Lemma rest_total es s : ~ In (Begin Clear) es -> run es st0 = Some s -> at_rest s -> forall k, get k (s_c s) = total k (s_ops s) mod 2 ^ 64.
Proof.
  intros N X R k. destruct (SI_run _ _ _ _ SI0 N X) as (_ & H2 & H3). specialize (H3 k). rewrite (rest_pend k s R), N.add_0_r, N.mod_small in H3 by apply H2. rewrite H3. destruct k; reflexivity.
Qed.

(** ** C119: messages sent *)
Definition C119_sent_full : Prop := forall es s, ~ In (Begin Clear) es -> run es st0 = Some s -> at_rest s ->
  nsent (s_c s) = count (accepted (s_ops s)) mod 2 ^ 64 /\ nsentb (s_c s) = sum (accepted (s_ops s)) mod 2 ^ 64.
(** A message the connection refuses counts as sent. *)
Theorem C119_sent_refuted : exists es s, ~ In (Begin Clear) es /\ run es st0 = Some s /\ at_rest s /\ accepted (s_ops s) = [] /\ nsent (s_c s) = 1 /\ nsentb (s_c s) = 40.
Proof.
  exists [Begin (Send 40 false); Go 0; Go 0]. eexists. split; [cbn; intuition discriminate|]. split; [vm_compute; reflexivity|]. split; [intros l [<-|[]]; reflexivity|]. repeat split.
Qed.
(** Every attempt is counted, in every interleaving. *)
Theorem C119_sent_partial : forall es s, ~ In (Begin Clear) es -> run es st0 = Some s -> at_rest s ->
  nsent (s_c s) = count (tried (s_ops s)) mod 2 ^ 64 /\ nsentb (s_c s) = sum (tried (s_ops s)) mod 2 ^ 64.
Proof. intros es s N X R. pose proof (rest_total es s N X R) as H. exact (conj (H Nsent) (H Nsentb)). Qed.
Print Assumptions C119_sent_refuted.
Print Assumptions C119_sent_partial.

(** ** C120: messages received *)
Theorem C120_received : forall es s, ~ In (Begin Clear) es -> run es st0 = Some s -> at_rest s ->
  nrecv (s_c s) = count (handled (s_ops s)) mod 2 ^ 64 /\ nrecvb (s_c s) = sum (handled (s_ops s)) mod 2 ^ 64.
Proof. intros es s N X R. pose proof (rest_total es s N X R) as H. exact (conj (H Nrecv) (H Nrecvb)). Qed.
Print Assumptions C120_received.
(** Two senders and the handler's thread, interleaved; one opcode unknown. *)
Definition busy : list ev := [Begin (Send 40 true); Begin (Send 2 false); Begin (Recv 7 true); Go 1; Go 0; Go 2; Go 0; Begin (Recv 9 false); Go 2; Go 1].
Example C119_nonvacuous : exists s, ~ In (Begin Clear) busy /\ run busy st0 = Some s /\ at_rest s /\ nsent (s_c s) = 2 /\ nsentb (s_c s) = 42.
Proof. eexists. split; [cbn; intuition discriminate|]. split; [vm_compute; reflexivity|]. split; [intros l I; cbn in I; intuition|]. split; reflexivity. Qed.
Example C120_nonvacuous : exists s, ~ In (Begin Clear) busy /\ run busy st0 = Some s /\ at_rest s /\ nrecv (s_c s) = 1 /\ nrecvb (s_c s) = 7.
Proof. eexists. split; [cbn; intuition discriminate|]. split; [vm_compute; reflexivity|]. split; [intros l I; cbn in I; intuition|]. split; reflexivity. Qed.

(** ** C121: clearing *)

(** Number and bytes speak of the same messages: no bytes without a message. *)
Definition agrees (c : counters) : Prop := (nrecv c = 0 -> nrecvb c = 0) /\ (nsent c = 0 -> nsentb c = 0).
Definition C121_clear_full : Prop := forall es s, run es st0 = Some s -> at_rest s ->
  total Nsent (s_ops s) < 2 ^ 64 -> total Nrecv (s_ops s) < 2 ^ 64 -> agrees (s_c s).
(** Cleared between the two accesses of a message's arrival. *)
Theorem C121_clear_refuted : exists es s, run es st0 = Some s /\ at_rest s /\ total Nsent (s_ops s) < 2 ^ 64 /\ total Nrecv (s_ops s) < 2 ^ 64 /\
  nrecv (s_c s) = 0 /\ nrecvb (s_c s) = 40.
Proof.
  exists [Begin (Recv 40 true); Go 0; Begin Clear; Go 1; Go 1; Go 1; Go 1; Go 0]%nat. eexists. split; [vm_compute; reflexivity|].
  split; [intros l I; cbn in I; intuition|]. split; [reflexivity|]. split; reflexivity || (split; reflexivity).
Qed.
(** Cleared while nothing is under way, the counters start again from zero. *)
Theorem C121_clear_partial : forall es1 s1 es2 s2 es3 s3, run es1 st0 = Some s1 -> one_clear es2 s1 s2 -> ~ In (Begin Clear) es3 -> run es3 s2 = Some s3 -> at_rest s3 ->
  exists ops, s_ops s3 = s_ops s1 ++ Clear :: ops /\ since (s_ops s3) = ops /\
  nsent (s_c s3) = count (tried ops) mod 2 ^ 64 /\ nsentb (s_c s3) = sum (tried ops) mod 2 ^ 64 /\
  nrecv (s_c s3) = count (handled ops) mod 2 ^ 64 /\ nrecvb (s_c s3) = sum (handled ops) mod 2 ^ 64.
Proof.
  intros es1 s1 es2 s2 es3 s3 X1 (R1 & E2 & X2) N X3 R3. subst es2.
  assert (NE : forall r (l : list acc), nth_error (r ++ [l]) (length r) = Some l) by (intros r l; rewrite nth_error_app2, Nat.sub_diag by lia; reflexivity).
  assert (PU : forall r (l m : list acc), put (length r) m (r ++ [l]) = r ++ [m]) by (intros r l m; induction r as [|x r IH]; cbn; [reflexivity|f_equal; exact IH]).
  destruct s1 as [c r ops1]. cbn [s_run s_c s_ops] in *. cbn [run step s_run s_c s_ops accesses] in X2.
  do 4 (rewrite NE, ?PU in X2; cbn [run step s_run s_c s_ops] in X2). injection X2 as <-.
  assert (OPS : forall es s s', ~ In (Begin Clear) es -> run es s = Some s' -> exists m, s_ops s' = s_ops s ++ m /\ ~ In Clear m).
  { clear. induction es as [|e es IH]; intros s s' N X; cbn in X; [injection X as <-; exists []; rewrite app_nil_r; auto|]. destruct (step e s) as [s1|] eqn:E; [|discriminate].
    destruct (IH s1 s') as (m & M1 & M2); auto; [intros I; apply N; right; exact I|]. destruct e as [o|i]; cbn in E.
    - injection E as <-. exists (o :: m). cbn [s_ops] in M1. rewrite M1, <- app_assoc. split; [reflexivity|]. intros [->|I]; [apply N; left; reflexivity|exact (M2 I)].
    - destruct (nth_error _ _) as [[|a rest]|]; try discriminate. injection E as <-. exists m. auto. }
  destruct (OPS _ _ _ N X3) as (m & M1 & M2). cbn [s_ops] in M1. rewrite <- app_assoc in M1. cbn [app] in M1. exists m. split; [exact M1|].
  assert (NC : existsb (fun o => match o with Clear => true | _ => false end) m = false).
  { destruct (existsb _ m) eqn:E; [|reflexivity]. apply existsb_exists in E as (x & I & E). destruct x; try discriminate. contradiction. }
  split.
  { rewrite M1. clear -NC. induction ops1 as [|o l IH]; cbn [app since].
    - rewrite NC. reflexivity.
    - replace (existsb _ (l ++ Clear :: m)) with true; [exact IH|]. symmetry. apply existsb_exists. exists Clear. split; [apply in_or_app; right; left; reflexivity|reflexivity]. }
  (* from the cleared state on, forgetting what was before *)
  set (z := mkC 0 0 0 0). set (r' := r ++ [[]]).
  assert (F : forall es a b o, run es (mkSt a b o) = Some s3 -> forall p, s_ops s3 = o ++ p -> run es (mkSt a b []) = Some (mkSt (s_c s3) (s_run s3) p)).
  { clear. intros es a b o.
    assert (G : forall es a b o s', run es (mkSt a b o) = Some s' -> exists p, s_ops s' = o ++ p /\ forall q, run es (mkSt a b q) = Some (mkSt (s_c s') (s_run s') (q ++ p))).
    { clear. induction es as [|e es IH]; intros a b o s' X; cbn in X.
      - injection X as <-. exists []. rewrite app_nil_r. split; [reflexivity|]. intros q. cbn. rewrite app_nil_r. reflexivity.
      - destruct e as [o1|i]; cbn [step s_c s_run s_ops] in X.
        + destruct (IH _ _ _ _ X) as (p & P1 & P2). exists (o1 :: p). rewrite P1, <- app_assoc. split; [reflexivity|]. intros q. cbn [run step s_c s_run s_ops]. rewrite P2, <- app_assoc. reflexivity.
        + destruct (nth_error b i) as [[|x rest]|] eqn:E; try discriminate. destruct (IH _ _ _ _ X) as (p & P1 & P2). exists p. split; [exact P1|]. intros q. cbn [run step s_c s_run s_ops]. rewrite E. apply P2. }
    intros X p P. destruct (G _ _ _ _ _ X) as (p' & P1 & P2). rewrite P in P1. apply app_inv_head in P1. subst p'. apply (P2 []). }
  assert (M1' : s_ops s3 = (ops1 ++ [Clear]) ++ m) by (rewrite <- app_assoc; exact M1). specialize (F _ _ _ _ X3 m M1').
  match type of F with run _ (mkSt ?c0 _ _) = _ => assert (C0 : c0 = z) by (destruct c; reflexivity); rewrite C0 in F end.
  assert (I0 : SI z (mkSt z r' [])).
  { assert (RR : at_rest (mkSt z r' [])) by (intros l I; apply in_app_or in I as [I|[<-|[]]]; [apply R1; exact I|reflexivity]).
    split; [intros l I; rewrite (RR l I); reflexivity|]. split; [intros []; reflexivity|]. intros k. rewrite (rest_pend k _ RR). destruct k; reflexivity. }
  destruct (SI_run _ _ _ _ I0 N F) as (_ & H2 & H3). cbn [s_c s_run s_ops] in H2, H3.
  assert (T : forall k, get k (s_c s3) = total k m mod 2 ^ 64).
  { intros k. specialize (H3 k). rewrite (rest_pend k s3 R3), N.add_0_r, N.mod_small in H3 by apply H2. rewrite H3. destruct k; reflexivity. }
  exact (conj (T Nsent) (conj (T Nsentb) (conj (T Nrecv) (T Nrecvb)))).
Qed.
Print Assumptions C121_clear_refuted.
Print Assumptions C121_clear_partial.
Example C121_nonvacuous : exists s1 s2 s3, run busy st0 = Some s1 /\ one_clear [Begin Clear; Go 4; Go 4; Go 4; Go 4] s1 s2 /\
  run [Begin (Recv 5 true); Go 5; Go 5] s2 = Some s3 /\ at_rest s3 /\ nsent (s_c s1) = 2 /\ nsent (s_c s3) = 0 /\ nrecvb (s_c s3) = 5.
Proof.
  eexists. eexists. eexists. split; [vm_compute; reflexivity|]. split; [split; [intros l I; cbn in I; intuition|split; [reflexivity|vm_compute; reflexivity]]|].
  split; [vm_compute; reflexivity|]. split; [intros l I; cbn in I; intuition|]. repeat split.
Qed.

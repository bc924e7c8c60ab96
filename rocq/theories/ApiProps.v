(** Properties of deferred sends and of the C functions. *)
From Coq Require Import String Arith NArith Lia List Bool.
From Verif Require Import ApiModel.
Import ListNotations.

(** ** C104: every failed deferred send is reported once, with its id *)

(** What is seen: the calls with the ids they returned, the messages that
    reached a send buffer, the calls of the error callback. *)
Definition issued (tr : list ev) : list task := flat_map (fun e => match e with EIssue t => [t] | _ => [] end) tr.
Definition sent (tr : list ev) : list task := flat_map (fun e => match e with EQueued t => [t] | _ => [] end) tr.
Definition told (tr : list ev) : list rep := flat_map (fun e => match e with ECallback r => [r] | _ => [] end) tr.

(** An operation ends in success (None) or with an error. *)
Definition outcome : Type := task * option exn.
Definition successes (rs : list outcome) : list task := flat_map (fun x => match snd x with None => [fst x] | Some _ => [] end) rs.
Definition reports (rs : list outcome) : list rep :=
  flat_map (fun x => match snd x with None => [] | Some e => [mkR e (t_id (fst x)) (t_no (fst x))] end) rs.
(** The error fits the network. *)
Definition fits (x : outcome) : Prop :=
  match snd x, t_net (fst x) with
  | None, _ => True
  | Some e, NMsg => e = sal E_CONN
  | Some e, NPeer => e = sal E_PEER \/ e = sal E_CONN
  | Some e, NClient => e = sal E_CLIENT
  end.

Lemma fm_app {A B} (f : A -> list B) l l' : flat_map f (l ++ l') = flat_map f l ++ flat_map f l'.
Proof. induction l as [|a l IH]; cbn [flat_map app]; [reflexivity|]. rewrite IH, app_assoc. reflexivity. Qed.
Lemma issued_app a b : issued (a ++ b) = issued a ++ issued b. Proof. apply fm_app. Qed.
Lemma sent_app a b : sent (a ++ b) = sent a ++ sent b. Proof. apply fm_app. Qed.
Lemma told_app a b : told (a ++ b) = told a ++ told b. Proof. apply fm_app. Qed.
Lemma successes_app a b : successes (a ++ b) = successes a ++ successes b. Proof. apply fm_app. Qed.
Lemma reports_app a b : reports (a ++ b) = reports a ++ reports b. Proof. apply fm_app. Qed.

Lemma run_app l l' : forall s, run (l ++ l') s =
  match run l s with Some (s1, e) => match run l' s1 with Some (s2, f) => Some (s2, e ++ f) | None => None end | None => None end.
Proof.
  induction l as [|a l IH]; intro s; cbn [app run].
  - destruct (run l' s) as [[s2 f]|]; reflexivity.
  - destruct (step a s) as [[s1 e]|]; [|reflexivity]. rewrite IH. destruct (run l s1) as [[s2 f]|]; [|reflexivity].
    destruct (run l' s2) as [[s3 g]|]; [|reflexivity]. rewrite app_assoc. reflexivity.
Qed.

(** Numbers and ids are in order. *)
Fixpoint numbered (n : nat) (l : list task) : Prop :=
  match l with [] => True | t :: l => t_no t = n /\ t_id t = (N.of_nat n mod 65536)%N /\ numbered (S n) l end.
Lemma numbered_app n l t : numbered n l -> t_no t = n + length l -> t_id t = (N.of_nat (n + length l) mod 65536)%N -> numbered n (l ++ [t]).
Proof.
  revert n. induction l as [|a l IH]; intros n H1 H2 H3; cbn [app numbered length] in *.
  - rewrite Nat.add_0_r in *. split; [exact H2|]. split; [exact H3|exact I].
  - destruct H1 as (A & B & C). split; [exact A|]. split; [exact B|]. apply IH; [exact C| |]; rewrite Nat.add_succ_r in *; [exact H2|exact H3].
Qed.
Lemma numbered_nth n l : numbered n l -> forall i t, nth_error l i = Some t -> t_no t = n + i /\ t_id t = (N.of_nat (n + i) mod 65536)%N.
Proof.
  revert n. induction l as [|a l IH]; intros n H [|i] t E; cbn [nth_error] in E; try discriminate E; cbn [numbered] in H; destruct H as (A & B & C).
  - injection E as <-. rewrite Nat.add_0_r. split; assumption.
  - rewrite Nat.add_succ_r. apply (IH (S n) C i t E).
Qed.

Definition inv (s : st) (tr : list ev) (rs : list outcome) (good : task -> Prop) : Prop :=
  map fst rs ++ s_disp s = issued tr /\
  numbered 0 (issued tr) /\ s_no s = length (issued tr) /\ s_ctr s = (N.of_nat (s_no s) mod 65536)%N /\
  (forall t, In t (successes rs) -> good t -> In t (sent tr)) /\
  ((forall t, In t (issued tr) -> good t) -> sent tr = successes rs) /\
  (forall t, In t (sent tr) -> In t (successes rs)) /\
  (s_cb s = true /\ s_stop s = false /\ exists us, s_user s = map Some us /\ told tr ++ us = reports rs) /\ Forall fits rs.

Definition not_client (t : task) : Prop := t_net t <> NClient.

Lemma body_case s t b : exists ok e, body s t b = (ok, e) /\ fits (t, e) /\ (ok = true -> e = None) /\ (not_client t -> e = None -> ok = true).
Proof.
  destruct t as [n to id no]. unfold body, send_peer, send_client, send_conn, fits, not_client. cbn [t_net t_to].
  destruct n; [|destruct (s_peer s to)|destruct (s_client s to)]; try destruct b; eexists; eexists; (split; [reflexivity|]); cbn [fst snd t_net];
    (split; [auto|]); (split; [intro; first [reflexivity|discriminate]|]); intros NC Q; try reflexivity; try discriminate Q; exfalso; apply NC; reflexivity.
Qed.

Lemma step_inv l s tr rs s' e : l <> LFatal -> inv s tr rs not_client -> step l s = Some (s', e) -> exists rs', inv s' (tr ++ e) rs' not_client.
Proof.
  intros NF (I1 & I2 & I3 & I4 & I5 & I6 & I7 & (I8 & IS & us & IU & I9) & I10) E. unfold inv. destruct l; cbn [step] in E.
  - injection E as <- <-. exists rs. rewrite issued_app, sent_app, told_app. cbn [issued sent told flat_map app s_disp s_no s_ctr s_cb s_user s_stop]. rewrite !app_nil_r.
    split; [rewrite <- I1, app_assoc; reflexivity|].
    split; [apply numbered_app; [exact I2|exact I3|]; cbn [t_id Nat.add]; rewrite I4, I3; reflexivity|].
    split; [rewrite app_length; cbn [length]; lia|].
    split; [rewrite I4, N.add_mod_idemp_l by discriminate; f_equal; lia|].
    split; [exact I5|]. split; [intro H; apply I6; intros t T; apply H; apply in_or_app; left; exact T|]. split; [exact I7|]. split; [split; [exact I8|]; split; [exact IS|]; exists us; split; assumption|exact I10].
  - destruct (s_disp s) as [|t q] eqn:D; [discriminate E|]. destruct (body_case s t b) as (ok & x & B & F & K1 & K2). rewrite IS, B in E.
    injection E as <- <-. exists (rs ++ [(t, x)]). rewrite issued_app, sent_app, told_app. cbn [s_disp s_no s_ctr s_cb s_user s_stop].
    assert (Z : issued (if ok then [EQueued t] else []) = []) by (destruct ok; reflexivity).
    assert (Y : told (if ok then [EQueued t] else []) = []) by (destruct ok; reflexivity).
    assert (X : sent (if ok then [EQueued t] else []) = if ok then [t] else []) by (destruct ok; reflexivity).
    rewrite Z, Y, X, !app_nil_r, map_app, successes_app, reports_app. cbn [map fst].
    assert (TI : In t (issued tr)) by (rewrite <- I1; apply in_or_app; right; left; reflexivity).
    split; [rewrite <- app_assoc; exact I1|]. split; [exact I2|]. split; [exact I3|]. split; [exact I4|]. split; [|split; [|split; [|split]]].
    + intros u U G. apply in_app_or in U. apply in_or_app. destruct U as [U|U]; [left; apply I5; assumption|]. right.
      unfold successes in U. cbn [flat_map snd fst app] in U. destruct x as [x|]; [destruct U|]. destruct U as [<-|[]]. rewrite (K2 G eq_refl). left. reflexivity.
    + intro H. rewrite (I6 H). f_equal. unfold successes. cbn [flat_map snd fst app]. destruct x as [x|].
      * destruct ok; [discriminate (K1 eq_refl)|reflexivity].
      * rewrite (K2 (H t TI) eq_refl). reflexivity.
    + intros u U. apply in_app_or in U. apply in_or_app. destruct U as [U|U]; [left; apply I7; exact U|]. right.
      destruct ok; [|destruct U]. destruct U as [<-|[]]. rewrite (K1 eq_refl). left. reflexivity.
    + split; [exact I8|]. split; [reflexivity|]. exists (us ++ match x with Some e => [mkR e (t_id t) (t_no t)] | None => [] end). rewrite IU, map_app. split; [destruct x; reflexivity|].
      rewrite app_assoc, I9. f_equal. unfold reports. cbn [flat_map snd fst app]. destruct x; reflexivity.
    + apply Forall_app. split; [exact I10|]. constructor; [exact F|constructor].
  - destruct us as [|r q]; rewrite IU in E; cbn [map] in E; [discriminate E|]. rewrite I8 in E. injection E as <- <-. exists rs. rewrite issued_app, sent_app, told_app.
    cbn [issued sent told flat_map app s_disp s_no s_ctr s_cb s_user s_stop]. rewrite !app_nil_r.
    split; [exact I1|]. split; [exact I2|]. split; [exact I3|]. split; [exact I4|]. split; [exact I5|]. split; [exact I6|]. split; [exact I7|].
    split; [split; [reflexivity|]; split; [exact IS|]; exists q; split; [reflexivity|rewrite <- app_assoc; exact I9]|exact I10].
  - injection E as <- <-. exists rs. rewrite app_nil_r. cbn [s_disp s_no s_ctr s_cb s_user s_stop].
    split; [exact I1|]. split; [exact I2|]. split; [exact I3|]. split; [exact I4|]. split; [exact I5|]. split; [exact I6|]. split; [exact I7|].
    split; [split; [first [exact I8|reflexivity]|]; split; [exact IS|]; exists us; split; assumption|exact I10].
  - injection E as <- <-. exists rs. rewrite app_nil_r. cbn [s_disp s_no s_ctr s_cb s_user s_stop].
    split; [exact I1|]. split; [exact I2|]. split; [exact I3|]. split; [exact I4|]. split; [exact I5|]. split; [exact I6|]. split; [exact I7|].
    split; [split; [first [exact I8|reflexivity]|]; split; [exact IS|]; exists us; split; assumption|exact I10].
  - contradiction NF; reflexivity.
  - injection E as <- <-. exists rs. rewrite app_nil_r. cbn [s_disp s_no s_ctr s_cb s_user s_stop].
    split; [exact I1|]. split; [exact I2|]. split; [exact I3|]. split; [exact I4|]. split; [exact I5|]. split; [exact I6|]. split; [exact I7|].
    split; [split; [first [exact I8|reflexivity]|]; split; [exact IS|]; exists us; split; assumption|exact I10].
Qed.

Lemma run_inv l : forall s tr rs s' e, ~ In LFatal l -> inv s tr rs not_client -> run l s = Some (s', e) -> exists rs', inv s' (tr ++ e) rs' not_client.
Proof.
  induction l as [|a l IH]; intros s tr rs s' e NF I E; cbn [run] in E.
  - injection E as <- <-. exists rs. rewrite app_nil_r. exact I.
  - destruct (step a s) as [[s1 f]|] eqn:S; [|discriminate E]. destruct (run l s1) as [[s2 g]|] eqn:R; [|discriminate E]. injection E as <- <-.
    destruct (step_inv _ _ _ _ _ _ (fun Q => NF (or_introl Q)) I S) as (rs1 & J). destruct (IH _ _ _ _ _ (fun Q => NF (or_intror Q)) J R) as (rs2 & K). exists rs2. rewrite app_assoc. exact K.
Qed.

Lemma start_inv : inv (mkS 0 0 (fun _ => false) (fun _ => false) [] [] false true) [] [] not_client.
Proof.
  unfold inv. cbn [s_disp s_no s_ctr s_cb s_user map app issued sent told flat_map successes reports length numbered].
  split; [reflexivity|]. split; [exact I|]. split; [reflexivity|]. split; [reflexivity|]. split; [intros t []|]. split; [intros _; reflexivity|].
  split; [intros t []|]. split; [split; [reflexivity|]; split; [reflexivity|]; exists []; split; reflexivity|constructor].
Qed.

(** An error handler is set; no fatal error; sends over connections and to peers.  At every
    moment there are outcomes [rs] for the operations that were run, in the
    order of the calls: the successful ones are those that reached a send
    buffer; the others are reported, in order, once, with the id that was
    returned and an error that fits. *)
Theorem C104_reports_partial : forall l s tr, run (LReg :: l) init = Some (s, tr) -> ~ In LFatal l -> (forall t, In t (issued tr) -> not_client t) ->
  exists rs us, map fst rs ++ s_disp s = issued tr /\ sent tr = successes rs /\ s_user s = map Some us /\ told tr ++ us = reports rs /\ Forall fits rs /\
             (forall i t, nth_error (issued tr) i = Some t -> t_no t = i /\ t_id t = (N.of_nat i mod 65536)%N).
Proof.
  intros l s tr R NF NC. cbn [run step init s_ctr s_no s_peer s_client s_disp s_user s_stop] in R. destruct (run l _) as [[s2 g]|] eqn:Q; [|discriminate R]. injection R as <- <-. cbn [app] in *.
  destruct (run_inv _ _ _ _ _ _ NF start_inv Q) as (rs & I1 & I2 & I3 & I4 & I5 & I6 & I7 & (I8 & IS & us & IU & I9) & I10). cbn [app] in *. exists rs, us.
  split; [exact I1|]. split; [apply I6; exact NC|]. split; [exact IU|]. split; [exact I9|]. split; [exact I10|]. intros i t E. exact (numbered_nth 0 _ I2 i t E).
Qed.

(** Who is known, from what was done. *)
Definition knows (f : label -> option (nat * bool)) (l : list label) (x : nat) : bool :=
  fold_left (fun k a => match f a with Some (y, b) => if x =? y then b else k | None => k end) l false.
Definition peers := knows (fun a => match a with LPeer p b => Some (p, b) | _ => None end).
Definition clients := knows (fun a => match a with LClient p b => Some (p, b) | _ => None end).
(** The error that says why. *)
Definition reason (l : list label) (t : task) (b : bool) : option exn :=
  match t_net t with
  | NMsg => if b then None else Some (sal E_CONN)
  | NPeer => if peers l (t_to t) then (if b then None else Some (sal E_CONN)) else Some (sal E_PEER)
  | NClient => if clients l (t_to t) then None else Some (sal E_CLIENT)
  end.

Lemma run_known l : forall s s' tr, run l s = Some (s', tr) -> forall x,
  s_peer s' x = fold_left (fun k a => match a with LPeer y b => if x =? y then b else k | _ => k end) l (s_peer s x) /\
  s_client s' x = fold_left (fun k a => match a with LClient y b => if x =? y then b else k | _ => k end) l (s_client s x).
Proof.
  induction l as [|a l IH]; intros s s' tr R x; cbn [run fold_left] in *; [injection R as <- _; auto|].
  destruct (step a s) as [[s1 e]|] eqn:S; [|discriminate R]. destruct (run l s1) as [[s2 f]|] eqn:R1; [|discriminate R]. injection R as <- _.
  destruct (IH _ _ _ R1 x) as [A B]. rewrite A, B. clear A B IH R1.
  destruct a; cbn [step] in S.
  - injection S as <- _. auto.
  - destruct (s_disp s) as [|t q]; [discriminate S|]. destruct (s_stop s); [injection S as <- _; auto|]. destruct (body s t b) as [ok x']. injection S as <- _. auto.
  - destruct (s_user s); [discriminate S|]. injection S as <- _. auto.
  - injection S as <- _. auto.
  - injection S as <- _. auto.
  - injection S as <- _. auto.
  - injection S as <- _. auto.
Qed.

Lemma run_stop l : forall s s' tr, run l s = Some (s', tr) -> ~ In LFatal l -> s_stop s = false -> s_stop s' = false.
Proof.
  induction l as [|a l IH]; intros s s' tr R NF H; cbn [run] in R; [injection R as <- _; exact H|].
  destruct (step a s) as [[s1 e]|] eqn:S; [|discriminate R]. destruct (run l s1) as [[s2 f]|] eqn:R1; [|discriminate R]. injection R as <- _.
  refine (IH _ _ _ R1 (fun X => NF (or_intror X)) _).
  destruct a; cbn [step] in S; try (injection S as <- _; exact H).
  - destruct (s_disp s) as [|t q]; [discriminate S|]. rewrite H in S. destruct (body s t b) as [ok x']. injection S as <- _. reflexivity.
  - destruct (s_user s); [discriminate S|]. injection S as <- _. exact H.
  - exfalso. apply NF. left. reflexivity.
Qed.

(** The report says why: the receiver was unknown when the dispatcher came to
    the operation, or the send buffer refused the message. *)
Theorem C104_reason_partial : forall l s tr b s' tr' t q,
  run l init = Some (s, tr) -> ~ In LFatal l -> s_disp s = t :: q -> run (l ++ [LDisp b]) init = Some (s', tr') ->
  s_user s' = s_user s ++ match reason l t b with Some e => [Some (mkR e (t_id t) (t_no t))] | None => [] end.
Proof.
  intros l s tr b s' tr' t q R NF D R2. rewrite run_app, R in R2. cbn [run step] in R2. rewrite D, (run_stop _ _ _ _ R NF eq_refl) in R2.
  destruct (run_known _ _ _ _ R (t_to t)) as [KP KC].
  assert (P : s_peer s (t_to t) = peers l (t_to t)).
  { rewrite KP. unfold peers, knows. clear. cbn [init s_peer]. generalize false. induction l as [|a l IH]; intro k; [reflexivity|]. cbn [fold_left]. rewrite IH. destruct a; reflexivity. }
  assert (C : s_client s (t_to t) = clients l (t_to t)).
  { rewrite KC. unfold clients, knows. clear. cbn [init s_client]. generalize false. induction l as [|a l IH]; intro k; [reflexivity|]. cbn [fold_left]. rewrite IH. destruct a; reflexivity. }
  unfold body, send_peer, send_client, send_conn in R2. unfold reason. rewrite P, C in R2.
  destruct (t_net t); [|destruct (peers l (t_to t))|destruct (clients l (t_to t))]; try destruct b; injection R2 as <- _; reflexivity.
Qed.
Print Assumptions C104_reason_partial.

(** When the loops are idle: reported or sent, not both. *)
Corollary C104_settled_partial : forall l s tr, run (LReg :: l) init = Some (s, tr) -> ~ In LFatal l -> (forall t, In t (issued tr) -> not_client t) ->
  s_disp s = [] -> s_user s = [] ->
  forall t, In t (issued tr) ->
    (In t (sent tr) /\ (forall r, In r (told tr) -> r_no r <> t_no t)) \/
    (~ In t (sent tr) /\ exists e, filter (fun r => r_no r =? t_no t) (told tr) = [mkR e (t_id t) (t_no t)]).
Proof.
  intros l s tr R NF NC D U t T. destruct (C104_reports_partial l s tr R NF NC) as (rs & us & M & S & UU & P & _ & NU). rewrite D, app_nil_r in M.
  rewrite U in UU. destruct us; [|discriminate UU]. rewrite app_nil_r in P.
  assert (ND : NoDup (map t_no (map fst rs))).
  { rewrite M. apply NoDup_nth_error. intros i j Hi E. rewrite map_length in Hi. rewrite !nth_error_map in E.
    destruct (nth_error (issued tr) i) as [a|] eqn:A; [|apply nth_error_None in A; lia].
    destruct (nth_error (issued tr) j) as [b|] eqn:B; [|discriminate E]. cbn [option_map] in E. injection E as E.
    destruct (NU i a A) as (X & _). destruct (NU j b B) as (Y & _). congruence. }
  rewrite S, P. clear S P NU R D U UU NC NF s l. rewrite <- M in T. clear M.
  induction rs as [|[u o] rs IH]; [destruct T|]. cbn [map fst] in ND, T. inversion ND as [|? ? N1 N2]; subst.
  assert (FN : forall k, ~ In k (map t_no (map fst rs)) -> filter (fun r => r_no r =? k) (reports rs) = []).
  { clear. intros k N. induction rs as [|[v p] rs IH]; [reflexivity|]. unfold reports in *. cbn [flat_map snd fst]. cbn [map fst] in N.
    destruct p as [p|]; cbn [app filter r_no]; [|apply IH; intro Q; apply N; right; exact Q].
    destruct (t_no v =? k) eqn:Z; [apply Nat.eqb_eq in Z; exfalso; apply N; left; exact Z|]. apply IH. intro Q. apply N. right. exact Q. }
  assert (SN : forall v, In v (successes rs) -> In (t_no v) (map t_no (map fst rs))).
  { clear. intros v. induction rs as [|[w p] rs IH]; [intros []|]. unfold successes in *. cbn [flat_map snd fst map]. destruct p as [p|]; cbn [app].
    - intro I. right. apply IH. exact I.
    - intros [<-|I]; [left; reflexivity|right; apply IH; exact I]. }
  destruct (in_dec Nat.eq_dec (t_no t) (map t_no (map fst rs))) as [In'|Out].
  - assert (NE : t_no u <> t_no t) by (intro Q; apply N1; rewrite Q; exact In').
    destruct T as [->|T]; [contradiction NE; reflexivity|].
    specialize (IH T N2). unfold successes, reports in *. cbn [flat_map snd fst]. destruct IH as [(A & B)|(A & e & B)].
    + left. destruct o as [o|]; cbn [app].
      * split; [exact A|]. intros r [<-|I]; [exact NE|apply B; exact I].
      * split; [right; exact A|exact B].
    + right. destruct o as [o|]; cbn [app].
      * split; [exact A|]. exists e. cbn [filter r_no]. destruct (t_no u =? t_no t) eqn:Z; [apply Nat.eqb_eq in Z; contradiction|]. exact B.
      * split; [intros [<-|Q]; [apply NE; reflexivity|exact (A Q)]|]. exists e. exact B.
  - assert (u = t) as -> by (destruct T as [Q|Q]; [exact Q|exfalso; apply Out; apply in_map; exact Q]).
    specialize (FN _ Out). unfold successes, reports in *. cbn [flat_map snd fst]. destruct o as [o|]; cbn [app].
    + right. split; [intro Q; apply Out; apply SN; exact Q|]. exists o. cbn [filter r_no]. rewrite Nat.eqb_refl. f_equal. exact FN.
    + left. split; [left; reflexivity|]. intros r I Q. assert (X : In r (filter (fun r => r_no r =? t_no t) (flat_map (fun x => match snd x with None => [] | Some e => [mkR e (t_id (fst x)) (t_no (fst x))] end) rs))).
      { apply filter_In. split; [exact I|]. apply Nat.eqb_eq. exact Q. }
      rewrite FN in X. destruct X.
Qed.

(** Clients: what is reported is an unknown address, and only then. *)
Theorem C104_client_partial : forall s t b, t_net t = NClient -> snd (body s t b) = if s_client s (t_to t) then None else Some (sal E_CLIENT).
Proof. intros s [n to id no] b N. cbn [t_net] in N. subst n. unfold body, send_client, send_conn. cbn [t_net t_to]. destruct (s_client s to); reflexivity. Qed.

(** A send to a client whose buffer is full: neither sent nor reported. *)
Theorem C104_client_refuted : exists l s tr t, run (LReg :: l) init = Some (s, tr) /\ s_disp s = [] /\ s_user s = [] /\
  In t (issued tr) /\ ~ In t (sent tr) /\ told tr = [].
Proof.
  exists [LClient 5 true; LCall NClient 5; LDisp false]. eexists _, _, _. split; [vm_compute; reflexivity|]. split; [reflexivity|]. split; [reflexivity|].
  split; [left; reflexivity|]. split; [intros []|reflexivity].
Qed.
(** After a fatal error nothing is reported any more. *)
Theorem C104_fatal_refuted : exists l s tr t, run (LReg :: l) init = Some (s, tr) /\ s_disp s = [] /\ s_user s = [] /\
  In t (issued tr) /\ not_client t /\ ~ In t (sent tr) /\ told tr = [] /\ In EFatal tr.
Proof.
  exists [LFatal; LUser; LCall NMsg 5; LDisp true]. eexists _, _, _. split; [vm_compute; reflexivity|]. split; [reflexivity|]. split; [reflexivity|].
  split; [left; reflexivity|]. split; [discriminate|]. split; [intros []|]. split; [reflexivity|left; reflexivity].
Qed.
Example C104_nonvacuous : exists s tr, run (LReg :: [LPeer 1 true; LCall NPeer 1; LCall NMsg 7; LCall NPeer 2; LDisp true; LDisp false; LDisp true; LUser; LUser]) init = Some (s, tr) /\
  s_disp s = [] /\ s_user s = [] /\ map t_id (issued tr) = [0%N; 1%N; 2%N] /\ map t_no (sent tr) = [0] /\
  told tr = [mkR (sal E_CONN) 1 1; mkR (sal E_PEER) 2 2] /\ (forall t, In t (issued tr) -> not_client t).
Proof.
  eexists _, _. split; [vm_compute; reflexivity|]. split; [reflexivity|]. split; [reflexivity|]. split; [reflexivity|]. split; [reflexivity|]. split; [reflexivity|].
  intros t [<-|[<-|[<-|[]]]]; discriminate.
Qed.
Print Assumptions C104_reports_partial.
Print Assumptions C104_settled_partial.
Print Assumptions C104_client_partial.
Print Assumptions C104_client_refuted.
Print Assumptions C104_fatal_refuted.

(** ** C105: the C functions that send tell whether the message was queued *)

(** The answer is always false if the message was not queued for want of a
    receiver, and right whenever the connection takes the message; over a
    connection it is always right. *)
Theorem C105_answer_partial : forall n s to b, exists r, c_send n s to b = CRet r /\ (r = false -> queued n s to b = false) /\
  (b = true -> r = queued n s to b) /\ (n = NMsg -> r = queued n s to b).
Proof.
  intros n s to b. destruct n; cbn [c_send queued]; unfold send_conn, send_peer, send_client.
  - exists b. split; [reflexivity|]. split; [intro E; exact E|]. split; reflexivity.
  - destruct (s_peer s to); eexists; (split; [reflexivity|]); (split; [first [discriminate|reflexivity]|]); (split; [intros ->; reflexivity|discriminate]).
  - destruct (s_client s to); eexists; (split; [reflexivity|]); (split; [first [discriminate|reflexivity]|]); (split; [intros ->; reflexivity|discriminate]).
Qed.
Theorem C105_peer_refuted : exists s to, c_send NPeer s to false = CRet true /\ queued NPeer s to false = false.
Proof. exists (mkS 0 0 (fun _ => true) (fun _ => true) [] [] false false), 0. split; reflexivity. Qed.
Theorem C105_client_refuted : exists s to, c_send NClient s to false = CRet true /\ queued NClient s to false = false.
Proof. exists (mkS 0 0 (fun _ => true) (fun _ => true) [] [] false false), 0. split; reflexivity. Qed.
Example C105_nonvacuous : let s := mkS 0 0 (fun p => p =? 1) (fun p => p =? 2) [] [] false false in
  c_send NPeer s 2 true = CRet false /\ c_send NPeer s 1 true = CRet true /\ c_send NMsg s 9 false = CRet false /\ c_send NClient s 2 true = CRet true.
Proof. cbn zeta. split; [reflexivity|]. split; [reflexivity|]. split; reflexivity. Qed.
Print Assumptions C105_answer_partial.
Print Assumptions C105_peer_refuted.
Print Assumptions C105_client_refuted.

(** ** C106: no exception leaves a C function *)

Definition escapes (f : cfun) : Prop := exists e x, In e (f_throws f) /\ c_call (f_guard f) (BThrow e) = GotEscape x.

Theorem C106_guarded_partial : forall f, In f capi -> f_guard f <> GNone -> ~ escapes f.
Proof.
  intros f F G (e & x & E & C). destruct (f_guard f) eqn:Q; [| |contradiction G; reflexivity].
  - destruct e; try discriminate C. cbn [c_call] in C.
    assert (X : forallb (fun f => forallb (fun e => match e with XAny => false | _ => true end) (f_throws f)) capi = true) by reflexivity.
    rewrite forallb_forall in X. specialize (X f F). rewrite forallb_forall in X. specialize (X _ E). discriminate X.
  - discriminate C.
Qed.
(** Exactly these let one through. *)
Local Open Scope string_scope.
Theorem C106_which_partial : forall f, In f capi -> (escapes f <-> In (f_name f)
  ["peernetwork_has_peer"; "peernetwork_conn_get_peer_addr"; "peernetwork_conn_get_peer_id"; "peerid_new_from_x509"; "peerid_new_from_netaddr";
   "x509_get_pubkey"; "x509_get_der"; "pkey_get_pubkey_der"; "pkey_get_privkey_der"; "uint256_unserialize"; "msg_consume_payload";
   "eventcontext_new"; "sigev_new"; "sigev_add"; "timerev_new"; "timerev_add"; "threadcall_new"; "mpscqueue_reg_handler"]).
Proof.
  intros f F.
  set (esc := fun f => match f_guard f, f_throws f with GNone, _ :: _ => true | _, _ => false end).
  assert (A : escapes f <-> esc f = true).
  { split.
    - intro H. destruct (f_guard f) eqn:Q.
      + exfalso. apply (C106_guarded_partial f F); [rewrite Q; discriminate|exact H].
      + exfalso. apply (C106_guarded_partial f F); [rewrite Q; discriminate|exact H].
      + unfold esc. rewrite Q. destruct H as (e & x & E & _). destruct (f_throws f); [destruct E|reflexivity].
    - unfold esc. destruct (f_guard f) eqn:Q; try discriminate. destruct (f_throws f) as [|e l] eqn:T; [discriminate|]. intros _.
      exists e, e. split; [rewrite T; left; reflexivity|]. rewrite Q. reflexivity. }
  rewrite A. clear A. revert f F.
  assert (B : forall f, In f capi -> esc f = existsb (String.eqb (f_name f))
    ["peernetwork_has_peer"; "peernetwork_conn_get_peer_addr"; "peernetwork_conn_get_peer_id"; "peerid_new_from_x509"; "peerid_new_from_netaddr";
     "x509_get_pubkey"; "x509_get_der"; "pkey_get_pubkey_der"; "pkey_get_privkey_der"; "uint256_unserialize"; "msg_consume_payload";
     "eventcontext_new"; "sigev_new"; "sigev_add"; "timerev_new"; "timerev_add"; "threadcall_new"; "mpscqueue_reg_handler"]).
  { apply Forall_forall. repeat constructor. }
  intros f F. rewrite (B f F), existsb_exists. split.
  - intros (x & X & Y). apply String.eqb_eq in Y. rewrite Y. exact X.
  - intro X. exists (f_name f). split; [exact X|apply String.eqb_refl].
Qed.
Theorem C106_refuted : exists f, In f capi /\ f_name f = "msg_consume_payload" /\ escapes f.
Proof.
  exists (mkF "msg_consume_payload" GNone [XStd]). split; [unfold capi; repeat (try (left; reflexivity); right)|]. split; [reflexivity|].
  exists XStd, XStd. split; [left; reflexivity|reflexivity].
Qed.
Example C106_nonvacuous : exists f, In f capi /\ f_name f = "x509_new_from_der" /\ f_guard f = GErr /\ f_throws f <> [].
Proof. exists (mkF "x509_new_from_der" GErr [sal E_X509]). split; [unfold capi; repeat (try (left; reflexivity); right)|]. split; [reflexivity|]. split; [reflexivity|discriminate]. Qed.
Print Assumptions C106_guarded_partial.
Print Assumptions C106_which_partial.
Print Assumptions C106_refuted.

(** ** C107: the error object says what happened *)

(** What the caller of a function with an error object learns. *)
Definition tells (b : bres) (g : got) : Prop :=
  match b, g with
  | BRet, GotRes (Some (c, o)) => c = 0 /\ o = Some 0
  | BThrow (XSal k os), GotNone (Some (c, o)) => c = k /\ c <> 0 /\ o = os /\ o <> None
  | BThrow XStd, GotNone (Some (c, o)) => c = E_UNKNOWN /\ o = Some 0
  | _, _ => False
  end.
Theorem C107_error_object : forall f, In f capi -> f_guard f = GErr ->
  tells BRet (c_call GErr BRet) /\ forall e, In e (f_throws f) -> tells (BThrow e) (c_call GErr (BThrow e)).
Proof.
  intros f F _. split; [split; reflexivity|]. intros e E.
  assert (X : forallb (fun f => forallb (fun e => match e with XAny => false | XStd => true | XSal c o => negb (Nat.eqb c 0) && match o with Some _ => true | None => false end end) (f_throws f)) capi = true)
    by reflexivity.
  rewrite forallb_forall in X. specialize (X f F). rewrite forallb_forall in X. specialize (X e E). destruct e as [c o| |]; cbn [c_call get_cerr tells].
  - apply andb_prop in X. destruct X as (X1 & X2). split; [reflexivity|]. split; [intros ->; discriminate X1|]. split; [reflexivity|]. intros ->. discriminate X2.
  - split; reflexivity.
  - discriminate X.
Qed.
(** And the error callback of the C interface, for deferred sends. *)
Definition plain (r : rep) : Prop := exists c, c_report (r_err r) = (c, Some 0) /\ (c = E_CONN \/ c = E_PEER \/ c = E_CLIENT).
Lemma plain_run l : forall s s' tr, (forall r, In (Some r) (s_user s) -> plain r) -> run l s = Some (s', tr) -> forall r, In r (told tr) -> plain r.
Proof.
  induction l as [|a l IH]; intros s s' tr P E r I; cbn [run] in E.
  - injection E as <- <-. destruct I.
  - destruct (step a s) as [[s1 f]|] eqn:S; [|discriminate E]. destruct (run l s1) as [[s2 g]|] eqn:R; [|discriminate E]. injection E as <- <-.
    rewrite told_app in I. apply in_app_or in I.
    assert (X : (forall r, In (Some r) (s_user s1) -> plain r) /\ forall r, In r (told f) -> plain r).
    { clear IH R I. destruct a; cbn [step] in S.
      - injection S as <- <-. split; [exact P|intros q []].
      - destruct (s_disp s) as [|t q]; [discriminate S|]. destruct (s_stop s); [injection S as <- <-; split; [exact P|intros v []]|].
        destruct (body_case s t b) as (ok & x & B & F & _). rewrite B in S. injection S as <- <-. split; [|intros v V; destruct ok; destruct V].
        intros v V. cbn [s_user] in V. apply in_app_or in V. destruct V as [V|V]; [apply P; exact V|]. destruct x as [x|]; [|destruct V]. destruct V as [V|[]]. injection V as <-.
        unfold fits in F. cbn [fst snd] in F. unfold plain. cbn [r_err]. destruct (t_net t); [subst x|destruct F; subst x|subst x]; eexists; (split; [reflexivity|]); auto.
      - destruct (s_user s) as [|v q] eqn:U; [discriminate S|]. injection S as <- <-. split; [intros w W; apply P; right; exact W|].
        destruct (s_cb s); [|intros w []]. destruct v as [v|]; [|intros w []]. intros w [<-|[]]. apply P. left. reflexivity.
      - injection S as <- <-. split; [exact P|intros q []].
      - injection S as <- <-. split; [exact P|intros q []].
      - injection S as <- <-. split; [|intros q []]. intros v V. cbn [s_user] in V. apply in_app_or in V. destruct V as [V|[V|[]]]; [apply P; exact V|discriminate V].
      - injection S as <- <-. split; [exact P|intros q []]. }
    destruct X as (X1 & X2). destruct I as [I|I]; [apply X2; exact I|]. exact (IH _ _ _ X1 R r I).
Qed.
Theorem C107_error_callback : forall l s tr r, run l init = Some (s, tr) -> In r (told tr) ->
  exists c, c_report (r_err r) = (c, Some 0) /\ (c = E_CONN \/ c = E_PEER \/ c = E_CLIENT).
Proof. intros l s tr r R I. refine (plain_run l init s tr _ R r I). intros q []. Qed.
(** Whatever error reaches the callback (of the network itself too, such as a
    failing accept()), it is not taken for success: the library's own keep their
    codes, all others are UNKNOWN. *)
Theorem C107_callback_any : forall e,
  match e with
  | XSal k os => c_report e = (k, os)
  | XStd | XAny => fst (c_report e) = E_UNKNOWN /\ fst (c_report e) <> 0 /\ snd (c_report e) = Some 0
  end.
Proof. intros [k os| |]; [reflexivity| |]; (split; [reflexivity|]; split; [discriminate|reflexivity]). Qed.
Example C107_nonvacuous : (exists f, In f capi /\ f_name f = "msgnetwork_new" /\ f_guard f = GErr /\ In XStd (f_throws f)) /\
  c_call GErr (BThrow (sal_os E_LISTEN 98)) = GotNone (Some (3, Some 98)).
Proof. split; [|reflexivity]. exists (mkF "msgnetwork_new" GErr conn_pool). split; [unfold capi; repeat (try (left; reflexivity); right)|]. split; [reflexivity|]. split; [reflexivity|]. cbn. tauto. Qed.
Print Assumptions C107_error_object.
Print Assumptions C107_error_callback.
Print Assumptions C107_callback_any.

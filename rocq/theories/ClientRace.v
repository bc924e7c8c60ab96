(** Sending to clients from any thread (network.h, ClientNetwork): C127.

    addr2conn (network.h 280) is a hash table without a lock.  The dispatcher
    changes it when a client's connection is set up or torn down; send_msg with
    an address looks it up in the thread of the caller, send_msg_deferred in the
    dispatcher's. *)
From Coq Require Import Arith List Bool Lia.
Import ListNotations.

(** D is the dispatcher, U n are threads of the user.  Addresses and connections
    are numbers. *)
Inductive tid := D | U (n : nat).
(** Model only: equality test. *)
Definition teq (a b : tid) : bool := match a, b with D, D => true | U i, U j => Nat.eqb i j | _, _ => false end.
Inductive instr :=
| KFind (a : nat)             (* addr2conn.find: an iterator, that is, a node *)
| KUse                        (* it->second *)
| KErase (a : nat)            (* addr2conn.erase: destroys the node *)
| KInsert (a c : nat).        (* addr2conn.insert: does nothing if there is one *)
Inductive op := OSetup (a c : nat) | OTear (a : nat) | OSend (a : nat).
Definition prog (o : op) : list instr :=
  match o with
  | OSetup a c => [KErase a; KInsert a c]     (* network.h 1373-1374 *)
  | OTear a => [KErase a]                     (* network.h 1381 *)
  | OSend a => [KFind a; KUse]                (* network.h 1410-1413 *)
  end.
Inductive res := Sent (c : nat) | NotExist | Done.
Record call := mkCall { k_op : op; k_rest : list instr; k_it : option nat; k_res : res }.
Record st := mkSt {
  s_tab : nat -> option nat;      (* the node of an address *)
  s_next : nat;                   (* nodes made so far *)
  s_live : nat -> bool;           (* nodes not destroyed *)
  s_conn : nat -> nat;            (* the connection in a node *)
  s_call : tid -> option call }.
Definition st0 : st := mkSt (fun _ => None) 0 (fun _ => false) (fun _ => 0) (fun _ => None).
Definition upd {A} (f : nat -> A) (n : nat) (x : A) : nat -> A := fun m => if Nat.eqb m n then x else f m.
Definition tupd {A} (f : tid -> A) (t : tid) (x : A) : tid -> A := fun u => if teq u t then x else f u.
Definition w_call t k s := mkSt (s_tab s) (s_next s) (s_live s) (s_conn s) (tupd (s_call s) t k).

(** One statement.  What a use of a destroyed node gives is not defined; the
    model goes on with what was there. *)
Definition exec (t : tid) (i : instr) (k : call) (s : st) : option st :=
  let next r := Some (mkCall (k_op k) (tl (k_rest k)) (k_it k) r) in
  match i with
  | KFind a => Some (match s_tab s a with
                     | Some p => w_call t (Some (mkCall (k_op k) (tl (k_rest k)) (Some p) (k_res k))) s
                     | None => w_call t (Some (mkCall (k_op k) [] None NotExist)) s      (* network.h 1411-1412: throws *)
                     end)
  | KUse => match k_it k with Some p => Some (w_call t (next (Sent (s_conn s p))) s) | None => None end
  | KErase a => Some (w_call t (next (k_res k)) (mkSt (upd (s_tab s) a None) (s_next s) (match s_tab s a with Some p => upd (s_live s) p false | None => s_live s end) (s_conn s) (s_call s)))
  | KInsert a c => Some (match s_tab s a with
                         | Some _ => w_call t (next (k_res k)) s
                         | None => w_call t (next (k_res k)) (mkSt (upd (s_tab s) a (Some (s_next s))) (1 + s_next s) (upd (s_live s) (s_next s) true) (upd (s_conn s) (s_next s) c) (s_call s))
                         end)
  end.
Inductive ev := EStart (t : tid) (o : op) | EStep (t : tid) | EEnd (t : tid).
Definition runs (t : tid) (o : op) : bool := match t, o with U _, OSend _ => true | U _, _ => false | D, _ => true end.
Definition begin (o : op) : call := mkCall o (prog o) None Done.
Definition out := (tid * op * res)%type.
Definition step (e : ev) (s : st) : option (st * list out) :=
  match e with
  | EStart t o => match s_call s t with None => if runs t o then Some (w_call t (Some (begin o)) s, []) else None | Some _ => None end
  | EStep t => match s_call s t with
               | Some k => match k_rest k with i :: _ => option_map (fun s' => (s', [])) (exec t i k s) | [] => None end
               | None => None
               end
  | EEnd t => match s_call s t with
              | Some k => match k_rest k with [] => Some (w_call t None s, [(t, k_op k, k_res k)]) | _ :: _ => None end
              | None => None
              end
  end.
(** A run: one event after the other; it stops where an event cannot happen.  Model only. *)
Fixpoint run (es : list ev) (s : st) : option (st * list out) :=
  match es with
  | [] => Some (s, [])
  | e :: es' => match step e s with Some (s', o) => option_map (fun x => (fst x, o ++ snd x)) (run es' s') | None => None end
  end.
(** A thread is about to use a node that was destroyed. *)
Definition dangling (s : st) (t : tid) : Prop := exists k p l, s_call s t = Some k /\ k_rest k = KUse :: l /\ k_it k = Some p /\ s_live s p = false.
(** The connection the table has for an address. *)
Definition conn_of (s : st) (a : nat) : option nat := option_map (s_conn s) (s_tab s a).

(** ** C127 *)
Definition C127_alive_full : Prop := forall es s o t, run es st0 = Some (s, o) -> ~ dangling s t.
Definition answer (o : op) (m : nat -> option nat) : res := match o with OSend a => match m a with Some c => Sent c | None => NotExist end | _ => Done end.
Definition effect (o : op) (m : nat -> option nat) : nat -> option nat :=
  match o with OSetup a c => upd m a (Some c) | OTear a => upd m a None | OSend _ => m end.

(** The client leaves while the user's thread sends to it. *)
Theorem C127_alive_refuted : exists es s o t, run es st0 = Some (s, o) /\ dangling s t.
Proof.
  exists [EStart D (OSetup 7 1); EStep D; EStep D; EEnd D; EStart (U 0) (OSend 7); EStep (U 0); EStart D (OTear 7); EStep D].
  eexists _, _, (U 0). split; [vm_compute; reflexivity|]. eexists _, _, _. split; [vm_compute; reflexivity|]. split; [reflexivity|]. split; reflexivity.
Qed.
Print Assumptions C127_alive_refuted.

(** A client that connects again: for a moment it is not in the table, although
    it is there before and after. *)
Theorem C127_moment_refuted : exists es1 s1 o1 es2 s2 o2 a, run es1 st0 = Some (s1, o1) /\ conn_of s1 a = Some 1 /\ run es2 s1 = Some (s2, o2) /\ conn_of s2 a = Some 2 /\
  In (EStart D (OSetup a 2)) es2 /\ ~ In (EStart D (OTear a)) es2 /\ In (U 0, OSend a, NotExist) o2.
Proof.
  exists [EStart D (OSetup 7 1); EStep D; EStep D; EEnd D]. eexists _, _.
  exists [EStart D (OSetup 7 2); EStep D; EStart (U 0) (OSend 7); EStep (U 0); EEnd (U 0); EStep D; EEnd D]. eexists _, _, 7.
  split; [vm_compute; reflexivity|]. split; [vm_compute; reflexivity|]. split; [vm_compute; reflexivity|]. split; [vm_compute; reflexivity|]. cbn. intuition discriminate.
Qed.
Print Assumptions C127_moment_refuted.

(** Sends by send_msg_deferred only: everything is done by the dispatcher.  The
    answers are right, the table is what the connections that came and went make
    of it, and no destroyed node is used.  Missing: send_msg. *)
Fixpoint finr (tab : nat -> option nat) (conn : nat -> nat) (l : list instr) (it : option nat) (r : res) : res :=
  match l with
  | [] => r
  | KFind a :: l' => match tab a with Some p => finr tab conn l' (Some p) r | None => NotExist end
  | KUse :: l' => match it with Some p => Sent (conn p) | None => r end
  | _ :: l' => r
  end.
Fixpoint finm (m : nat -> option nat) (l : list instr) (j : nat) : option nat :=
  match l with
  | [] => m j
  | KErase a :: l' => finm (fun i => if Nat.eqb i a then None else m i) l' j
  | KInsert a c :: l' => match m a with Some _ => finm m l' j | None => finm (upd m a (Some c)) l' j end
  | _ :: l' => finm m l' j
  end.
Lemma finm_ext l : forall m m' j, (forall i, m i = m' i) -> finm m l j = finm m' l j.
Proof.
  induction l as [|[a| |a|a c] l IH]; intros m m' j E; cbn [finm]; auto.
  - apply IH. intros i. destruct (Nat.eqb i a); auto.
  - rewrite <- E. destruct (m a); apply IH; [exact E|]. intros i. unfold upd. destruct (Nat.eqb i a); auto.
Qed.
Record Inv (s : st) : Prop := {
  v_live : forall a p, s_tab s a = Some p -> s_live s p = true;
  v_next : forall p, s_live s p = true -> p < s_next s;
  v_inj : forall a b p, s_tab s a = Some p -> s_tab s b = Some p -> a = b;
  v_shape : forall k, s_call s D = Some k -> (exists a c, k_rest k = [KErase a; KInsert a c]) \/ (exists a c, k_rest k = [KInsert a c]) \/ (exists a, k_rest k = [KErase a]) \/
    (exists a, k_rest k = [KFind a; KUse]) \/ (k_rest k = [KUse] /\ exists p, k_it k = Some p /\ s_live s p = true) \/ k_rest k = [] }.
Definition mine (e : ev) : bool := match e with EStart D _ | EStep D | EEnd D => true | _ => false end.

Lemma Inv0 : Inv st0.
Proof. constructor; cbn; discriminate. Qed.
Lemma inv_call s k : Inv s -> match k with None => True | Some k => (exists a c, k_rest k = [KErase a; KInsert a c]) \/ (exists a c, k_rest k = [KInsert a c]) \/ (exists a, k_rest k = [KErase a]) \/
    (exists a, k_rest k = [KFind a; KUse]) \/ (k_rest k = [KUse] /\ exists p, k_it k = Some p /\ s_live s p = true) \/ k_rest k = [] end -> Inv (w_call D k s).
Proof.
  intros V K. constructor; cbn [w_call s_tab s_live s_next s_call]; [exact (v_live s V)|exact (v_next s V)|exact (v_inj s V)|].
  intros k0. cbn [tupd teq]. intros ->. exact K.
Qed.
Lemma step_D e s s' o : Inv s -> mine e = true -> step e s = Some (s', o) ->
  Inv s' /\ match e with
  | EStep _ => exists k k', s_call s D = Some k /\ s_call s' D = Some k' /\ k_op k' = k_op k /\
      finr (s_tab s') (s_conn s') (k_rest k') (k_it k') (k_res k') = finr (s_tab s) (s_conn s) (k_rest k) (k_it k) (k_res k) /\ forall j, finm (conn_of s') (k_rest k') j = finm (conn_of s) (k_rest k) j
  | _ => True end.
Proof.
  intros V M X. destruct e as [[|n] op0|[|n]|[|n]]; try discriminate; cbn [step] in X; destruct (s_call s D) as [k|] eqn:E; try discriminate.
  - injection X as <- <-. split; [|exact I]. apply inv_call; [exact V|]. destruct op0; cbn; eauto 12.
  - destruct k as [ko kl ki kr]. pose proof (v_shape s V _ E) as SH. cbn [k_rest k_it] in *.
    assert (ERASE : forall a l, kl = KErase a :: l -> (exists c, l = [KInsert a c]) \/ l = [] -> option_map (fun s' => (s', @nil out)) (exec D (KErase a) (mkCall ko (KErase a :: l) ki kr) s) = Some (s', o) ->
      Inv s' /\ exists k k', Some (mkCall ko (KErase a :: l) ki kr) = Some k /\ s_call s' D = Some k' /\ k_op k' = k_op k /\
      finr (s_tab s') (s_conn s') (k_rest k') (k_it k') (k_res k') = finr (s_tab s) (s_conn s) (k_rest k) (k_it k) (k_res k) /\ forall j, finm (conn_of s') (k_rest k') j = finm (conn_of s) (k_rest k) j).
    { intros a l KL SL Y. cbn [exec option_map k_op k_rest k_it k_res tl] in Y. injection Y as <- <-. split.
      - apply inv_call; [|cbn [k_rest]; destruct SL as [(c & ->)| ->]; eauto 10]. constructor; cbn [s_tab s_live s_next s_call].
        + intros b p. unfold upd. destruct (Nat.eqb b a) eqn:B; [discriminate|]. intros Q. destruct (s_tab s a) as [q|] eqn:TA; [|apply (v_live s V b p Q)]. destruct (Nat.eqb p q) eqn:PQ; [|apply (v_live s V b p Q)].
          apply Nat.eqb_eq in PQ as ->. apply Nat.eqb_neq in B. destruct (B (v_inj s V _ _ _ Q TA)).
        + intros p. destruct (s_tab s a) as [q|]; [|apply (v_next s V)]. unfold upd. destruct (Nat.eqb p q); [discriminate|apply (v_next s V)].
        + intros b1 b2 p. unfold upd. destruct (Nat.eqb b1 a), (Nat.eqb b2 a); try discriminate. apply (v_inj s V).
        + intros k Q. rewrite E in Q. injection Q as <-. cbn [k_rest k_it]. destruct (v_shape s V _ E) as [H|[H|[H|[H|[(H & p & H2 & H3)|H]]]]]; cbn [k_rest k_it] in *; auto 10.
          rewrite KL in H. discriminate.
      - eexists _, _. split; [reflexivity|]. split; [reflexivity|]. split; [reflexivity|]. split; [destruct SL as [(c & ->)| ->]; reflexivity|].
        intros j. cbn [k_rest finm]. apply finm_ext. intros i. unfold conn_of. cbn [w_call s_tab s_conn]. unfold upd. destruct (Nat.eqb i a); reflexivity. }
    destruct SH as [(a & c & ->)|[(a & c & ->)|[(a & ->)|[(a & ->)|[(-> & p & -> & L)| -> ]]]]]; cbn [exec k_op k_rest k_it k_res tl option_map] in X; try discriminate.
    + apply (ERASE a [KInsert a c]); [reflexivity|eauto|exact X].
    + assert (FR : s_live s (s_next s) = false) by (destruct (s_live s (s_next s)) eqn:L; [apply (v_next s V) in L; lia|reflexivity]).
      injection X as <- <-. destruct (s_tab s a) as [p|] eqn:T.
      * split; [apply inv_call; [exact V|cbn; auto 10]|]. eexists _, _. split; [reflexivity|]. split; [reflexivity|]. split; [reflexivity|]. split; [reflexivity|]. intros j. unfold conn_of. cbn [k_rest finm w_call s_tab s_conn]. rewrite T. reflexivity.
      * split.
        -- apply inv_call; [|cbn; auto 10]. constructor; cbn [s_tab s_live s_next s_call].
           ++ intros b p. unfold upd. destruct (Nat.eqb b a); intros Q; [injection Q as <-; rewrite Nat.eqb_refl; reflexivity|]. destruct (Nat.eqb p (s_next s)); [reflexivity|]. apply (v_live s V b). exact Q.
           ++ intros p. unfold upd. destruct (Nat.eqb p (s_next s)) eqn:Q; [apply Nat.eqb_eq in Q; lia|]. intros L. apply (v_next s V) in L. lia.
           ++ assert (NEW : forall j, s_tab s j = Some (s_next s) -> False) by (intros j Q; apply (v_live s V) in Q; congruence).
              intros b1 b2 p. unfold upd. destruct (Nat.eqb b1 a) eqn:Q1, (Nat.eqb b2 a) eqn:Q2; intros A1 A2; try apply Nat.eqb_eq in Q1; try apply Nat.eqb_eq in Q2; try congruence.
              apply (v_inj s V _ _ p); assumption.
           ++ intros k Q. rewrite E in Q. injection Q as <-. cbn [k_rest k_it]. eauto.
        -- eexists _, _. split; [reflexivity|]. split; [reflexivity|]. split; [reflexivity|]. split; [reflexivity|]. intros j. unfold conn_of. cbn [k_rest finm w_call s_tab s_conn]. rewrite T. cbn [option_map]. unfold upd.
           destruct (Nat.eqb j a); [cbn [option_map]; rewrite Nat.eqb_refl; reflexivity|]. destruct (s_tab s j) as [q|] eqn:TJ; [|reflexivity]. cbn [option_map]. apply (v_live s V), (v_next s V) in TJ. replace (Nat.eqb q (s_next s)) with false by (symmetry; apply Nat.eqb_neq; lia). reflexivity.
    + apply (ERASE a []); [reflexivity|auto 10|exact X].
    + injection X as <- <-. destruct (s_tab s a) as [p|] eqn:T.
      * split; [apply inv_call; [exact V|]; cbn [k_rest k_it]; right; right; right; right; left; split; [reflexivity|]; exists p; split; [reflexivity|]; apply (v_live s V a p T)|].
        eexists _, _. split; [reflexivity|]. split; [reflexivity|]. split; [reflexivity|]. split; [cbn; rewrite T; reflexivity|reflexivity].
      * split; [apply inv_call; [exact V|]; cbn; auto 10|]. eexists _, _. split; [reflexivity|]. split; [reflexivity|]. split; [reflexivity|]. split; [cbn; rewrite T; reflexivity|reflexivity].
    + injection X as <- <-. split; [apply inv_call; [exact V|]; cbn; auto 10|]. eexists _, _. split; [reflexivity|]. split; [reflexivity|]. split; [reflexivity|]. split; reflexivity.
  - destruct (k_rest k); [|discriminate]. injection X as <- <-. split; [|exact I]. apply inv_call; [exact V|exact I].
Qed.

Lemma run_snoc a e s s' o : run (a ++ [e]) s = Some (s', o) -> exists s1 o1 o2, run a s = Some (s1, o1) /\ step e s1 = Some (s', o2) /\ o = o1 ++ o2.
Proof.
  revert s o. induction a as [|x a IH]; intros s o X; cbn [app run] in X.
  - destruct (step e s) as [(s1 & o1)|] eqn:E; [|discriminate]. cbn in X. injection X as <- <-. exists s, [], o1. rewrite app_nil_r. auto.
  - destruct (step x s) as [(s1 & o1)|] eqn:E; [|discriminate]. destruct (run (a ++ [e]) s1) as [(s2 & o2)|] eqn:R; [|discriminate]. cbn in X. injection X as <- <-.
    destruct (IH _ _ R) as (s3 & o3 & o4 & R1 & S & ->). exists s3, (o1 ++ o3), o4. cbn [run]. rewrite E, R1. cbn. rewrite app_assoc. auto.
Qed.
(** The answers and the table of a list of calls made one after the other. *)
Fixpoint answers (l : list op) (m : nat -> option nat) : list res := match l with [] => [] | o :: l' => answer o m :: answers l' (effect o m) end.
Fixpoint effects (l : list op) (m : nat -> option nat) : nat -> option nat := match l with [] => m | o :: l' => effects l' (effect o m) end.
Definition started (es : list ev) : list op := flat_map (fun e => match e with EStart _ o => [o] | _ => [] end) es.
Lemma answers_app l o m : answers (l ++ [o]) m = answers l m ++ [answer o (effects l m)].
Proof. revert m. induction l as [|x l IH]; intros m; cbn; [reflexivity|]. rewrite IH. reflexivity. Qed.
Lemma effects_app l o m : effects (l ++ [o]) m = effect o (effects l m).
Proof. revert m. induction l as [|x l IH]; intros m; cbn; [reflexivity|]. apply IH. Qed.
Lemma begin_r s o : finr (s_tab s) (s_conn s) (prog o) None Done = answer o (conn_of s).
Proof. destruct o as [a c|a|a]; cbn; try reflexivity. unfold conn_of. destruct (s_tab s a); reflexivity. Qed.
Lemma begin_m m o j : finm m (prog o) j = effect o m j.
Proof. destruct o as [a c|a|a]; cbn; try reflexivity. rewrite Nat.eqb_refl. cbn. unfold upd. destruct (Nat.eqb j a); reflexivity. Qed.

Theorem C127_deferred_partial : forall es s o, run es st0 = Some (s, o) -> forallb mine es = true ->
  (forall t, ~ dangling s t) /\
  (s_call s D = None -> map snd o = answers (started es) (fun _ => None) /\ map (fun x => snd (fst x)) o = started es /\ forall a, conn_of s a = effects (started es) (fun _ => None) a).
Proof.
  intros es s o R M.
  assert (G : Inv s /\ (forall n, s_call s (U n) = None) /\
    match s_call s D with
    | None => map snd o = answers (started es) (fun _ => None) /\ map (fun x => snd (fst x)) o = started es /\ forall a, conn_of s a = effects (started es) (fun _ => None) a
    | Some k => exists l, started es = l ++ [k_op k] /\ map snd o = answers l (fun _ => None) /\ map (fun x => snd (fst x)) o = l /\
        finr (s_tab s) (s_conn s) (k_rest k) (k_it k) (k_res k) = answer (k_op k) (effects l (fun _ => None)) /\ forall j, finm (conn_of s) (k_rest k) j = effects (started es) (fun _ => None) j
    end).
  { revert s o R M. induction es as [|e es IH] using rev_ind; intros s o R M; [cbn in R; injection R as <- <-; split; [exact Inv0|]; cbn; auto|].
    destruct (run_snoc _ _ _ _ _ R) as (s1 & o1 & o2 & R1 & S & ->). rewrite forallb_app in M. apply andb_prop in M as (M1 & M2). cbn [forallb] in M2. rewrite andb_true_r in M2.
    destruct (IH s1 o1 R1 M1) as (V & NU & H). destruct (step_D e s1 s o2 V M2 S) as (V' & K). split; [exact V'|].
    unfold started. rewrite flat_map_app. fold (started es). cbn [flat_map].
    destruct e as [[|n] op0|[|n]|[|n]]; try discriminate.
    - cbn [step] in S. destruct (s_call s1 D) eqn:E; [discriminate|]. injection S as <- <-. split; [exact NU|]. rewrite !app_nil_r. cbn [w_call s_call tupd teq app]. destruct H as (H1 & H2 & H3).
      exists (started es). split; [reflexivity|]. split; [exact H1|]. split; [exact H2|]. cbn [begin k_rest k_it k_res k_op w_call s_tab s_conn]. rewrite begin_r. split.
      + destruct op0; cbn [answer]; rewrite ?H3; reflexivity.
      + intros j. change (conn_of (w_call D (Some (begin op0)) s1)) with (conn_of s1). rewrite effects_app, begin_m. destruct op0; cbn [effect]; unfold upd; rewrite ?H3; reflexivity.
    - destruct K as (k & k' & E & E' & O & F1 & F2). rewrite E in H. rewrite E'. rewrite !app_nil_r.
      cbn [step] in S. rewrite E in S. destruct (k_rest k) as [|i kl] eqn:KL; [discriminate|]. destruct (exec D i k s1) as [s2|] eqn:Y; [|discriminate]. cbn in S. injection S as <- <-. rewrite app_nil_r. split.
      + intros n. destruct i; cbn [exec] in Y; repeat match goal with Y : context [match ?b with Some _ => _ | None => _ end] |- _ => destruct b; try discriminate end; injection Y as <-; exact (NU n).
      + destruct H as (l & A1 & A2 & A3 & A4 & A5). exists l. rewrite O. split; [exact A1|]. split; [exact A2|]. split; [exact A3|]. rewrite F1. split; [exact A4|]. intros j. rewrite F2. apply A5.
    - cbn [step] in S. destruct (s_call s1 D) as [k|] eqn:E; [|discriminate]. destruct (k_rest k) eqn:KL; [|discriminate]. injection S as <- <-. split; [exact NU|]. cbn [w_call s_call tupd teq]. rewrite !app_nil_r.
      destruct H as (l & A1 & A2 & A3 & A4 & A5). cbn [finr finm] in A4, A5. unfold out in *. rewrite !map_app, A2, A3, A1, answers_app. cbn [map fst snd]. rewrite A4. split; [reflexivity|]. split; [reflexivity|]. intros j. rewrite <- A1. exact (A5 j). }
  destruct G as (V & NU & H). split.
  - intros t (k & p & l & E & L & I & Q). destruct t as [|n]; [|rewrite NU in E; discriminate]. destruct (v_shape s V k E) as [(a & c & H1)|[(a & c & H1)|[(a & H1)|[(a & H1)|[(H1 & p' & H2 & H3)|H1]]]]]; rewrite L in H1; try discriminate. rewrite I in H2. injection H2 as <-. congruence.
  - intros E. rewrite E in H. exact H.
Qed.
Print Assumptions C127_deferred_partial.
Example C127_nonvacuous : let es := [EStart D (OSetup 7 1); EStep D; EStep D; EEnd D; EStart D (OSend 7); EStep D; EStep D; EEnd D; EStart D (OTear 7); EStep D; EEnd D; EStart D (OSend 7); EStep D; EEnd D] in
  forallb mine es = true /\ option_map snd (run es st0) = Some [(D, OSetup 7 1, Done); (D, OSend 7, Sent 1); (D, OTear 7, Done); (D, OSend 7, NotExist)].
Proof. split; vm_compute; reflexivity. Qed.

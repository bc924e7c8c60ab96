(** C122, C123: handlers that throw or register handlers (HandModel). *)
From Coq Require Import Arith List Bool Lia.
From Verif Require Import HandModel.
Import ListNotations.

(** ** Specification *)

(** Messages in the order they came, messages handled or skipped. *)
Definition came (es : list ev) : list msg := flat_map (fun e => match e with EMsg x => [x] | _ => [] end) es.
Definition done (l : list obs) : list msg := flat_map (fun o => match o with TCall _ x | TSkip x => [x] | _ => [] end) l.
Definition safe (l : list obs) : Prop := ~ In TCrash l /\ ~ In TUb l.
(** The handler registered last for an opcode. *)
Fixpoint latest (op : nat) (l : list obs) : option nat :=
  match l with
  | [] => None
  | TSet o h :: l => match latest op l with Some h' => Some h' | None => if o =? op then Some h else None end
  | _ :: l => latest op l
  end.
(** Every message goes to the handler registered last before it. *)
Definition routed (l : list obs) : Prop :=
  forall l1 o l2, l = l1 ++ o :: l2 ->
  match o with TCall h x => latest (m_op x) l1 = Some h | TSkip x => latest (m_op x) l1 = None | _ => True end.
(** Does handling this message throw. *)
Fixpoint throws (l : list act) : bool := match l with [] => false | AThrow _ :: _ => true | _ :: l => throws l end.
Definition fails (h : handler) (x : msg) : bool := match m_parse x with Some _ => true | None => throws (h_body h) end.
(** Each failure ends the connection of its message, and nothing else does: the
    terminations are those of the failed calls, in order. *)
Definition ended (l : list obs) : list nat := flat_map (fun o => match o with TTerm c => [c] | _ => [] end) l.
Definition failed (H : nat -> handler) (l : list obs) : list nat :=
  flat_map (fun o => match o with TCall h x => if fails (H h) x then [m_conn x] else [] | _ => [] end) l.
(** Handlers of reg_handler that throw only std::exceptions and do not register
    for opcode [op]. *)
Definition std_only (l : list act) : Prop := forall e, In (AThrow e) l -> e = XStd.
Definition not_itself (op : nat) (l : list act) : Prop := forall h, ~ In (ASet op h) l.
(** Nothing that is registered, by the user or by handlers, registers for the opcode it is registered for. *)
Definition tame (H : nat -> handler) : Prop := forall h, h_typed (H h) = true /\ std_only (h_body (H h)).
Definition modest (H : nat -> handler) (l : list obs) : Prop := forall op h, In (TSet op h) l -> not_itself op (h_body (H h)).
Definition std_parse (es : list ev) : Prop := forall x, In (EMsg x) es -> m_parse x = None \/ m_parse x = Some XStd.

(** ** Proofs *)
Lemma find_assign op o h m : find op (assign o h m) = if o =? op then Some h else find op m.
Proof.
  unfold assign. cbn [find]. destruct (Nat.eqb_spec o op) as [->|N]; [reflexivity|]. induction m as [|(a & b) m IH]; cbn; [reflexivity|].
  destruct (Nat.eqb_spec a o) as [->|N2]; cbn; [destruct (Nat.eqb_spec o op); [congruence|exact IH]|]. destruct (a =? op); [reflexivity|exact IH].
Qed.
Lemma latest_app op l1 l2 : latest op (l1 ++ l2) = match latest op l2 with Some h => Some h | None => latest op l1 end.
Proof.
  induction l1 as [|a l1 IH]; cbn [app latest]; [destruct (latest op l2); reflexivity|].
  destruct a; try exact IH. rewrite IH. destruct (latest op l2); reflexivity.
Qed.

Section P.
Variable H : nat -> handler.

(** A body only registers, and at the end fails or not. *)
Definition sets (l : list obs) : Prop := forall o, In o l -> (exists op h, o = TSet op h) \/ o = TUb.
Lemma body_map op : forall l alive m m' t x, body op alive l m = (m', t, x) -> sets t /\ forall o, find o m' = match latest o t with Some h => Some h | None => find o m end.
Proof.
  induction l as [|a l IH]; intros alive m m' t x E; cbn [body] in E.
  - injection E as <- <- <-. split; [intros o []|reflexivity].
  - destruct a as [o h| |e].
    + destruct (body op (alive && negb (o =? op)) l (assign o h m)) as ((m1 & t1) & x1) eqn:B. injection E as <- <- <-. destruct (IH _ _ _ _ _ B) as (S1 & F1). split.
      * intros y [<-|I]; [left; eauto|exact (S1 y I)].
      * intros o'. rewrite F1. cbn [latest]. destruct (latest o' t1); [reflexivity|]. rewrite find_assign. destruct (o =? o'); reflexivity.
    + destruct alive; [exact (IH _ _ _ _ _ E)|]. injection E as <- <- <-. split; [intros o [<-|[]]; right; reflexivity|reflexivity].
    + injection E as <- <- <-. split; [intros o []|reflexivity].
Qed.
Lemma body_tame op : forall l m m' t x, body op true l m = (m', t, x) -> std_only l -> not_itself op l ->
  ~ In TUb t /\ x = if throws l then Some (XStd, true) else None.
Proof.
  induction l as [|a l IH]; intros m m' t x E S N; cbn [body throws] in *.
  - injection E as <- <- <-. split; [intros []|reflexivity].
  - assert (S' : std_only l) by (intros e I; apply S; right; exact I). assert (N' : not_itself op l) by (intros h I; apply (N h); right; exact I). destruct a as [o h| |e].
    + assert (NO : (o =? op) = false) by (apply Nat.eqb_neq; intros ->; apply (N h); left; reflexivity). rewrite NO in E. cbn [andb negb] in E.
      destruct (body op true l (assign o h m)) as ((m1 & t1) & x1) eqn:B. injection E as <- <- <-. destruct (IH _ _ _ _ B S' N') as (U & X). split; [intros [I|I]; [discriminate|exact (U I)]|exact X].
    + exact (IH _ _ _ _ E S' N').
    + injection E as <- <- <-. rewrite (S e (or_introl eq_refl)). split; [intros []|reflexivity].
Qed.

(** What handling a message adds to the history. *)
Lemma handle_map x m m' t : handle H x m = (m', t) ->
  exists t', (t = TSkip x :: t' /\ find (m_op x) m = None \/ exists h, t = TCall h x :: t' /\ find (m_op x) m = Some h) /\
  (forall o, In o t' -> match o with TCall _ _ | TSkip _ => False | _ => True end) /\ forall o, find o m' = match latest o t' with Some h => Some h | None => find o m end.
Proof.
  unfold handle. destruct (find (m_op x) m) as [h|] eqn:F.
  2: { intros E. injection E as <- <-. exists []. split; [left; auto|]. split; [intros o []|reflexivity]. }
  destruct (match h_typed (H h) with true => _ | false => _ end) as ((m1 & t1) & r) eqn:B. intros E. injection E as <- <-.
  assert (P : sets t1 /\ forall o, find o m1 = match latest o t1 with Some h => Some h | None => find o m end).
  { destruct (h_typed (H h)); [destruct (m_parse x)|]; try (exact (body_map _ _ _ _ _ _ _ B)). injection B as <- <- <-. split; [intros o []|reflexivity]. }
  clear B. destruct P as (P1 & P2). eexists. split; [right; exists h; split; reflexivity|]. split.
  - intros o I. apply in_app_or in I as [I|I]; [destruct (P1 o I) as [(? & ? & ->)| ->]; exact Logic.I|].
    destruct r as [[[|] al]|]; [destruct (h_typed (H h)); [destruct al|]| |]; cbn [In] in I; intuition (subst; exact Logic.I).
  - intros o. rewrite latest_app. replace (latest o (match r with Some _ => _ | None => [] end)) with (@None nat); [apply P2|].
    destruct r as [[[|] al]|]; [destruct (h_typed (H h)); [destruct al|]| |]; reflexivity.
Qed.

Definition latest_none (o : obs) : Prop := match o with TSet _ _ => False | _ => True end.
Definition HI (es : list ev) (s : st) : Prop :=
  came es = done (s_log s) ++ s_q s /\ routed (s_log s) /\ forall o, find o (s_map s) = latest o (s_log s).

Lemma done_none l : (forall o, In o l -> match o with TCall _ _ | TSkip _ => False | _ => True end) -> done l = [].
Proof. induction l as [|a l IH]; intros N; [reflexivity|]. unfold done in *. cbn [flat_map]. pose proof (N a (or_introl eq_refl)) as X. rewrite IH by (intros o I; apply N; right; exact I). destruct a; try reflexivity; destruct X. Qed.
Lemma done_app l m : done (l ++ m) = done l ++ done m.
Proof. apply flat_map_app. Qed.
Definition good_after (l : list obs) (o : obs) : Prop :=
  match o with TCall h x => latest (m_op x) l = Some h | TSkip x => latest (m_op x) l = None | _ => True end.
Lemma last_split (A : Type) (l l1 l2 : list A) a b : l ++ [a] = l1 ++ b :: l2 -> l = l1 /\ a = b /\ l2 = [] \/ exists l2', l2 = l2' ++ [a] /\ l = l1 ++ b :: l2'.
Proof.
  destruct l2 as [|w l2 _] using rev_ind; intros E.
  - left. apply app_inj_tail in E as (-> & ->). auto.
  - right. rewrite app_comm_cons, app_assoc in E. apply app_inj_tail in E as (-> & ->). eauto.
Qed.
Lemma routed_snoc l o : routed l -> good_after l o -> routed (l ++ [o]).
Proof. intros R G l1 y l2 E. apply last_split in E as [(<- & <- & _)|(l2' & -> & E)]; [exact G|exact (R _ _ _ E)]. Qed.
Lemma routed_quiet t : (forall o, In o t -> match o with TCall _ _ | TSkip _ => False | _ => True end) -> forall l, routed l -> routed (l ++ t).
Proof.
  induction t as [|o t IH]; intros N l R; [rewrite app_nil_r; exact R|].
  replace (l ++ o :: t) with ((l ++ [o]) ++ t) by (rewrite <- app_assoc; reflexivity).
  apply IH; [intros y I; apply N; right; exact I|]. apply routed_snoc; [exact R|]. pose proof (N o (or_introl eq_refl)) as X. destruct o; try exact Logic.I; destruct X.
Qed.

Lemma HI0 : HI [] st0.
Proof. split; [reflexivity|]. split; [|reflexivity]. intros l1 o l2 E. destruct l1; discriminate. Qed.
Lemma came_app a b : came (a ++ b) = came a ++ came b.
Proof. apply flat_map_app. Qed.
Lemma HI_step es e s s' : HI es s -> step H e s = Some s' -> HI (es ++ [e]) s'.
Proof.
  intros (C & R & F) S. unfold step in S. destruct (s_dead s); [discriminate|]. unfold HI. rewrite came_app, C. destruct e as [op h|x|].
  - injection S as <-. cbn [s_log s_q s_map came flat_map]. rewrite app_nil_r. split; [rewrite done_app; cbn; rewrite app_nil_r; reflexivity|]. split.
    + apply routed_snoc; [exact R|exact Logic.I].
    + intros o. rewrite find_assign, latest_app, F. cbn [latest]. destruct (op =? o); reflexivity.
  - injection S as <-. cbn [s_log s_q s_map came flat_map app]. rewrite app_assoc. auto.
  - destruct (s_q s) as [|x q] eqn:Q; [discriminate|]. destruct (handle H x (s_map s)) as (m & t) eqn:E. injection S as <-. cbn [s_log s_q s_map came flat_map app]. rewrite app_nil_r.
    destruct (handle_map _ _ _ _ E) as (t' & T & N & FM).
    assert (G : exists o, t = o :: t' /\ good_after (s_log s) o /\ done [o] = [x] /\ latest_none o).
    { destruct T as [(-> & Fi)|(h & -> & Fi)]; eexists; (split; [reflexivity|]); (split; [cbn [good_after]; rewrite <- F; exact Fi|split; [reflexivity|exact Logic.I]]). }
    destruct G as (o & -> & G & D & LN). split.
    + rewrite done_app. change (o :: t') with ([o] ++ t'). rewrite done_app, D, (done_none t' N), app_nil_r, <- app_assoc. reflexivity.
    + change (o :: t') with ([o] ++ t'). rewrite app_assoc. split; [apply routed_quiet; [exact N|]; apply routed_snoc; assumption|].
      intros p. rewrite FM, !latest_app, F. destruct o; destruct LN; reflexivity.
Qed.
Lemma HI_run es s : run H es st0 = Some s -> HI es s.
Proof.
  intros E. pose proof HI0 as I. change es with ([] ++ es). revert I E. generalize (@nil ev) at 1 2, st0. intros p s0. revert p s0. induction es as [|e es IH]; intros p s0 I E; cbn [run] in E.
  - injection E as <-. rewrite app_nil_r. exact I.
  - destruct (step H e s0) as [s1|] eqn:S; [|discriminate]. replace (p ++ e :: es) with ((p ++ [e]) ++ es) by (rewrite <- app_assoc; reflexivity). exact (IH _ _ (HI_step _ _ _ _ I S) E).
Qed.

(** Handling in a tame program. *)
Lemma sets_none t : sets t -> ~ In TUb t -> ended t = [] /\ failed H t = [] /\ ~ In TCrash t.
Proof.
  induction t as [|a t IH]; intros S U; [split; [|split]; auto|]. destruct IH as (A & B & C); [intros o I; apply S; right; exact I|intros I; apply U; right; exact I|].
  destruct (S a (or_introl eq_refl)) as [(op & h & ->)| ->]; [|destruct U; left; reflexivity]. split; [exact A|split; [exact B|]]. intros [E|I]; [discriminate|exact (C I)].
Qed.
Lemma ended_app a b : ended (a ++ b) = ended a ++ ended b.
Proof. apply flat_map_app. Qed.
Lemma failed_app a b : failed H (a ++ b) = failed H a ++ failed H b.
Proof. apply flat_map_app. Qed.
Lemma handle_tame x m m' t : handle H x m = (m', t) -> tame H -> (forall h, find (m_op x) m = Some h -> not_itself (m_op x) (h_body (H h))) -> m_parse x = None \/ m_parse x = Some XStd ->
  safe t /\ ended t = failed H t.
Proof.
  unfold handle. intros E T N X. destruct (find (m_op x) m) as [h|] eqn:F.
  2: { injection E as <- <-. split; [split; intros [Y|[]]; discriminate|reflexivity]. }
  specialize (N h eq_refl). destruct (T h) as (TY & SO). rewrite TY in E.
  destruct X as [X|X]; rewrite X in E.
  - destruct (body (m_op x) true (h_body (H h)) m) as ((m1 & t1) & r) eqn:B. injection E as <- <-. destruct (body_tame _ _ _ _ _ _ B SO N) as (U & R). destruct (body_map _ _ _ _ _ _ _ B) as (S & _).
    destruct (sets_none _ S U) as (A1 & A2 & A3). subst r. change (TCall h x :: t1 ++ ?r) with ([TCall h x] ++ t1 ++ r). rewrite !ended_app, !failed_app, A1, A2. cbn [ended failed flat_map app]. unfold fails. rewrite X.
    split.
    + destruct (throws (h_body (H h))); split; (intros [I|I]; [discriminate|]); apply in_app_or in I as [I|I]; try (exact (A3 I)); try (exact (U I)); cbn [In] in I; intuition discriminate.
    + destruct (throws (h_body (H h))); reflexivity.
  - injection E as <- <-. cbn [app ended failed flat_map]. unfold fails. rewrite X. split; [split; intros [I|[I|[]]]; discriminate|reflexivity].
Qed.
Lemma latest_in o l h : latest o l = Some h -> In (TSet o h) l.
Proof.
  induction l as [|a l IH]; cbn [latest]; [discriminate|]. destruct a; try (intros E; right; exact (IH E)).
  destruct (latest o l) as [h'|]; [intros E; right; apply IH; exact E|]. destruct (Nat.eqb_spec op o) as [->|]; [|discriminate]. intros E. injection E as ->. left. reflexivity.
Qed.
Lemma safe_app a b : safe a -> safe b -> safe (a ++ b).
Proof. intros (A & B) (C & D). split; intros I; apply in_app_or in I as [I|I]; auto. Qed.

(** What a run of a modest program adds. *)
Lemma modest_find es s x h : HI es s -> modest H (s_log s) -> find (m_op x) (s_map s) = Some h -> not_itself (m_op x) (h_body (H h)).
Proof. intros (_ & _ & F) M E. rewrite F in E. exact (M _ _ (latest_in _ _ _ E)). Qed.
Lemma step_log e s s' : step H e s = Some s' -> exists t, s_log s' = s_log s ++ t.
Proof.
  unfold step. destruct (s_dead s); [discriminate|]. destruct e.
  - intros E. injection E as <-. cbn [s_log]. eauto.
  - intros E. injection E as <-. cbn [s_log]. exists []. rewrite app_nil_r. reflexivity.
  - destruct (s_q s) as [|x q]; [discriminate|]. destruct (handle H x (s_map s)) as (m & t). intros E. injection E as <-. cbn [s_log]. eauto.
Qed.
Lemma run_log es : forall s s', run H es s = Some s' -> exists t, s_log s' = s_log s ++ t.
Proof.
  induction es as [|e es IH]; intros s s' E; cbn [run] in E; [injection E as <-; exists []; rewrite app_nil_r; reflexivity|].
  destruct (step H e s) as [s1|] eqn:S; [|discriminate]. destruct (step_log _ _ _ S) as (t & T). destruct (IH _ _ E) as (t' & T'). exists (t ++ t'). rewrite T', T, app_assoc. reflexivity.
Qed.
Lemma modest_prefix l t : modest H (l ++ t) -> modest H l.
Proof. intros M op h I. apply M. apply in_or_app. auto. Qed.
Lemma q_came es s x : HI es s -> In x (s_q s) -> In (EMsg x) es.
Proof.
  intros (C & _) I. assert (J : In x (came es)) by (rewrite C; apply in_or_app; auto). unfold came in J. apply in_flat_map in J as (e & J & K). destruct e as [op h|y|]; cbn [In] in K; [destruct K| |destruct K]. destruct K as [-> |[]]. exact J.
Qed.

Lemma run_induct (P : list obs -> Prop) : P [] -> (forall l op h, P l -> P (l ++ [TSet op h])) ->
  forall es s, run H es st0 = Some s ->
  (forall es1 s1 x q m t, run H es1 st0 = Some s1 -> s_q s1 = x :: q -> In (EMsg x) es -> handle H x (s_map s1) = (m, t) -> P (s_log s1) -> (exists t', s_log s = (s_log s1 ++ t) ++ t') -> P (s_log s1 ++ t)) -> P (s_log s).
Proof.
  intros P0 PS es. induction es as [|e es IH] using rev_ind; intros s E PH; [injection E as <-; exact P0|].
  assert (A : exists s1, run H es st0 = Some s1 /\ step H e s1 = Some s).
  { clear - E. revert E. generalize st0. induction es as [|a es IH]; intros z E; cbn [run app] in *.
    - exists z. split; [reflexivity|]. destruct (step H e z); [exact E|discriminate].
    - destruct (step H a z) as [z1|]; [exact (IH _ E)|discriminate]. }
  destruct A as (s1 & R & S). destruct (step_log _ _ _ S) as (tl & L).
  assert (P1 : P (s_log s1)).
  { apply IH; [exact R|]. intros es1 s2 x q m t R2 Q2 I2 H2 P2 (t' & T'). refine (PH es1 s2 x q m t R2 Q2 _ H2 P2 _); [apply in_or_app; auto|]. exists (t' ++ tl). rewrite L, T', !app_assoc. reflexivity. }
  pose proof (HI_run _ _ R) as HIs. pose proof S as S0. unfold step in S. destruct (s_dead s1); [discriminate|]. destruct e as [op h|x|].
  - injection S as <-. apply PS. exact P1.
  - injection S as <-. exact P1.
  - destruct (s_q s1) as [|x q] eqn:Q; [discriminate|]. destruct (handle H x (s_map s1)) as (m & t) eqn:E1. injection S as <-. cbn [s_log]. refine (PH es s1 x q m t R Q _ E1 P1 _); [|exists []; rewrite app_nil_r; reflexivity].
    apply in_or_app. left. apply (q_came _ _ x HIs). rewrite Q. left. reflexivity.
Qed.

Lemma body_modest op : forall l m m' t x, body op true l m = (m', t, x) -> not_itself op l -> ~ In TUb t /\ forall e a, x = Some (e, a) -> a = true.
Proof.
  induction l as [|a l IH]; intros m m' t x E N; cbn [body] in *.
  - injection E as <- <- <-. split; [intros []|discriminate].
  - assert (N' : not_itself op l) by (intros h I; apply (N h); right; exact I). destruct a as [o h| |e].
    + assert (NO : (o =? op) = false) by (apply Nat.eqb_neq; intros ->; apply (N h); left; reflexivity). rewrite NO in E. cbn [andb negb] in E.
      destruct (body op true l (assign o h m)) as ((m1 & t1) & x1) eqn:B. injection E as <- <- <-. destruct (IH _ _ _ _ B N') as (U & X). split; [intros [I|I]; [discriminate|exact (U I)]|exact X].
    + exact (IH _ _ _ _ E N').
    + injection E as <- <- <-. split; [intros []|]. intros e' a X. injection X as _ <-. reflexivity.
Qed.
Lemma handle_modest x m m' t : handle H x m = (m', t) -> (forall h, find (m_op x) m = Some h -> not_itself (m_op x) (h_body (H h))) -> ~ In TUb t.
Proof.
  unfold handle. intros E N. destruct (find (m_op x) m) as [h|] eqn:F; [|injection E as <- <-; intros [Y|[]]; discriminate]. specialize (N h eq_refl).
  assert (B : exists m1 t1 r, (match h_typed (H h), m_parse x with true, Some e => (m, [], Some (e, true)) | _, _ => body (m_op x) true (h_body (H h)) m end) = (m1, t1, r) /\ ~ In TUb t1 /\ forall e a, r = Some (e, a) -> a = true).
  { destruct (h_typed (H h)); [destruct (m_parse x) as [e|]|].
    1: { do 3 eexists. split; [reflexivity|]. split; [intros []|]. intros e' a X. injection X as _ <-. reflexivity. }
    all: destruct (body (m_op x) true (h_body (H h)) m) as ((m1 & t1) & r) eqn:B; do 3 eexists; (split; [reflexivity|]); exact (body_modest _ _ _ _ _ _ B N). }
  destruct B as (m1 & t1 & r & B & U & A). rewrite B in E. injection E as <- <-. intros [I|I]; [discriminate|]. apply in_app_or in I as [I|I]; [exact (U I)|].
  destruct r as [[[|] a]|]; [rewrite (A _ _ eq_refl) in I; destruct (h_typed (H h))| |]; cbn [In] in I; intuition discriminate.
Qed.
End P.

Lemma deadly_in t : existsb deadly t = true -> ~ safe t.
Proof. intros E (A & B). apply existsb_exists in E as (o & I & D). destruct o; try discriminate; auto. Qed.
Lemma alive_safe H es s : run H es st0 = Some s -> safe (s_log s) -> s_dead s = false.
Proof.
  destruct es as [|e es _] using rev_ind; intros R S; [injection R as <-; reflexivity|].
  assert (A : exists s1, step H e s1 = Some s).
  { clear - R. revert R. generalize st0. induction es as [|a es IH]; intros z E; cbn [run app] in *.
    - exists z. destruct (step H e z); [exact E|discriminate].
    - destruct (step H a z) as [z1|]; [exact (IH _ E)|discriminate]. }
  destruct A as (s1 & A). unfold step in A. destruct (s_dead s1); [discriminate|]. destruct e; [injection A as <-; reflexivity|injection A as <-; reflexivity|].
  destruct (s_q s1) as [|x q]; [discriminate|]. destruct (handle H x (s_map s1)) as (m & t). injection A as <-. cbn [s_log s_dead] in *.
  destruct (existsb deadly t) eqn:D; [|reflexivity]. destruct (deadly_in _ D). destruct S as (S1 & S2). split; intros I; [apply S1|apply S2]; apply in_or_app; auto.
Qed.

(** ** C122 *)

(** As a user would say it: whatever handlers do, the process goes on, the
    messages are handled in the order they came, and the connections ended are
    those whose message's handler threw. *)
Definition C122_contained_full : Prop := forall H es s, run H es st0 = Some s ->
  safe (s_log s) /\ ended (s_log s) = failed H (s_log s) /\ came es = done (s_log s) ++ s_q s /\
  (s_q s <> [] -> exists s', step H ETake s = Some s').

(** An exception that is not a std::exception, and any exception of a handler
    registered with set_handler, leave the event loop; the message of another
    connection behind it is never handled. *)
Definition XH (h : nat) : handler :=
  match h with 0 => mkH true [AThrow XOther] | 1 => mkH false [AThrow XStd] | 2 => mkH true [AThrow XStd] | 3 => mkH true [ASet 7 4; AThrow XStd] | 5 => mkH true [ASet 1 4; ATouch] | 6 => mkH true [ASet 1 4; AThrow XStd] | _ => mkH true [] end.
Theorem C122_contained_refuted : ~ C122_contained_full /\
  (exists es s, run XH es st0 = Some s /\ (forall op h, In (TSet op h) (s_log s) -> h = 0) /\ In TCrash (s_log s) /\ s_q s = [mkM 1 9 None] /\ forall e, step XH e s = None) /\
  (exists es s, run XH es st0 = Some s /\ (forall op h, In (TSet op h) (s_log s) -> h = 1) /\ In TCrash (s_log s) /\ s_q s = [mkM 1 9 None] /\ forall e, step XH e s = None).
Proof.
  assert (A : forall i, i < 2 -> exists es s, run XH es st0 = Some s /\ (forall op h, In (TSet op h) (s_log s) -> h = i) /\ In TCrash (s_log s) /\ s_q s = [mkM 1 9 None] /\ forall e, step XH e s = None).
  { intros i L. exists [EReg 1 i; EMsg (mkM 1 8 None); EMsg (mkM 1 9 None); ETake]. destruct i as [|[|i]]; [| |lia]; (eexists; split; [vm_compute; reflexivity|]); cbn [s_log s_q In];
      (split; [intros op h [E|[E|[E|[]]]]; try discriminate; injection E as _ <-; reflexivity|]); (split; [auto|]); (split; [reflexivity|intros e; reflexivity]). }
  split; [|split; apply A; lia]. intros C. destruct (A 0 ltac:(lia)) as (es & s & R & _ & I & _). exact (proj1 (proj1 (C _ _ _ R)) I).
Qed.

(** All handlers registered with reg_handler and throwing std::exceptions only,
    parsing likewise, none replacing itself while it runs: proved. *)
Theorem C122_contained_partial : forall H es s, run H es st0 = Some s -> tame H -> modest H (s_log s) -> std_parse es ->
  safe (s_log s) /\ ended (s_log s) = failed H (s_log s) /\ came es = done (s_log s) ++ s_q s /\
  (s_q s <> [] -> exists s', step H ETake s = Some s').
Proof.
  intros H es s R T M X. cut (safe (s_log s) /\ ended (s_log s) = failed H (s_log s)); [intros (A & B); split; [exact A|split; [exact B|split; [exact (proj1 (HI_run _ _ _ R))|]]]; intros Q; unfold step; rewrite (alive_safe _ _ _ R A); destruct (s_q s) as [|x q]; [destruct (Q eq_refl)|]; destruct (handle H x (s_map s)); eauto|].
  apply (run_induct H (fun l => safe l /\ ended l = failed H l)) with (es := es); [split; [split; intros []|reflexivity]| |exact R|].
  - intros l op h (S & E). split; [apply safe_app; [exact S|split; intros [I|[]]; discriminate]|]. rewrite ended_app, failed_app, E. reflexivity.
  - intros es1 s1 x q m t R1 Q1 I1 E1 (S & E) (t' & L). rewrite L in M. apply modest_prefix in M. apply modest_prefix in M.
    destruct (handle_tame H x _ _ _ E1 T (fun h F => modest_find H _ _ _ _ (HI_run _ _ _ R1) M F) (X x I1)) as (S' & E'). split; [exact (safe_app _ _ S S')|]. rewrite ended_app, failed_app, E, E'. reflexivity.
Qed.
Print Assumptions C122_contained_refuted.
Print Assumptions C122_contained_partial.

(** One handler throws, one registers another and throws, one message cannot be
    parsed, others are handled. *)
Example C122_nonvacuous : exists H es s, run H es st0 = Some s /\ tame H /\ modest H (s_log s) /\ std_parse es /\
  ended (s_log s) = [8; 6; 5] /\ length (done (s_log s)) = 5 /\ s_q s <> [].
Proof.
  exists (fun h => if h =? 2 then mkH true [AThrow XStd] else if h =? 3 then mkH true [ASet 7 4; AThrow XStd] else mkH true []).
  exists [EReg 1 2; EReg 2 3; EMsg (mkM 1 8 None); EMsg (mkM 7 7 None); EMsg (mkM 2 6 None); EMsg (mkM 7 5 (Some XStd)); ETake; ETake; ETake; ETake; EMsg (mkM 7 8 None); ETake; EMsg (mkM 1 1 None)].
  eexists. split; [vm_compute; reflexivity|]. split.
  { intros h. cbn. destruct (h =? 2); [|destruct (h =? 3)]; (split; [reflexivity|]); intros e I; cbn [h_body In] in I; intuition congruence. }
  split.
  { intros op h I g J. cbn [s_log In] in I.
    repeat (destruct I as [I|I]; [try discriminate I; injection I as <- <-; cbn in J; intuition discriminate|]). destruct I. }
  split; [intros x I; cbn [In] in I; repeat (destruct I as [I|I]; [try discriminate I; injection I as <-; auto|]); destruct I|].
  split; [reflexivity|]. split; [reflexivity|discriminate].
Qed.

(** ** C123 *)

Definition C123_registering_full : Prop := forall H es s, run H es st0 = Some s -> routed (s_log s) /\ ~ In TUb (s_log s).

(** Each message goes to the handler registered last before it is handled, by
    the user or by an earlier handler; it is skipped if there is none. *)
Theorem C123_routed : forall H es s, run H es st0 = Some s -> routed (s_log s).
Proof. intros H es s R. exact (proj1 (proj2 (HI_run _ _ _ R))). Qed.

(** A handler that replaces itself is destroyed while it runs. *)
Theorem C123_registering_refuted : ~ C123_registering_full /\
  (exists es s, run XH es st0 = Some s /\ s_log s = [TSet 1 5; TCall 5 (mkM 1 8 None); TSet 1 4; TUb]) /\
  (exists es s, run XH es st0 = Some s /\ s_log s = [TSet 1 6; TCall 6 (mkM 1 8 None); TSet 1 4; TUb]).
Proof.
  assert (A : exists es s, run XH es st0 = Some s /\ s_log s = [TSet 1 5; TCall 5 (mkM 1 8 None); TSet 1 4; TUb]) by (exists [EReg 1 5; EMsg (mkM 1 8 None); ETake]; eexists; split; [vm_compute; reflexivity|reflexivity]).
  split; [|split; [exact A|exists [EReg 1 6; EMsg (mkM 1 8 None); ETake]; eexists; split; [vm_compute; reflexivity|reflexivity]]].
  intros C. destruct A as (es & s & R & L). apply (proj2 (C _ _ _ R)). rewrite L. cbn [In]. auto.
Qed.

(** No handler registers for the opcode it is registered for: proved. *)
Theorem C123_registering_partial : forall H es s, run H es st0 = Some s -> modest H (s_log s) -> routed (s_log s) /\ ~ In TUb (s_log s).
Proof.
  intros H es s R M. split; [exact (C123_routed _ _ _ R)|].
  apply (run_induct H (fun l => ~ In TUb l)) with (es := es); [intros []| |exact R|].
  - intros l op h N I. apply in_app_or in I as [I|[I|[]]]; [exact (N I)|discriminate].
  - intros es1 s1 x q m t R1 Q1 I1 E1 N (t' & L) I. rewrite L in M. apply modest_prefix in M. apply modest_prefix in M. apply in_app_or in I as [I|I]; [exact (N I)|].
    exact (handle_modest H x _ _ _ E1 (fun h F => modest_find H _ _ _ _ (HI_run _ _ _ R1) M F) I).
Qed.
Print Assumptions C123_routed.
Print Assumptions C123_registering_refuted.
Print Assumptions C123_registering_partial.

(** A handler replaces that of another opcode, for a message already waiting,
    and goes on. *)
Example C123_nonvacuous : exists H es s, run H es st0 = Some s /\ modest H (s_log s) /\
  s_log s = [TSet 1 5; TSet 2 6; TSkip (mkM 3 8 None); TCall 5 (mkM 1 8 None); TSet 2 4; TSet 3 6; TCall 4 (mkM 2 7 None); TCall 6 (mkM 3 8 None)].
Proof.
  exists (fun h => if h =? 5 then mkH true [ASet 2 4; ATouch; ASet 3 6] else mkH true [ATouch]).
  exists [EReg 1 5; EReg 2 6; EMsg (mkM 3 8 None); EMsg (mkM 1 8 None); EMsg (mkM 2 7 None); EMsg (mkM 3 8 None); ETake; ETake; ETake; ETake].
  eexists. split; [vm_compute; reflexivity|]. split; [|reflexivity].
  intros op h I g J. cbn [s_log In] in I. repeat (destruct I as [I|I]; [try discriminate I; injection I as <- <-; cbn in J; intuition discriminate|]). destruct I.
Qed.

(** Whose connection a peer is given (C135): what a step does to connections and peers. *)
From Coq Require Import Arith NArith ZArith List Bool Lia.
From Verif Require Import PeerModel PeerInv PeerStep PeerRegProps.
Import ListNotations.

(** ** Specification *)

(** The other end of connection c has shown the identity i: by its certificate,
    or, where ids come from addresses, by being dialled at an address with that
    digest, or by claiming such an address in a ping. *)
Definition shows (hash : addr -> pid) (s : st) (o : list obs) (c : nat) (i : pid) : Prop :=
  match k_cert (s_conn s c) with
  | Some j => j = i
  | None => match k_mode (s_conn s c) with
            | Active => hash (k_addr (s_conn s c)) = i
            | Passive => exists a n, In (OExec (TPing (Some c) a n)) o /\ a <> 0%N /\ hash a = i
            end
  end.

(** Nothing ever was, nor will be, sent or received on c: it is over and was
    never set up.  So is the placeholder a new peer is given. *)
Definition mute (s : st) (c : nat) : Prop := k_set (s_conn s c) = false /\ k_torn (s_conn s c) = true.

(** ** Proofs *)

(** What never changes about a connection. *)
Definition attr (k : conn) := (k_mode k, k_addr k, k_cert k, k_manual k).
(** c is or will be reported as connected for p. *)
Definition reported (s : st) (o : list obs) (p c : nat) : Prop := In (OCb p c true) o \/ In (UCb p c true) (s_uq s).

Record still (s s' : st) (o' : list obs) : Prop := mkStill {
  t_at : forall c, c < s_nc s -> attr (s_conn s' c) = attr (s_conn s c);
  t_mute : forall c, c < s_nc s -> mute s c -> mute s' c;
  t_term : forall c, c < s_nc s -> k_term (s_conn s c) = true -> k_term (s_conn s' c) = true;
  t_nc : s_nc s <= s_nc s'; t_np : s_np s <= s_np s';
  t_id : forall p, p < s_np s -> p_id (s_peer s' p) = p_id (s_peer s p) }.

Definition same_conns (s s' : st) : Prop := forall p, p_conn (s_peer s' p) = p_conn (s_peer s p).
Definition fewer (s s' : st) : Prop := forall c, k_peer (s_conn s' c) = k_peer (s_conn s c) \/ k_peer (s_conn s' c) = None.
Definition nomove (o : list obs) : Prop := forall u c, ~ In (OMove u c) o.
Definition no_new (s s' : st) (o' : list obs) : Prop := forall p c, In (OCb p c true) o' \/ In (UCb p c true) (s_uq s') -> In (UCb p c true) (s_uq s).

Section K.
Variable hash : addr -> pid.

Inductive kind (s s' : st) (o' : list obs) : Prop :=
| K_quiet : same_conns s s' -> fewer s s' -> no_new s s' o' -> s_nc s' = s_nc s -> nomove o' -> kind s s' o'
| K_new : same_conns s s' -> (forall c, c < s_nc s -> s_conn s' c = s_conn s c) -> no_new s s' o' ->
    (forall p, k_peer (s_conn s' (s_nc s)) = Some p -> k_mode (s_conn s' (s_nc s)) = Active /\ k_manual (s_conn s' (s_nc s)) = false /\ In (ODial (p_id (s_peer s p)) (s_nc s) (k_addr (s_conn s' (s_nc s)))) o' /\ p < s_np s) -> s_nc s' = S (s_nc s) -> s_np s' = s_np s -> nomove o' -> kind s s' o'
| K_add : (forall p, p <> s_np s -> p_conn (s_peer s' p) = p_conn (s_peer s p)) -> p_conn (s_peer s' (s_np s)) = Some (s_nc s) ->
    (forall c, c <> s_nc s -> s_conn s' c = s_conn s c) -> mute s' (s_nc s) -> k_cert (s_conn s' (s_nc s)) = None -> no_new s s' o' -> s_np s' = S (s_np s) -> s_nc s' = S (s_nc s) -> nomove o' -> kind s s' o'
| K_fin p c u : p < s_np s -> c < s_nc s -> p_conn (s_peer s p) = Some u -> p_conn (s_peer s' p) = Some c -> (forall q, q <> p -> p_conn (s_peer s' q) = p_conn (s_peer s q)) ->
    (forall d, d <> c -> k_peer (s_conn s' d) = k_peer (s_conn s d) \/ k_peer (s_conn s' d) = None) -> k_peer (s_conn s' c) = Some p ->
    (forall o, shows hash s' (o ++ o') c (p_id (s_peer s' p))) ->
    (forall q d, In (OCb q d true) o' \/ In (UCb q d true) (s_uq s') -> In (UCb q d true) (s_uq s) \/ (q = p /\ d = c)) -> In (UCb p c true) (s_uq s') -> (exists o1, o' = o1 ++ [OMove u c] /\ nomove o1) -> s_nc s' = s_nc s -> k_term (s_conn s c) = false -> kind s s' o'.

Lemma mild_nocb p c b o : mild o -> ~ In (OCb p c b) o.
Proof. intros M I. exact (M _ I). Qed.

Lemma nn_same s s' o' : s_uq s' = s_uq s -> (forall p c b, ~ In (OCb p c b) o') -> no_new s s' o'.
Proof. intros E N p c [I|I]; [destruct (N _ _ _ I)|rewrite <- E; exact I]. Qed.

Lemma nonce_all g p s s1 n : get_nonce g p s = Some (s1, n) -> s_conn s1 = s_conn s /\ s_nc s1 = s_nc s /\ s_np s1 = s_np s /\ s_uq s1 = s_uq s /\ forall r, p_conn (s_peer s1 r) = p_conn (s_peer s r) /\ p_id (s_peer s1 r) = p_id (s_peer s r) /\ p_out (s_peer s1 r) = p_out (s_peer s r).
Proof.
  intros E. apply get_nonce_spec in E. destruct E as (-> & _). destruct (p_nonce (s_peer s p) =? 0)%N; [|auto 10]. repeat (split; [reflexivity|]). intros r. sel. unfold upd. destruct (Nat.eqb_spec r p); [subst|]; auto.
Qed.

Ltac nocb := let p := fresh in let c := fresh in let b := fresh in let I := fresh in intros p c b I; cbn [In] in I;
  repeat (first [destruct I as [I|I]; [discriminate I|] | apply in_app_or in I; destruct I as [I|I] | exact (mild_nocb _ _ _ _ ltac:(eassumption) I) | destruct I | match type of I with context [if ?b then _ else _] => destruct b end; cbn [In] in I]).
Ltac stl := constructor; sel; unfold mute; sel; try lia; try (let c := fresh in let L := fresh in intros c L); unfold upd; repeat match goal with |- context [?a =? ?b] => destruct (Nat.eqb_spec a b); subst end; cbn; try lia; try tauto; try congruence; auto.

Lemma nocb_cons x o : (match x with OCb _ _ _ => False | _ => True end) -> (forall p c b, ~ In (OCb p c b) o) -> forall p c b, ~ In (OCb p c b) (x :: o).
Proof. intros X N p c b [I|I]; [subst x; exact X|exact (N _ _ _ I)]. Qed.
Lemma nocb_app a b : (forall p c x, ~ In (OCb p c x) a) -> (forall p c x, ~ In (OCb p c x) b) -> forall p c x, ~ In (OCb p c x) (a ++ b).
Proof. intros A B p c x I. apply in_app_or in I. destruct I; [exact (A _ _ _ H)|exact (B _ _ _ H)]. Qed.
Lemma nocb_kill k : forall p c b, ~ In (OCb p c b) (out_kill k).
Proof. destruct k; intros p c b I; [destruct I as [I|[]]; discriminate I|destruct I]. Qed.
Lemma nocb_fin c u (b : bool) : forall p d x, ~ In (OCb p d x) (OPing c None :: (if b then [] else [OAssert]) ++ [OMove u c]).
Proof. destruct b; intros p d x I; cbn in I; intuition discriminate. Qed.
Lemma nocb_mild o : mild o -> forall p c b, ~ In (OCb p c b) o.
Proof. intros M p c b. apply mild_nocb. exact M. Qed.
Lemma nocb_nil : forall p c b, ~ In (OCb p c b) []. Proof. intros p c b []. Qed.
Ltac ncb := repeat first [assumption | exact nocb_nil | apply nocb_kill | apply nocb_fin | apply nocb_mild; assumption | apply nocb_cons; [exact I|] | apply nocb_app | match goal with |- context [if ?b then _ else _] => destruct b end].

Lemma nm_cons x o : (match x with OMove _ _ => False | _ => True end) -> nomove o -> nomove (x :: o).
Proof. intros X N u c [I|I]; [subst x; exact X|exact (N _ _ I)]. Qed.
Lemma nm_app a b : nomove a -> nomove b -> nomove (a ++ b).
Proof. intros A B u c I. apply in_app_or in I. destruct I; [exact (A _ _ H)|exact (B _ _ H)]. Qed.
Lemma nm_kill k : nomove (out_kill k).
Proof. destruct k; intros u c I; [destruct I as [I|[]]; discriminate I|destruct I]. Qed.
Lemma nm_mild o : mild o -> nomove o.
Proof. intros M u c I. exact (M _ I). Qed.
Lemma nm_nil : nomove []. Proof. intros u c []. Qed.
Ltac nmv := repeat first [assumption | exact nm_nil | apply nm_kill | apply nm_mild; assumption | apply nm_cons; [exact I|] | apply nm_app | match goal with |- context [if ?b then _ else _] => destruct b end].

Lemma same_onp p f s s0 : s_peer s0 = s_peer s -> (forall x, p_conn (f x) = p_conn x) -> same_conns s (onp p f s0).
Proof. intros E F q. sel. rewrite E. unfold upd. destruct (Nat.eqb_spec q p); [subst; apply F|reflexivity]. Qed.
Lemma same_refl s s' : s_peer s' = s_peer s -> same_conns s s'.
Proof. intros E q. rewrite E. reflexivity. Qed.
Lemma fewer_refl s s' : s_conn s' = s_conn s -> fewer s s'.
Proof. intros E q. rewrite E. left. reflexivity. Qed.
Lemma fewer_flags s s' c t u x : s_conn s' = upd (s_conn s) c (k_flags t u x (s_conn s c)) -> fewer s s'.
Proof. intros E q. rewrite E. unfold upd. destruct (Nat.eqb_spec q c); [subst|]; left; reflexivity. Qed.

Definition same_at (s s' : st) (c : nat) : Prop := attr (s_conn s' c) = attr (s_conn s c) /\ (mute s c -> mute s' c) /\ (k_term (s_conn s c) = true -> k_term (s_conn s' c) = true).
Lemma still_of s s' o' : (forall c, same_at s s' c) -> s_nc s' = s_nc s -> s_np s' = s_np s -> (forall p, p_id (s_peer s' p) = p_id (s_peer s p)) -> still s s' o'.
Proof. intros A B C D. constructor; try lia; try (intros c _; apply (A c)); auto. Qed.

Lemma del_same i p c q s : (forall d, same_at s (st_del i p c (w_q q s)) d) /\ s_nc (st_del i p c (w_q q s)) = s_nc s /\ s_np (st_del i p c (w_q q s)) = s_np s /\
  (forall r, p_id (s_peer (st_del i p c (w_q q s)) r) = p_id (s_peer s r)) /\ same_conns s (st_del i p c (w_q q s)) /\ fewer s (st_del i p c (w_q q s)) /\ s_uq (st_del i p c (w_q q s)) = s_uq s.
Proof.
  assert (P : forall r, s_peer (st_del i p c (w_q q s)) r = if r =? p then p_dead (s_peer s p) else s_peer s r).
  { intros r. unfold st_del, clear_peer_of. cbn [s_peer w_q onc w_conn]. destruct (p_out (s_peer s p)), (p_in (s_peer s p)); cbn; unfold upd; reflexivity. }
  assert (K : forall d, exists v, s_conn (st_del i p c (w_q q s)) d = k_setpeer v (s_conn s d) /\ (v = k_peer (s_conn s d) \/ v = None)).
  { intros d. unfold st_del, clear_peer_of. cbn [s_peer w_q onc w_conn].
    assert (U : forall (f : nat -> conn) e, (exists v, f d = k_setpeer v (s_conn s d) /\ (v = k_peer (s_conn s d) \/ v = None)) -> exists v, upd f e (k_setpeer None (f e)) d = k_setpeer v (s_conn s d) /\ (v = k_peer (s_conn s d) \/ v = None)).
    { intros f e (v & E & V). unfold upd. destruct (Nat.eqb_spec d e); [subst e; rewrite E, k_setpeer_2; eauto|eauto]. }
    assert (B : exists v, s_conn s d = k_setpeer v (s_conn s d) /\ (v = k_peer (s_conn s d) \/ v = None)) by (exists (k_peer (s_conn s d)); rewrite k_setpeer_id; auto).
    destruct (p_out (s_peer s p)), (p_in (s_peer s p)); cbn; repeat apply U; exact B. }
  split; [intros d; unfold same_at, mute; destruct (K d) as (v & -> & _); cbn; auto|].
  split; [unfold st_del, clear_peer_of; destruct (p_out _), (p_in _); reflexivity|]. split; [unfold st_del, clear_peer_of; destruct (p_out _), (p_in _); reflexivity|].
  split; [intros r; rewrite P; destruct (Nat.eqb_spec r p); [subst|]; reflexivity|]. split; [intros r; rewrite P; destruct (Nat.eqb_spec r p); [subst|]; reflexivity|].
  split; [intros d; destruct (K d) as (v & -> & V); cbn; exact V|]. unfold st_del, clear_peer_of; destruct (p_out _), (p_in _); reflexivity.
Qed.

Lemma still_leaf e s s' o' : WF s -> leaf hash e s s' o' -> still s s' o'.
Proof.
  intros W L. destruct L;
    try match goal with G : get_nonce _ _ _ = Some _ |- _ => destruct (nonce_all _ _ _ _ _ G) as (G1 & G2 & G3 & G4 & G5); cbn [s_nc s_np s_conn s_uq s_peer onc onp w_conn w_q w_peer] in G1, G2, G3, G4 end.
  all: try (constructor; sel; unfold mute; [intros d D|intros d D (M1 & M2)|intros d D M1|try lia|try lia|intros r R]; sel; unfold upd;
    repeat match goal with |- context [?a =? ?b] => destruct (Nat.eqb_spec a b); [subst|] end; cbn; try (split; assumption); try reflexivity; try lia; try congruence; fail).
  - apply still_of; rewrite ?G2, ?G3; try reflexivity; [|intros r; apply (G5 r)]. intros d. unfold same_at, mute. rewrite G1. unfold upd. destruct (Nat.eqb_spec d c); [subst; cbn; split; [reflexivity|]; split; [intros (_ & M); congruence|auto]|auto].
  - apply still_of; sel; try reflexivity.
    + intros d. unfold same_at, mute. sel. unfold upd. destruct (Nat.eqb_spec d c); [subst; cbn; split; [reflexivity|tauto]|auto].
    + intros r. unfold upd. destruct (Nat.eqb_spec r p); [subst|reflexivity]. unfold x_end. destruct (p_state _); reflexivity.
  - apply still_of; sel; try reflexivity.
    + intros d. unfold same_at, mute. sel. unfold upd. destruct (Nat.eqb_spec d c); [subst; cbn; split; [reflexivity|tauto]|auto].
    + intros r. unfold upd. destruct (Nat.eqb_spec r p); [subst|reflexivity]. unfold x_lost, x_end. destruct (p_state _); cbn; repeat match goal with |- context [if ?b then _ else _] => destruct b end; reflexivity.
  - destruct (del_same i p c q s) as (D1 & D2 & D3 & D4 & _). apply still_of; auto.
  - apply still_of; sel; try reflexivity; [intros d; unfold same_at, mute; sel; auto|]. intros r. unfold upd. destruct (Nat.eqb_spec r p); [subst|reflexivity]. destruct (n =? 0)%Z; reflexivity.
  - apply still_of; sel; rewrite ?G2, ?G3; try reflexivity; [intros d; unfold same_at, mute; sel; rewrite G1; auto|]. intros r. unfold upd. destruct (Nat.eqb_spec r p); [subst|]; apply G5.
  - match goal with F : finished _ _ _ _ _ |- _ => destruct F as [F1 F2 F3 F4 F5 F6 F7 F8 F9] end. cbn [s_nc s_np s_conn onp w_peer] in F1, F3, F4. apply still_of; [|congruence|congruence|].
    + intros d. unfold same_at, mute. rewrite !F1, G1. cbn. auto.
    + intros r. rewrite F2. sel. unfold upd. rewrite Nat.eqb_refl. destruct (Nat.eqb_spec r p); [subst; cbn|]; apply G5.
  - apply still_of; sel; try reflexivity; [intros e; unfold same_at, mute; sel; auto|]. intros r. unfold upd. destruct (Nat.eqb_spec r p); [subst|]; reflexivity.
  - apply still_of; [intros d; unfold same_at, mute; rewrite G1; auto|congruence|congruence|]. intros r. destruct (G5 r) as (_ & -> & _). sel. unfold upd. destruct (Nat.eqb_spec r p); [subst|]; reflexivity.
  - match goal with F : finished _ _ _ _ _ |- _ => destruct F as [F1 F2 F3 F4 F5 F6 F7 F8 F9] end. unfold reset_ping_timer in *. cbn [s_nc s_np s_conn onp w_peer] in F1, F3, F4. apply still_of; [|congruence|congruence|].
    + intros d. unfold same_at, mute. rewrite !F1, G1. cbn. auto.
    + intros r. rewrite F2. sel. unfold upd. rewrite Nat.eqb_refl. destruct (G5 r) as (_ & G & _). destruct (Nat.eqb_spec r p); [subst; cbn|]; rewrite G; sel; unfold upd; rewrite ?Nat.eqb_refl; [reflexivity|].
      destruct (Nat.eqb_spec r p); [congruence|reflexivity].
Qed.

Ltac nct := first [reflexivity|assumption|unfold st_del, clear_peer_of; destruct (p_out _), (p_in _); reflexivity].
Lemma kind_leaf e s s' o' : WF s -> leaf hash e s s' o' -> kind s s' o'.
Proof.
  intros W L. pose proof (still_leaf _ _ _ _ W L) as ST. destruct L;
    try match goal with G : get_nonce _ _ _ = Some _ |- _ => destruct (nonce_all _ _ _ _ _ G) as (G1 & G2 & G3 & G4 & G5); cbn [s_nc s_np s_conn s_uq s_peer onc onp w_conn w_q w_peer] in G1, G2, G3, G4 end.
  all: try (apply K_quiet; [first [apply same_refl; reflexivity | apply same_onp; reflexivity]|first [apply fewer_refl; reflexivity|eapply fewer_flags; reflexivity]|apply nn_same; [reflexivity|ncb]|reflexivity|nmv]; fail).
  - apply K_new; [| | | | |reflexivity|nmv]; [apply same_refl; reflexivity|intros d D; sel; apply upd_other; lia|apply nn_same; [reflexivity|ncb]| |reflexivity]. intros p. sel. rewrite upd_same. discriminate.
  - apply K_new; [| | | | |reflexivity|nmv]; [apply same_refl; reflexivity|intros d D; sel; apply upd_other; lia|apply nn_same; [reflexivity|ncb]| |reflexivity]. intros p. sel. rewrite upd_same. discriminate.
  - apply K_quiet; [| | |nct|nmv]; [apply same_refl; reflexivity|apply fewer_refl; reflexivity|]. intros p' c' [[I|[]]|I]; rewrite H; [injection I as -> -> ->; left; reflexivity|right; exact I].
  - apply K_quiet; [| | |nct|nmv]; [apply same_refl; reflexivity|apply fewer_refl; reflexivity|]. intros p' c' [[I|[]]|I]; rewrite H; [discriminate I|right; exact I].
  - apply K_quiet; [| | |nct|nmv]; [apply same_refl; reflexivity|apply fewer_refl; reflexivity|]. intros p' c' [[I|[]]|I]; rewrite H; [discriminate I|right; exact I].
  - apply K_quiet; [| | |nct|nmv]; [intros r; apply (G5 r)|eapply fewer_flags; exact G1|apply nn_same; [exact G4|ncb]].
  - apply K_quiet; [| | |nct|nmv]; [|eapply fewer_flags; reflexivity|].
    + apply same_onp; [reflexivity|]. intros x. unfold x_end. destruct (p_state x); reflexivity.
    + intros p' c' [I|I]; [destruct (mild_nocb _ _ _ _ H6 I)|]. apply in_app_or in I. destruct I as [I|[I|[]]]; [exact I|discriminate I].
  - apply K_quiet; [| | |nct|nmv]; [|eapply fewer_flags; reflexivity|].
    + apply same_onp; [reflexivity|]. intros x. unfold x_lost, x_end. destruct (p_state x); cbn; repeat match goal with |- context [if ?b then _ else _] => destruct b end; reflexivity.
    + intros p' c' [I|I]; [destruct (mild_nocb _ _ _ _ H6 I)|]. apply in_app_or in I. destruct I as [I|[I|[]]]; [exact I|discriminate I].
  - apply K_new; [| | | | |reflexivity|nmv]; [apply same_onp; reflexivity|intros d D; sel; apply upd_other; lia|apply nn_same; [reflexivity|ncb]| |reflexivity].
    intros r. sel. rewrite !upd_same. cbn. intros E. injection E as <-. split; [reflexivity|]. split; [reflexivity|]. split; [apply in_or_app; right; left; reflexivity|]. apply (w_live _ W p). assumption.
  - apply K_add; [| | | | | | | |nmv]; sel.
    + intros r R. rewrite upd_other by exact R. reflexivity.
    + rewrite upd_same. reflexivity.
    + intros d D. rewrite upd_other by exact D. reflexivity.
    + unfold mute. sel. rewrite upd_same. split; reflexivity.
    + rewrite upd_same. reflexivity.
    + apply nn_same; [reflexivity|ncb].
    + reflexivity.
    + reflexivity.
  - destruct (del_same i p c q s) as (D1 & D2 & D3 & D4 & D5 & D6 & D7). apply K_quiet; [| | |nct|nmv]; [exact D5|exact D6|apply nn_same; [exact D7|ncb]].
  - apply K_quiet; [| | |nct|nmv]; [|apply fewer_refl; reflexivity|apply nn_same; [reflexivity|ncb]]. apply same_onp; [reflexivity|]. intros x. destruct (n =? 0)%Z; reflexivity.
  - apply K_quiet; [| | |nct|nmv]; [apply same_refl; reflexivity|apply fewer_refl; reflexivity|]. intros p' c' [[I|[I|[]]]|I]; [discriminate I|discriminate I|]. apply in_app_or in I. destruct I as [I|[I|[]]]; [exact I|discriminate I].
  - apply K_quiet; [| | |nct|nmv]; [|apply fewer_refl; exact G1|apply nn_same; [exact G4|ncb]]. intros r. sel. unfold upd. destruct (Nat.eqb_spec r p); [subst; cbn|]; apply (G5 _).
  - (* a handshake ends: the accepting side *)
    match goal with F : find_by _ _ = Some p |- _ => destruct (known_live _ _ _ W F) as (LV & ID & OK & NP) end.
    match goal with F : finished _ _ _ _ _ |- _ => destruct F as [F1 F2 F3 F4 F5 F6 F7 F8 F9] end. cbn [s_nc s_np s_conn s_uq onp w_peer] in F1, F3, F4, F9.
    apply (K_fin _ _ _ p c u); auto.
    + rewrite F2, Nat.eqb_refl. reflexivity.
    + intros r R. rewrite F2. sel. apply Nat.eqb_neq in R. rewrite R. unfold upd. rewrite R. apply G5.
    + intros d D. rewrite F1. cbn. apply Nat.eqb_neq in D. rewrite D, G1. destruct (_ || _); auto.
    + rewrite F1, Nat.eqb_refl. reflexivity.
    + intros o1. unfold shows. rewrite (t_id _ _ _ ST p NP), ID. rewrite F1, Nat.eqb_refl. cbn. rewrite G1, H3. unfold ident. destruct (k_cert (s_conn s c)); [reflexivity|].
      exists a, n. split; [apply in_or_app; right; left; reflexivity|auto].
    + intros r d [I|I]; [exfalso; refine (_ : False); revert I; subst o'; assert (N : forall p d b, ~ In (OCb p d b) (OExec (TPing (Some c) a n) :: OPong c (Some mine) :: o ++ OPing c None :: (if k_term (s_conn s u) then [] else [OAssert]) ++ [OMove u c])) by ncb; apply N|].
      rewrite F9, G4 in I. apply in_app_or in I. destruct I as [I|[I|[]]]; [left; exact I|right; injection I as -> ->; auto].
    + rewrite F9. apply in_or_app. right. left. reflexivity.
    + subst o'. exists (OExec (TPing (Some c) a n) :: OPong c (Some mine) :: o ++ OPing c None :: (if k_term (s_conn s u) then [] else [OAssert])). split; [cbn; rewrite <- !app_assoc; reflexivity|nmv].
    + congruence.
  - apply K_quiet; [| | |nct|nmv]; [|apply fewer_refl; exact G1|apply nn_same; [exact G4|ncb]]. intros r. destruct (G5 r) as (-> & _). sel. unfold upd. destruct (Nat.eqb_spec r p); [subst; cbn|]; reflexivity.
  - (* the dialling side *)
    match goal with F : find_by _ _ = Some p |- _ => destruct (known_live _ _ _ W F) as (LV & ID & OK & NP) end.
    match goal with F : finished _ _ _ _ _ |- _ => destruct F as [F1 F2 F3 F4 F5 F6 F7 F8 F9] end. unfold reset_ping_timer in *. cbn [s_nc s_np s_conn s_uq onp w_peer] in F1, F3, F4, F9.
    apply (K_fin _ _ _ p c u); auto.
    + rewrite F2, Nat.eqb_refl. reflexivity.
    + intros r R. rewrite F2. sel. apply Nat.eqb_neq in R. rewrite R. unfold upd. rewrite R. destruct (G5 r) as (-> & _). sel. unfold upd. rewrite R. reflexivity.
    + intros d D. rewrite F1. cbn. apply Nat.eqb_neq in D. rewrite D, G1. destruct (_ || _); auto.
    + rewrite F1, Nat.eqb_refl. reflexivity.
    + intros o1. unfold shows. rewrite (t_id _ _ _ ST p NP), ID. rewrite F1, Nat.eqb_refl. cbn. rewrite G1, H3. unfold ident. destruct (k_cert (s_conn s c)); reflexivity.
    + intros r d [I|I]; [exfalso; refine (_ : False); revert I; subst o'; assert (N : forall p c' b, ~ In (OCb p c' b) (OExec (TPong c a n) :: o ++ OPing c None :: (if k_term (s_conn s u) then [] else [OAssert]) ++ [OMove u c])) by ncb; apply N|].
      rewrite F9, G4 in I. apply in_app_or in I. destruct I as [I|[I|[]]]; [left; exact I|right; injection I as -> ->; auto].
    + rewrite F9. apply in_or_app. right. left. reflexivity.
    + subst o'. exists (OExec (TPong c a n) :: o ++ OPing c None :: (if k_term (s_conn s u) then [] else [OAssert])). split; [cbn; rewrite <- !app_assoc; reflexivity|nmv].
    + congruence.
Qed.
End K.

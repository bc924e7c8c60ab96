(** The last dial of the dialling node (PeerPair.v), for ReconProps.v. *)
From Coq Require Import Arith NArith ZArith List Bool Lia.
From Verif Require Import PeerModel PeerPair DialProps ReconSpec ReconNode ReconSys ReconTr ReconInv.
Import ListNotations.

(** ** Handshake messages under way *)
Definition cnt {X} (f : X -> bool) (l : list X) : nat := length (filter f l).
Lemma cnt_app {X} (f : X -> bool) l m : cnt f (l ++ m) = cnt f l + cnt f m.
Proof. unfold cnt. rewrite filter_app, app_length. reflexivity. Qed.
Lemma cnt_cons {X} (f : X -> bool) x l : cnt f (x :: l) = (if f x then 1 else 0) + cnt f l.
Proof. unfold cnt. cbn. destruct (f x); reflexivity. Qed.
Lemma cnt_0 {X} (f : X -> bool) l : (forall x, In x l -> f x = false) -> cnt f l = 0.
Proof. induction l as [|h l IH]; intros H; [reflexivity|]. rewrite cnt_cons, (H h) by (left; reflexivity). apply IH. intros x I. apply H. right. exact I. Qed.
Lemma cnt_in {X} (f : X -> bool) l x : In x l -> f x = true -> 1 <= cnt f l.
Proof. induction l as [|h l IH]; intros I T; [destruct I|]. destruct I as [->|I]; rewrite cnt_cons; [rewrite T; lia|]. specialize (IH I T). destruct (f h); lia. Qed.

Definition isP (m : msg) : bool := match m with MPing (Some _) => true | _ => false end.
Definition isR (m : msg) : bool := match m with MPong (Some _) => true | _ => false end.
Definition isT (od : option nat) (t : dtask) : bool := match t with TPing (Some d) 1%N _ => oeq od (Some d) | _ => false end.
Definition isU (od : option nat) (t : utask) : bool := match t with UPre _ _ _ _ (Some d) => oeq od (Some d) | _ => false end.
Definition isB (P : peer) : nat := match p_pre P with Some _ => 1 | None => 0 end.
Definition tok (k : link) (b : st) : nat := cnt isP (l_fwd k) + cnt (isT (l_d k)) (s_q b) + cnt (isU (l_d k)) (s_uq b) + isB (pr b).
Definition on (k : link) (b : st) : Prop := p_state (pr b) = Connected /\ exists d, p_conn (pr b) = Some d /\ l_d k = Some d.
Definition back (x : nat) (k : link) (a : st) : Prop := (exists m, In m (l_bwd k) /\ isR m = true) \/ In (TPong x 2%N passive_nonce) (s_q a) \/ p_out (pr a) = None.
Definition phase (x : nat) (k : link) (a b : st) : Prop :=
  k_set (s_conn a x) = false /\ tok k b = 0 /\ ~ on k b \/ k_set (s_conn a x) = true /\ tok k b = 1 /\ ~ on k b \/ k_set (s_conn a x) = true /\ tok k b = 0 /\ on k b /\ back x k a.

(** Connection x of the dialling node is the last one dialled, link k; g: the one dialled before
    had ended by then, or was established. *)
Record FA (g : bool) (x : nat) (a : st) : Prop := {
  fa_n : s_nc a = S x /\ 1 <= x;
  fa_x : k_term (s_conn a x) = false;
  fa_w : p_out (pr a) = Some x \/ p_out (pr a) = None;
  fa_a : g = true -> p_state (pr a) = Disconnected -> p_out (pr a) = Some x;
  fa_c : p_state (pr a) = Connected -> p_conn (pr a) = Some x;
  fa_h : g = true -> forall c, within a c -> c <> x -> k_peer (s_conn a c) = Some 0 -> k_torn (s_conn a c) = false -> p_state (pr a) = Disconnected /\ p_conn (pr a) = Some c;
  fa_s : forall c, within a c -> c <> x -> k_set (s_conn a c) = true \/ k_torn (s_conn a c) = true;
  fa_t : forall c, In (TPong c 2%N passive_nonce) (s_q a) -> c = x \/ k_term (s_conn a c) = true }.
Record FB (k : link) (b : st) : Prop := {
  fb_d : forall d, l_d k = Some d -> k_term (s_conn b d) = false;
  fb_q : forall d n, In (TPing (Some d) 1%N n) (s_q b) -> l_d k = Some d \/ k_term (s_conn b d) = true;
  fb_u : forall p c h n d, In (UPre p c h n (Some d)) (s_uq b) -> l_d k = Some d \/ k_term (s_conn b d) = true;
  fb_p : p_pre (pr b) <> None -> exists d, p_in (pr b) = Some d /\ l_d k = Some d }.
Definition oldl (a b : st) (l : link) : Prop :=
  (l_d l = None -> k_term (s_conn a (l_c l)) = true) /\ (forall m d, In m (l_fwd l) -> isP m = true -> l_d l = Some d -> k_term (s_conn b d) = true) /\ (forall m, In m (l_bwd l) -> isR m = true -> k_term (s_conn a (l_c l)) = true).
Record FIN (g : bool) (x : nat) (k : link) (y : sys) : Prop := {
  f_a : FA g x (y_a y); f_b : FB k (y_b y);
  f_k : nth_error (y_l y) (pred x) = Some k;
  f_ka : ~ In (false, x) (y_kill y); f_kb : forall d, l_d k = Some d -> ~ In (true, d) (y_kill y);
  f_l : forall i l, nth_error (y_l y) i = Some l -> i <> pred x -> oldl (y_a y) (y_b y) l;
  f_p : phase x k (y_a y) (y_b y) }.

Lemma in_pop {X} (q r : list X) (t u : X) : q = t :: r -> In u q -> u = t \/ In u r.
Proof. intros -> [->|H]; auto. Qed.
Lemma in_pop' {X} (q r : list X) (t u : X) : q = t :: r -> In u r -> In u q.
Proof. intros -> H; right; exact H. Qed.
Lemma mild_q i s s' e : mild i s s' e -> forall u, In u (s_q s') -> In u (s_q s) \/ harm u.
Proof. intros M. apply (mild_facts _ _ _ _ M). Qed.
Lemma mild_keep i s s' e : mild i s s' e -> forall x, In (TPong x 2%N passive_nonce) (s_q s) -> In (TPong x 2%N passive_nonce) (s_q s').
Proof.
  intros M x I. destruct M as [t H [nb np nk nn nq nu ne]|t q Q H [nb np nk nn nq nu ne]|c q Q [nb np nk nn nq nu ne]|P q e Q H B [nb np nk nn nq nu ne] E|p c b u U [nb np nk nn nq nu ne]]; rewrite nq; auto.
  - apply in_or_app. auto.
  - destruct (in_pop _ _ _ _ Q I) as [<-|X]; [destruct H|exact X].
  - destruct (in_pop _ _ _ _ Q I) as [X|X]; [discriminate|exact X].
  - destruct Q as [<-|(c & Q)]; [exact I|]. destruct (in_pop _ _ _ _ Q I) as [X|X]; [discriminate|exact X].
Qed.
Lemma mild_cnt i s s' e od : mild i s s' e -> cnt (isT od) (s_q s') = cnt (isT od) (s_q s) /\ cnt (isU od) (s_uq s') = cnt (isU od) (s_uq s) /\ (forall u, In u (s_uq s') -> In u (s_uq s)).
Proof.
  assert (HT : forall t, harm t -> isT od t = false) by (intros []; cbn; auto; contradiction).
  intros M. destruct M as [t H [nb np nk nn nq nu ne]|t q Q H [nb np nk nn nq nu ne]|c q Q [nb np nk nn nq nu ne]|P q e Q H B [nb np nk nn nq nu ne] E|p c b u U [nb np nk nn nq nu ne]]; rewrite nq, nu; (split; [|split; [|auto]]); auto.
  - rewrite cnt_app, cnt_cons, (HT _ H). cbn. lia.
  - rewrite Q, cnt_cons, (HT _ H). lia.
  - rewrite Q, cnt_cons. reflexivity.
  - destruct Q as [<-|(c & Q)]; [reflexivity|]. rewrite Q, cnt_cons. reflexivity.
  - rewrite U, cnt_cons. reflexivity.
  - intros v V. rewrite U. right. exact V.
Qed.
Lemma mild_msgs i s s' e : mild i s s' e -> forall c m, In m (msgs e c) -> isP m = false /\ isR m = false.
Proof. intros M c m H. destruct (mild_facts _ _ _ _ M) as (_ & _ & _ & _ & _ & _ & _ & _ & F). destruct (F c m H) as [(-> & _)|(-> & _)]; auto. Qed.

(** ** A step of the dialling node *)
Lemma FA_step g z x a a' e : (z < 0)%Z -> NA z a -> FA g x a -> stepA a a' e ->
  FA g x a' /\ (forall c, k_term (s_conn a c) = true -> k_term (s_conn a' c) = true) /\ ~ In (OKill x) e /\
  (forall c m, In m (msgs e c) -> isR m = false /\ (isP m = true -> c = x)) /\
  (k_set (s_conn a' x) = k_set (s_conn a x) /\ cnt isP (msgs e x) = 0 \/ k_set (s_conn a x) = false /\ k_set (s_conn a' x) = true /\ cnt isP (msgs e x) = 1) /\
  (p_out (pr a) = None -> p_out (pr a') = None) /\ (In (TPong x 2%N passive_nonce) (s_q a) -> In (TPong x 2%N passive_nonce) (s_q a') \/ p_out (pr a') = None).
Proof.
  intros Z0 NA0 F M. pose proof F as [(n1 & n2) fx fw fa fc fh fs ft]. pose proof (a_p _ _ NA0) as PA.
  destruct M as [e M|c q Q T [nb np nk nn nq nu ne]|c n W K1 K2 NN [nb np nk nn nq nu ne]|c pe W K1 K2 KP [nb np nk nn nq nu ne]|c pe W K1 K2 KP [nb np nk nn nq nu ne]|c q n pe Q W KT ST NN [nb np nk nn nq nu ne]].
  - destruct (mild_facts _ _ _ _ M) as (f1 & f2 & f3 & _ & _ & f5 & f6 & f7 & _). destruct f2 as (e1 & e2 & e3 & e4 & e5 & e6 & e7 & e8 & e9 & e10 & e11 & e12 & e13 & e14).
    split; [constructor; unfold within; rewrite ?f1, ?f3, ?e5, ?e12, ?e14; auto|].
    + intros G c. rewrite f3. apply fh; exact G.
    + intros c. rewrite f3. apply fs.
    + intros c I. rewrite f3. destruct (f5 _ I) as [X|[]]. auto.
    + split; [intros c; rewrite f3; auto|]. split; [apply f7|]. split; [intros c m X; destruct (mild_msgs _ _ _ _ M c m X) as (X1 & X2); split; [exact X2|congruence]|]. split; [left; rewrite f3; split; [reflexivity|]; apply cnt_0; intros m X; apply (mild_msgs _ _ _ _ M x m X)|]. split; [congruence|]. intros X. left. eapply mild_keep; eassumption.
  - split; [constructor; unfold within; rewrite ?np, ?nn, ?nq, ?nk; auto|].
    + intros G d. rewrite nk. apply fh; exact G.
    + intros d. rewrite nk. apply fs.
    + intros d I. rewrite nk. apply ft. eapply in_pop'; eassumption.
    + split; [intros d; rewrite nk; auto|]. split; [intros []|]. split; [intros ? ? []|]. split; [left; rewrite nk; auto|]. rewrite np, nq. split; [auto|]. intros X. destruct (in_pop _ _ _ _ Q X) as [[= <-]|Y]; [|auto]. destruct T as [T|T]; [congruence|]. right. apply (a_c _ _ NA0 T).
  - assert (c = x). { destruct (Nat.eq_dec c x) as [E|E]; [exact E|]. destruct (fs c W E); congruence. } subst c.
    split; [constructor; unfold within; rewrite ?np, ?nn, ?nq; cbn -[setk]; auto|].
    + rewrite nk. destruct (setk_x (s_conn a) x x) as (_ & _ & _ & ->). exact fx.
    + intros G d. rewrite nk. destruct (setk_x (s_conn a) x d) as (_ & -> & -> & _). apply fh; exact G.
    + intros d WD ND. rewrite nk. unfold setk. rewrite upd_n by exact ND. apply fs; assumption.
    + intros d I. rewrite nk. destruct (setk_x (s_conn a) x d) as (_ & _ & _ & ->). auto.
    + split; [intros d; rewrite nk; destruct (setk_x (s_conn a) x d) as (_ & _ & _ & ->); auto|]. split; [intros [X|[]]; discriminate|]. split; [intros d m X; apply one_msg in X as (<- & ->); auto|].
      split; [right; rewrite nk; unfold setk; rewrite upd_c; split; [exact K1|]; split; [reflexivity|]; cbn; rewrite Nat.eqb_refl; reflexivity|]. rewrite np, nq. cbn. auto.
  - assert (NX : c <> x) by (intros ->; congruence).
    split; [constructor; unfold within; rewrite ?np, ?nn, ?nq; auto|].
    + rewrite nk. unfold tornk. rewrite upd_n by auto. exact fx.
    + intros G d WD ND. rewrite nk. destruct (tornk_x (s_conn a) c d) as (_ & -> & X & _). intros Y1 Y2. apply fh; auto. destruct (k_torn (s_conn a d)); [rewrite X in Y2; [discriminate|reflexivity]|reflexivity].
    + intros d WD ND. rewrite nk. unfold tornk. rewrite upd_if. destruct (d =? c); [right; reflexivity|]. apply fs; assumption.
    + intros d I. rewrite nk. destruct (ft d I) as [X|X]; [auto|right]. apply tornk_x. exact X.
    + split; [intros d X; rewrite nk; apply tornk_x; exact X|]. split; [intros []|]. split; [intros ? ? []|]. split; [left; rewrite nk; unfold tornk; rewrite upd_n by auto; auto|]. rewrite np, nq. auto.
  - assert (NX : c <> x) by (intros ->; congruence). destruct PA as (_ & _ & _ & _ & p5 & _ & _ & p8 & _ & _).
    assert (EA : p_state (ended (pr a)) = Disconnected /\ (p_state (pr a) = Disconnected /\ p_out (ended (pr a)) = p_out (pr a) \/ p_out (ended (pr a)) = None) /\ p_conn (ended (pr a)) = p_conn (pr a)). { rewrite (ended_A _ _ p8 p5 Z0). unfold fell. destruct (p_state (pr a)) eqn:SX; cbn; auto. }
    destruct EA as (E1 & E2 & E3).
    split; [constructor; unfold within; rewrite ?np, ?nn, ?nq, ?E1, ?E3; auto|].
    + rewrite nk. unfold tornk. rewrite upd_n by auto. exact fx.
    + destruct E2 as [(_ & ->)|E2]; auto.
    + intros G _. destruct (fh G c W NX KP K2) as (SD & PC). destruct E2 as [(_ & ->)|E2]; [auto|]. rewrite <- (fa G SD). rewrite (ended_A _ _ p8 p5 Z0). unfold fell. rewrite SD. reflexivity.
    + discriminate.
    + intros G d WD ND. rewrite nk. destruct (tornk_x (s_conn a) c d) as (_ & -> & X & _). intros Y1 Y2. split; [reflexivity|]. apply fh; auto. destruct (k_torn (s_conn a d)); [rewrite X in Y2; [discriminate|reflexivity]|reflexivity].
    + intros d WD ND. rewrite nk. unfold tornk. rewrite upd_if. destruct (d =? c); [right; reflexivity|]. apply fs; assumption.
    + intros d I. rewrite nk. destruct (ft d I) as [X|X]; [auto|right]. apply tornk_x. exact X.
    + split; [intros d X; rewrite nk; apply tornk_x; exact X|]. split; [intros []|]. split; [intros ? ? []|]. split; [left; rewrite nk; unfold tornk; rewrite upd_n by auto; auto|]. rewrite np, nq. split; [destruct E2 as [(_ & ->)|E2]; auto|auto].
  - assert (c = x). { destruct (ft c) as [X|X]; [rewrite Q; left; reflexivity|exact X|congruence]. } subst c. replace (match p_out (pr a) with Some d => if d =? x then [] else [OKill d] | None => [] end) with (@nil obs) by (destruct fw as [->| ->]; [rewrite Nat.eqb_refl|]; reflexivity). cbn [app].
    assert (AL : forall d, alike (s_conn a d) (own x (clr (p_conn (pr a)) (clr (Some x) (s_conn a))) d)).
    { intros d. destruct (own_alike x (clr (p_conn (pr a)) (clr (Some x) (s_conn a))) d) as (a1 & a2 & a3 & a4 & a5 & a6 & a7). destruct (clr_alike (p_conn (pr a)) (clr (Some x) (s_conn a)) d) as (b1 & b2 & b3 & b4 & b5 & b6 & b7). destruct (clr_alike (Some x) (s_conn a) d) as (c1 & c2 & c3 & c4 & c5 & c6 & c7). repeat split; congruence. }
    split; [constructor; unfold within; rewrite ?np, ?nn, ?nq; cbn -[own clr]; auto|].
    + rewrite nk. destruct (AL x) as (_ & _ & _ & _ & -> & _). exact fx.
    + discriminate.
    + intros G d WD ND. rewrite nk. destruct (AL d) as (_ & _ & _ & _ & _ & _ & ->). rewrite peer_own, peer_clr, peer_clr. apply Nat.eqb_neq in ND as ND'. rewrite ND'. destruct (oeq (p_conn (pr a)) (Some d)) eqn:OE; [discriminate|]. destruct (oeq (Some x) (Some d)); [discriminate|]. intros Y1 Y2. destruct (fh G d WD ND Y1 Y2) as (_ & X). rewrite X in OE. cbn in OE. rewrite Nat.eqb_refl in OE. discriminate.
    + intros d WD ND. rewrite nk. destruct (AL d) as (_ & _ & _ & _ & _ & -> & ->). apply fs; assumption.
    + intros d I. rewrite nk. destruct (AL d) as (_ & _ & _ & _ & -> & _). apply ft. eapply in_pop'; eassumption.
    + split; [intros d X; rewrite nk; destruct (AL d) as (_ & _ & _ & _ & -> & _); exact X|]. split; [intros [X|[]]; discriminate|]. split; [intros d m X; apply one_msg in X as (<- & ->); auto|]. split; [left; rewrite nk; destruct (AL x) as (_ & _ & _ & _ & _ & -> & _); split; [reflexivity|]; apply cnt_0; intros m X; apply one_msg in X as (_ & ->); reflexivity|]. rewrite np. cbn. auto.
Qed.

(** ** A step of the waiting node *)
Lemma isT_in od d n : isT od (TPing (Some d) 1%N n) = true -> od = Some d.
Proof. cbn. destruct od as [e|]; [|discriminate]. cbn. intros H. apply Nat.eqb_eq in H. congruence. Qed.
Lemma isT_eq d n : isT (Some d) (TPing (Some d) 1%N n) = true.
Proof. cbn. apply Nat.eqb_refl. Qed.
Lemma isU_eq p c h n d : isU (Some d) (UPre p c h n (Some d)) = true.
Proof. cbn. apply Nat.eqb_refl. Qed.
Lemma shake_alike c P k d : alike (k d) (shake c P k d).
Proof.
  unfold shake. destruct (own_alike c (clr (p_conn P) (clr (p_out P) k)) d) as (a1 & a2 & a3 & a4 & a5 & a6 & a7). destruct (clr_alike (p_conn P) (clr (p_out P) k) d) as (b1 & b2 & b3 & b4 & b5 & b6 & b7). destruct (clr_alike (p_out P) k d) as (c1 & c2 & c3 & c4 & c5 & c6 & c7). repeat split; congruence.
Qed.
Lemma FB_step k b b' e : NB b -> FB k b -> (tok k b = 1 /\ ~ on k b \/ tok k b = 0) -> stepB b b' e ->
  FB k b' /\ (forall c, k_term (s_conn b c) = true -> k_term (s_conn b' c) = true) /\ (forall d, l_d k = Some d -> ~ In (OKill d) e) /\
  (forall c m, In m (msgs e c) -> isR m = true -> l_d k = Some c) /\
  (tok k b' = tok k b /\ (on k b -> on k b') /\ (on k b' -> on k b) \/ tok k b = 1 /\ ~ on k b /\ tok k b' = 0 /\ on k b' /\ exists d m, l_d k = Some d /\ In m (msgs e d) /\ isR m = true).
Proof.
  intros NB0 F PH M. pose proof F as [fd fq fu fp]. unfold tok, on in *.
  destruct M as [e M|c n q Q T [nb np nk nn nq nu ne]|p c n d u U [nb np nk nn nq nu ne]|c pe W K1 K2 [nb np nk nn nq nu ne] PE|c pe W K1 K2 KP [nb np nk nn nq nu ne] PE|c pe W K1 K2 KP [nb np nk nn nq nu ne] PE|c n q d Q W NN KT ST PC [nb np nk nn nq nu ne]|c n q pe Q W KT ST [nb np nk nn nq nu ne] PE].
  - destruct (mild_facts _ _ _ _ M) as (f1 & f2 & f3 & _ & _ & f5 & f6 & f7 & _). destruct f2 as (e1 & e2 & e3 & e4 & e5 & e6 & e7 & e8 & e9 & e10 & e11 & e12 & e13 & e14). destruct (mild_cnt _ _ _ _ (l_d k) M) as (c1 & c2 & c3).
    split; [constructor|].
    + intros d. rewrite f3. apply fd.
    + intros d n I. rewrite f3. destruct (f5 _ I) as [X|[]]. eauto.
    + intros p c h n d I. rewrite f3. eauto.
    + rewrite e13, e11. exact fp.
    + split; [intros c; rewrite f3; auto|]. split; [intros d _; apply f7|]. split; [intros c m X Y; destruct (mild_msgs _ _ _ _ M c m X); congruence|]. left. rewrite c1, c2, e14, e5. unfold isB. rewrite e13. auto.
  - split; [constructor|].
    + intros d. rewrite nk. apply fd.
    + intros d m. rewrite nk, nq. intros I. eapply fq. eapply in_pop'; eassumption.
    + rewrite nu. intros p c' h m d. rewrite nk. apply fu.
    + rewrite np. exact fp.
    + split; [intros d; rewrite nk; auto|]. split; [intros ? _ []|]. split; [intros ? ? []|]. left. rewrite np, nq, nu, Q, cnt_cons. split; [|auto].
      destruct (isT (l_d k) (TPing (Some c) 1%N n)) eqn:E; [|lia]. apply isT_in in E. specialize (fd _ E). congruence.
  - split; [constructor|].
    + intros e. rewrite nk. apply fd.
    + intros e m. rewrite nk, nq. intros I. apply in_app_or in I as [I|[I|[]]]; [eauto|]. injection I as <- <-. eapply fu. rewrite U. left. reflexivity.
    + rewrite nu. intros p' c' h m e. rewrite nk. intros I. eapply fu. eapply in_pop'; eassumption.
    + rewrite np. exact fp.
    + split; [intros e; rewrite nk; auto|]. split; [intros ? _ []|]. split; [intros ? ? []|]. left. rewrite np, nq, nu, U, cnt_cons, cnt_app, cnt_cons. split; [|auto]. cbn -[oeq]. destruct (oeq (l_d k) (Some d)); lia.
  - split; [constructor|].
    + intros e. rewrite nk. destruct (setk_x (s_conn b) c e) as (_ & _ & _ & ->). apply fd.
    + intros e m. rewrite nk, nq. destruct (setk_x (s_conn b) c e) as (_ & _ & _ & ->). apply fq.
    + rewrite nu. intros p' c' h m e. rewrite nk. destruct (setk_x (s_conn b) c e) as (_ & _ & _ & ->). apply fu.
    + rewrite np. exact fp.
    + split; [intros e; rewrite nk; destruct (setk_x (s_conn b) c e) as (_ & _ & _ & ->); auto|]. split; [intros ? _ []|]. split; [intros ? ? []|]. left. rewrite np, nq, nu. auto.
  - split; [constructor|].
    + intros e LD. rewrite nk. unfold tornk. rewrite upd_n; [auto|]. intros ->. specialize (fd _ LD). congruence.
    + intros e m. rewrite nk, nq. intros I. destruct (fq _ _ I) as [X|X]; [auto|right; apply tornk_x; exact X].
    + rewrite nu. intros p' c' h m e I. rewrite nk. destruct (fu _ _ _ _ _ I) as [X|X]; [auto|right; apply tornk_x; exact X].
    + rewrite np. exact fp.
    + split; [intros e X; rewrite nk; apply tornk_x; exact X|]. split; [intros ? _ []|]. split; [intros ? ? []|]. left. rewrite np, nq, nu. auto.
  - assert (NX : forall e, l_d k = Some e -> e <> c) by (intros e LD ->; specialize (fd _ LD); congruence).
    destruct (b_l _ NB0 c W KP K2) as (SC & PC). destruct (b_p _ NB0) as (_ & _ & P3 & _ & _ & _).
    assert (EE : p_state (ended (pr b)) = Disconnected /\ p_pre (ended (pr b)) = None /\ cnt (isU (l_d k)) [news c (pr b)] = isB (pr b)).
    { unfold ended, fell, news, isB. rewrite SC. destruct (p_pre (pr b)) as [(h & n)|] eqn:PP.
      - destruct fp as (d & d1 & d2); [congruence|]. rewrite d1, d2, cnt_cons, isU_eq. auto.
      - rewrite P3. auto. }
    destruct EE as (E1 & E2 & E3).
    split; [constructor|].
    + intros e LD. rewrite nk. unfold tornk. rewrite upd_n; auto.
    + intros e m. rewrite nk, nq. intros I. destruct (fq _ _ I) as [X|X]; [auto|right; apply tornk_x; exact X].
    + rewrite nu. intros p' c' h m e I. rewrite nk. apply in_app_or in I as [I|[I|[]]].
      * destruct (fu _ _ _ _ _ I) as [X|X]; [auto|right; apply tornk_x; exact X].
      * left. unfold news in I. destruct (p_pre (pr b)) as [(h' & n')|] eqn:PP; [|discriminate]. destruct fp as (d & d1 & d2); [congruence|]. rewrite d1 in I. injection I as _ _ _ _ <-. exact d2.
    + rewrite np, E2. congruence.
    + split; [intros e X; rewrite nk; apply tornk_x; exact X|]. split; [intros ? _ []|]. split; [intros ? ? []|]. left. rewrite np, nq, nu, cnt_app, E3, E1. unfold isB at 2. rewrite E2. split; [lia|]. split; [|intros (X & _); discriminate].
      intros (_ & d & X1 & X2). exfalso. apply (NX d X2). congruence.
  - assert (LD : l_d k = Some c). { destruct (fq c n) as [X|X]; [rewrite Q; left; reflexivity|exact X|congruence]. }
    rewrite Q, cnt_cons, LD, isT_eq in PH. destruct PH as [(PH & NO)|PH]; [|lia].
    assert (PN : p_pre (pr b) = None) by (unfold isB in PH; destruct (p_pre (pr b)); [lia|reflexivity]).
    split; [constructor|].
    + intros e. rewrite nk. apply fd.
    + intros e m. rewrite nk, nq. intros I. eapply fq. eapply in_pop'; eassumption.
    + rewrite nu. intros p' c' h m e. rewrite nk. apply fu.
    + rewrite np. cbn. intros _. exists c. auto.
    + split; [intros e; rewrite nk; auto|]. split; [intros e LE [X|[]]; injection X as ->; apply NO; split; [exact ST|exists e; split; [exact PC|congruence]]|]. split; [intros e m X; apply one_msg in X; destruct X|]. left. rewrite np, nq, nu, Q, cnt_cons, LD, isT_eq. unfold isB. rewrite PN. cbn -[isT isU]. split; [lia|]. auto.
  - assert (LD : l_d k = Some c). { destruct (fq c n) as [X|X]; [rewrite Q; left; reflexivity|exact X|congruence]. }
    rewrite Q, cnt_cons, LD, isT_eq in PH. destruct PH as [(PH & NO)|PH]; [|lia].
    destruct (b_d _ NB0 ST) as (PN & _).
    split; [constructor|].
    + intros e. rewrite nk. destruct (shake_alike c (pr b) (s_conn b) e) as (_ & _ & _ & _ & -> & _). apply fd.
    + intros e m. rewrite nk, nq. destruct (shake_alike c (pr b) (s_conn b) e) as (_ & _ & _ & _ & -> & _). intros I. eapply fq. eapply in_pop'; eassumption.
    + rewrite nu. intros p' c' h m e. rewrite nk. destruct (shake_alike c (pr b) (s_conn b) e) as (_ & _ & _ & _ & -> & _). intros I. apply in_app_or in I as [I|[I|[]]]; [eauto|discriminate].
    + rewrite np. cbn. congruence.
    + split; [intros e; rewrite nk; destruct (shake_alike c (pr b) (s_conn b) e) as (_ & _ & _ & _ & -> & _); auto|]. split; [intros e _ [X|[X|[]]]; discriminate|].
      split; [intros e m X IR; change [OPong c (Some passive_nonce); OPing c None] with ([OPong c (Some passive_nonce)] ++ [OPing c None]) in X; rewrite msgs_app in X; apply in_app_or in X as [X|X]; apply one_msg in X as (<- & ->); [exact LD|discriminate]|].
      right. rewrite np, nq, nu, Q, cnt_cons, cnt_app, LD, isT_eq. unfold isB in *. cbn [done p_state p_conn p_pre]. rewrite PN in *. split; [lia|]. split; [exact NO|]. split; [change (cnt (isU (Some c)) [UCb 0 c true]) with 0; lia|]. split; [eauto|].
      exists c, (MPong (Some passive_nonce)). split; [reflexivity|]. split; [|reflexivity]. cbn. rewrite Nat.eqb_refl. left. reflexivity.
Qed.

(** ** The two together *)
Lemma FB_ld k k' b : l_d k' = l_d k -> FB k b -> FB k' b.
Proof. intros E [fd fq fu fp]. constructor; rewrite ?E; auto; intros until 0; rewrite ?E; eauto. Qed.
Lemma oldl_mono a a' b b' l : (forall c, k_term (s_conn a c) = true -> k_term (s_conn a' c) = true) -> (forall d, k_term (s_conn b d) = true -> k_term (s_conn b' d) = true) -> oldl a b l -> oldl a' b' l.
Proof. intros MA MB (o1 & o2 & o3). split; [auto|]. split; [intros m d I1 I2 I3; apply MB; eauto|]. intros m I1 I2. apply MA. eauto. Qed.

Section Fin.
Variable z : Z.
Variable y : sys.
Variable x : nat.
Variable k : link.
Hypothesis Z0 : (z < 0)%Z.
Hypothesis IV : INV z y.
Variable gd : bool.
Hypothesis FN : FIN gd x k y.

Lemma k_lc : l_c k = x.
Proof. destruct (i_l _ _ IV _ _ (f_k _ _ _ _ FN)) as (_ & H & _). destruct (fa_n _ _ _ (f_a _ _ _ _ FN)). lia. Qed.
Lemma lc_ne i l : nth_error (y_l y) i = Some l -> i <> pred x -> l_c l <> x.
Proof. intros N E. destruct (i_l _ _ IV _ _ N) as (_ & H & _). destruct (fa_n _ _ _ (f_a _ _ _ _ FN)). lia. Qed.
Lemma lc_eq i l : nth_error (y_l y) i = Some l -> l_c l = x -> l = k.
Proof. intros N E. destruct (i_l _ _ IV _ _ N) as (_ & H & _). pose proof (f_k _ _ _ _ FN) as K. rewrite <- E, H in K. cbn in K. congruence. Qed.
Lemma ld_eq i l d : nth_error (y_l y) i = Some l -> l_d l = Some d -> l_d k = Some d -> i = pred x.
Proof.
  intros N E1 E2. destruct (i_l _ _ IV _ _ N) as (_ & _ & H & _). destruct (i_l _ _ IV _ _ (f_k _ _ _ _ FN)) as (_ & _ & H' & _). destruct (H d E1) as (_ & X). destruct (H' d E2) as (_ & Y). lia.
Qed.
Lemma pre_lt : pred x < length (y_l y).
Proof. pose proof (f_k _ _ _ _ FN). apply nth_error_Some. congruence. Qed.

Lemma fin_A a e : stepA (y_a y) a e -> FIN gd x (addm false e k) (mkSys a (y_b y) (outl false e (y_l y)) (outk false e (y_kill y))).
Proof.
  intros S. destruct (stepA_facts z _ _ _ Z0 (i_a _ _ IV) S) as (_ & _ & _ & ND & _). destruct (FA_step gd z x _ _ _ Z0 (i_a _ _ IV) (f_a _ _ _ _ FN) S) as (F' & TM & NK & MS & ST & CN & PG).
  rewrite (outl_map false e (y_l y) ND) by (intros; eapply by_false; eassumption). destruct FN as [fa fb fk fka fkb fl fp].
  constructor; cbn [y_a y_b y_l y_kill]; auto.
  - eapply FB_ld; [|exact fb]. reflexivity.
  - rewrite nth_error_map, fk. reflexivity.
  - intros X. apply outk_in in X as [X|(c & X & Y)]; [auto|]. injection X as <-. auto.
  - intros d LD X. apply outk_in in X as [X|(c & X & Y)]; [|discriminate]. exact (fkb d LD X).
  - intros i l NI NE. rewrite nth_error_map in NI. destruct (nth_error (y_l y) i) as [l0|] eqn:N0; [|discriminate]. injection NI as <-. destruct (fl i l0 N0 NE) as (o1 & o2 & o3). split; [|split]; cbn.
    + auto.
    + intros m d I P. apply in_app_or in I as [I|I]; [eauto|]. destruct (MS _ _ I) as (_ & X). destruct (lc_ne i l0 N0 NE (X P)).
    + intros m I R. apply TM. eauto.
  - unfold phase, tok, on, back in *. cbn [addm addf l_fwd l_d l_bwd]. rewrite k_lc, cnt_app. destruct fp as [(p1 & p2 & p3)|[(p1 & p2 & p3)|(p1 & p2 & p3 & p4)]].
    + destruct ST as [(s1 & s2)|(s1 & s2 & s3)]; [left; split; [congruence|]; split; [lia|exact p3]|]. right; left. split; [exact s2|]. split; [lia|exact p3].
    + destruct ST as [(s1 & s2)|(s1 & s2 & s3)]; [|congruence]. right; left. split; [congruence|]. split; [lia|exact p3].
    + destruct ST as [(s1 & s2)|(s1 & s2 & s3)]; [|congruence]. right; right. split; [congruence|]. split; [lia|]. split; [exact p3|]. destruct p4 as [X|[X|X]]; [auto| |auto]. right. auto.
Qed.

Lemma fin_B b e : stepB (y_b y) b e -> FIN gd x (addm true e k) (mkSys (y_a y) b (outl true e (y_l y)) (outk true e (y_kill y))).
Proof.
  intros S. destruct (stepB_facts _ _ _ (i_b _ _ IV) S) as (_ & _ & _ & ND & _).
  assert (PH : tok k (y_b y) = 1 /\ ~ on k (y_b y) \/ tok k (y_b y) = 0). { destruct (f_p _ _ _ _ FN) as [(p1 & p2 & p3)|[(p1 & p2 & p3)|(p1 & p2 & p3 & p4)]]; auto. }
  destruct (FB_step k _ _ _ (i_b _ _ IV) (f_b _ _ _ _ FN) PH S) as (F' & TM & NK & MS & ST).
  rewrite (outl_map true e (y_l y) ND) by (intros; eapply by_false; eassumption). pose proof FN as [fa fb fk fka fkb fl fp].
  constructor; cbn [y_a y_b y_l y_kill]; auto.
  - eapply FB_ld; [|exact F']. reflexivity.
  - rewrite nth_error_map, fk. reflexivity.
  - intros X. apply outk_in in X as [X|(c & X & Y)]; [auto|discriminate].
  - cbn. intros d LD X. apply outk_in in X as [X|(c & X & Y)]; [exact (fkb d LD X)|]. injection X as <-. exact (NK d LD Y).
  - intros i l NI NE. rewrite nth_error_map in NI. destruct (nth_error (y_l y) i) as [l0|] eqn:N0; [|discriminate]. injection NI as <-. destruct (fl i l0 N0 NE) as (o1 & o2 & o3). split; [|split]; cbn.
    + auto.
    + intros m d I P LD. apply TM. eauto.
    + intros m I R. apply in_app_or in I as [I|I]; [eauto|]. destruct (l_d l0) as [d|] eqn:LD; [|destruct I]. destruct (NE (ld_eq i l0 d N0 LD (MS _ _ I R))).
  - assert (T0 : forall b, tok (addm true e k) b = tok k b) by reflexivity. assert (O0 : forall b, on (addm true e k) b <-> on k b) by (intros; reflexivity). unfold phase in *. rewrite T0, O0. destruct ST as [(s1 & s2 & s3)|(s1 & s2 & s3 & s4 & d & m & s5 & s6 & s7)].
    + rewrite s1. destruct fp as [(p1 & p2 & p3)|[(p1 & p2 & p3)|(p1 & p2 & p3 & p4)]]; [left; tauto|right; left; tauto|right; right]. split; [exact p1|]. split; [exact p2|]. split; [auto|]. destruct p4 as [(w & W1 & W2)|X]; [left|right; exact X]. exists w. split; [cbn; apply in_or_app; auto|exact W2].
    + right; right. destruct fp as [(p1 & p2 & p3)|[(p1 & p2 & p3)|(p1 & p2 & p3 & p4)]]; [lia| |lia]. split; [exact p1|]. split; [exact s3|]. split; [exact s4|]. left. exists m. split; [|exact s7]. cbn. apply in_or_app. right. rewrite s5. exact s6.
Qed.

Lemma fin_termA a c : (In (false, c) (y_kill y) \/ mates false c y) -> now 2%N a (pr (y_a y)) (termk (s_conn (y_a y)) c) (s_nc (y_a y)) (s_q (y_a y)) (s_uq (y_a y)) (s_pend (y_a y)) -> FIN gd x k (mkSys a (y_b y) (y_l y) (y_kill y)).
Proof.
  intros M [nb np nk nn nq nu ne]. pose proof FN as [fa fb fk fka fkb fl fp]. pose proof fa as [f1 f2 fw f3 f4 f5 f6 f7].
  assert (NX : c <> x). { intros ->. destruct M as [M|(l & d & IL & LD & LC & KT)]; [contradiction|]. apply In_nth_error in IL as (i & NI). rewrite (lc_eq i l NI (eq_sym LC)) in LD. rewrite (fb_d _ _ fb d LD) in KT. discriminate. }
  constructor; cbn [y_a y_b y_l y_kill]; auto.
  - constructor; unfold within; rewrite ?np, ?nn, ?nq, ?nk; auto.
    + unfold termk. rewrite upd_n by auto. exact f2.
    + intros G d. rewrite nk. destruct (termk_x (s_conn (y_a y)) c d) as (_ & -> & -> & _). apply f5; exact G.
    + intros d W N. rewrite nk. unfold termk. rewrite upd_if. destruct (d =? c) eqn:E; [apply Nat.eqb_eq in E; subst d; cbn; apply f6; assumption|apply f6; assumption].
    + intros d I. rewrite nk. destruct (f7 d I) as [X|X]; [auto|right; apply termk_x; exact X].
  - intros i l NI NE. eapply oldl_mono; [| |apply (fl i l NI NE)]; auto. intros d X. rewrite nk. apply termk_x. exact X.
  - unfold phase, back in *. rewrite nk, nq, np. unfold termk. rewrite upd_n by auto. exact fp.
Qed.
Lemma fin_termB b c : (In (true, c) (y_kill y) \/ mates true c y) -> now 1%N b (pr (y_b y)) (termk (s_conn (y_b y)) c) (s_nc (y_b y)) (s_q (y_b y)) (s_uq (y_b y)) (s_pend (y_b y)) -> FIN gd x k (mkSys (y_a y) b (y_l y) (y_kill y)).
Proof.
  intros M [nb np nk nn nq nu ne]. pose proof FN as [fa fb fk fka fkb fl fp]. pose proof fb as [f1 f2 f3 f4].
  assert (NX : forall d, l_d k = Some d -> d <> c). { intros d LK ->. destruct M as [M|(l & d & IL & LD & LC & KT)]; [exact (fkb c LK M)|]. subst d. apply In_nth_error in IL as (i & NI). pose proof (ld_eq i l c NI LD LK). subst i. rewrite fk in NI. injection NI as <-. rewrite k_lc, (fa_x _ _ _ fa) in KT. discriminate. }
  constructor; cbn [y_a y_b y_l y_kill]; auto.
  - constructor; rewrite ?np, ?nn, ?nq, ?nu; auto.
    + intros d LD. rewrite nk. unfold termk. rewrite upd_n by (apply NX; exact LD). auto.
    + intros d n I. rewrite nk. destruct (f2 d n I) as [X|X]; [auto|right; apply termk_x; exact X].
    + intros p c' h n d I. rewrite nk. destruct (f3 _ _ _ _ d I) as [X|X]; [auto|right; apply termk_x; exact X].
  - intros i l NI NE. eapply oldl_mono; [| |apply (fl i l NI NE)]; auto. intros d X. rewrite nk. apply termk_x. exact X.
  - unfold phase, tok, on in *. rewrite nq, np, nu. exact fp.
Qed.

Lemma fin_accept i l b : nth_error (y_l y) i = Some l -> l_d l = None -> k_term (s_conn (y_a y) (l_c l)) = false ->
    now 1%N b (pr (y_b y)) (upd (s_conn (y_b y)) (s_nc (y_b y)) (mkConn Passive (100 + N.of_nat i)%N None true None false false false)) (S (s_nc (y_b y))) (s_q (y_b y)) (s_uq (y_b y)) (s_pend (y_b y)) ->
    exists k', FIN gd x k' (mkSys (y_a y) b (set_nth i (mkLink false (l_c l) (Some (s_nc (y_b y))) (l_fwd l) (l_bwd l)) (y_l y)) (y_kill y)).
Proof.
  intros NI LD KT [nb np nk nn nq nu ne]. pose proof FN as [fa fb fk fka fkb fl fp]. pose proof fb as [f1 f2 f3 f4]. set (m := s_nc (y_b y)) in *.
  assert (i = pred x). { destruct (Nat.eq_dec i (pred x)) as [E|E]; [exact E|]. destruct (fl i l NI E) as (o1 & _). rewrite (o1 LD) in KT. discriminate. } subst i.
  rewrite fk in NI. injection NI as <-. exists (mkLink false (l_c k) (Some m) (l_fwd k) (l_bwd k)).
  assert (QT : forall d n, In (TPing (Some d) 1%N n) (s_q (y_b y)) -> d <> m /\ k_term (s_conn b d) = true).
  { intros d n I. destruct (i_qb _ _ IV _ I) as [[]|(d' & W & X)]. assert (d' = d) by (destruct X as [(X & _)|[(X & _)|(n' & X & _)]]; [discriminate X|discriminate X|congruence]). subst d'. assert (d <> m) by (unfold m; destruct W; lia). split; [assumption|]. rewrite nk, upd_n by assumption. destruct (f2 _ _ I) as [Y|Y]; [congruence|exact Y]. }
  assert (UT : forall p c h n d, In (UPre p c h n (Some d)) (s_uq (y_b y)) -> d <> m /\ k_term (s_conn b d) = true).
  { intros p c h n d I. destruct (b_u _ (i_b _ _ IV) _ I) as [(? & ? & ? & X)|(? & ? & ? & d' & X & _ & W)]; [discriminate|]. injection X as _ _ _ _ X. subst d'. assert (d <> m) by (unfold m; destruct W; lia). split; [assumption|]. rewrite nk, upd_n by assumption. destruct (f3 _ _ _ _ _ I) as [Y|Y]; [congruence|exact Y]. }
  assert (PN : p_pre (pr (y_b y)) = None). { destruct (p_pre (pr (y_b y))) eqn:PP; [|reflexivity]. destruct f4 as (d & _ & X); [congruence|]. congruence. }
  constructor; cbn [y_a y_b y_l y_kill]; auto.
  - constructor; cbn [l_d]; rewrite ?np, ?nn, ?nq, ?nu; auto.
    + intros d [= <-]. rewrite nk, upd_c. reflexivity.
    + intros d n I. right. apply (QT d n I).
    + intros p c h n d I. right. apply (UT _ _ _ _ _ I).
    + congruence.
  - unfold set_nth. rewrite nth_error_app2 by (rewrite firstn_length; lia). rewrite firstn_length_le by (pose proof pre_lt; lia). rewrite Nat.sub_diag. reflexivity.
  - cbn. intros d [= <-] X. specialize (i_k _ _ IV _ _ X). cbn. fold m. lia.
  - intros j w NJ NE. destruct (nth_set _ _ _ _ _ NJ pre_lt) as [(X & _)|(_ & NW)]; [contradiction|]. pose proof NW as NW'. destruct (fl j w NW NE) as (o1 & o2 & o3). split; [exact o1|]. split; [|exact o3]. intros v d I P W. destruct (i_l _ _ IV _ _ NW') as (_ & _ & H & _). destruct (H d W) as ((_ & H1) & _). rewrite nk, upd_n by (fold m in H1; lia). eauto.
  - assert (NO : ~ on (mkLink false (l_c k) (Some m) (l_fwd k) (l_bwd k)) b). { unfold on. rewrite np. cbn. intros (SC & d & X1 & X2). injection X2 as <-. destruct (b_c _ (i_b _ _ IV) SC) as (_ & (d & Y1 & _ & Y2 & _) & _). assert (d = m) by congruence. subst d. destruct Y2 as (_ & Y2). fold m in Y2. lia. }
    assert (TK : tok (mkLink false (l_c k) (Some m) (l_fwd k) (l_bwd k)) b = tok k (y_b y)).
    { unfold tok. cbn [l_fwd l_d]. rewrite nq, nu, np, LD. f_equal. rewrite <- !Nat.add_assoc. f_equal.
      assert (C1 : forall q, (forall d n, In (TPing (Some d) 1%N n) q -> d <> m) -> cnt (isT (Some m)) q = 0 /\ cnt (isT None) q = 0). { intros q H. split; apply cnt_0; intros t I; destruct t as [| | | | | | | | |[d|] h n|]; cbn; try reflexivity; destruct h as [|[p|p|]]; try reflexivity. apply Nat.eqb_neq. intros ->. exact (H _ _ I eq_refl). }
      assert (C2 : forall q, (forall p c h n d, In (UPre p c h n (Some d)) q -> d <> m) -> cnt (isU (Some m)) q = 0 /\ cnt (isU None) q = 0). { intros q H. split; apply cnt_0; intros t I; destruct t as [|? ? ? ? [d|]|]; cbn; try reflexivity. apply Nat.eqb_neq. intros ->. exact (H _ _ _ _ _ I eq_refl). }
      destruct (C1 (s_q (y_b y))) as (-> & ->); [intros d n I; apply (QT d n I)|]. destruct (C2 (s_uq (y_b y))) as (-> & ->); [intros p c h n d I; apply (UT _ _ _ _ _ I)|]. reflexivity. }
    unfold phase in *. rewrite TK. destruct fp as [(p1 & p2 & p3)|[(p1 & p2 & p3)|(p1 & p2 & (p3 & d & _ & p4) & _)]]; [auto|auto|congruence].
Qed.

Lemma set_same i (w : link) L l : nth_error L i = Some l -> nth_error (set_nth i w L) i = Some w.
Proof. intros N. assert (i < length L) by (apply nth_error_Some; congruence). unfold set_nth. rewrite nth_error_app2 by (rewrite firstn_length; lia). rewrite firstn_length_le by lia. rewrite Nat.sub_diag. reflexivity. Qed.
Lemma set_other (w : link) : forall i L l j, nth_error L i = Some l -> j <> i -> nth_error (set_nth i w L) j = nth_error L j.
Proof. induction i as [|i IH]; intros [|h L] l [|j] N NE; try discriminate; try reflexivity; try lia. cbn. apply (IH L l j); [exact N|lia]. Qed.

Lemma fin_getA i l d m g a : nth_error (y_l y) i = Some l -> l_d l = Some d -> l_bwd l = m :: g -> k_set (s_conn (y_a y) (l_c l)) = true -> now 2%N a (pr (y_a y)) (s_conn (y_a y)) (s_nc (y_a y)) (s_q (y_a y) ++ [incoming false (l_c l) m]) (s_uq (y_a y)) (s_pend (y_a y)) ->
    exists k', FIN gd x k' (mkSys a (y_b y) (set_nth i (mkLink false (l_c l) (Some d) (l_fwd l) g) (y_l y)) (y_kill y)).
Proof.
  intros NI LD LB KS [nb np nk nn nq nu ne]. pose proof FN as [fa fb fk fka fkb fl fp]. pose proof fa as [f1 f2 fw f3 f4 f5 f6 f7]. pose proof k_lc as KC.
  destruct (i_l _ _ IV _ _ NI) as (_ & _ & _ & _ & OB). specialize (OB m). rewrite LB in OB. specialize (OB (or_introl eq_refl)).
  assert (LT : i < length (y_l y)) by (apply nth_error_Some; congruence).
  assert (TP : forall c, incoming false (l_c l) m = TPong c 2%N passive_nonce -> c = l_c l /\ isR m = true). { intros c. destruct m as [[n|]|[n|]]; cbn; try discriminate. intros [= <- _]. auto. }
  assert (FA' : FA gd x a).
  { constructor; unfold within; rewrite ?np, ?nn, ?nk; auto.
    - intros G c. rewrite nk. apply f5; exact G.
    - intros c. rewrite nk. apply f6.
    - intros c I. rewrite nq in I. rewrite nk. apply in_app_or in I as [I|[I|[]]]; [auto|]. destruct (TP c I) as (-> & R). destruct (Nat.eq_dec i (pred x)) as [E|E].
      + left. subst i. rewrite fk in NI. injection NI as <-. exact KC.
      + right. destruct (fl i l NI E) as (_ & _ & o3). apply (o3 m); [rewrite LB; left; reflexivity|exact R]. }
  destruct (Nat.eq_dec i (pred x)) as [E|E].
  - subst i. rewrite fk in NI. injection NI as <-. exists (mkLink false (l_c k) (Some d) (l_fwd k) g). constructor; cbn [y_a y_b y_l y_kill]; auto.
    + eapply FB_ld; [|exact fb]. cbn. congruence.
    + eapply set_same. exact fk.
    + cbn. rewrite <- LD. exact fkb.
    + intros j w NJ NE. destruct (nth_set _ _ _ _ _ NJ LT) as [(X & _)|(_ & NW)]; [contradiction|]. eapply oldl_mono; [| |apply (fl j w NW NE)]; auto. intros c. rewrite nk. auto.
    + unfold phase, tok, on, back in *. cbn [l_fwd l_d l_bwd]. rewrite nk, nq, np, <- LD. destruct fp as [(p1 & p2 & p3)|[(p1 & p2 & p3)|(p1 & p2 & p3 & p4)]]; [auto|auto|]. right; right. split; [exact p1|]. split; [exact p2|]. split; [exact p3|].
      destruct p4 as [(w & W1 & W2)|[X|X]]; [|right; left; apply in_or_app; auto|auto]. rewrite LB in W1. destruct W1 as [<-|W1]; [|left; eauto]. right; left. apply in_or_app. right. left. destruct m as [[n|]|[n|]]; try discriminate W2. cbn in OB. destruct OB as (-> & _). rewrite KC. reflexivity.
  - exists k. constructor; cbn [y_a y_b y_l y_kill]; auto.
    + rewrite (set_other _ _ _ l) by auto. exact fk.
    + intros j w NJ NE. destruct (nth_set _ _ _ _ _ NJ LT) as [(-> & ->)|(_ & NW)].
      * destruct (fl i l NI E) as (o1 & o2 & o3). split; [cbn; discriminate|]. split; cbn; [intros v e I P X; apply (o2 v e I P); congruence|]. intros v I P. rewrite nk. apply (o3 v); [rewrite LB; right; exact I|exact P].
      * eapply oldl_mono; [| |apply (fl j w NW NE)]; auto. intros c. rewrite nk. auto.
    + unfold phase, tok, on, back in *. rewrite nk, nq, np. destruct fp as [(p1 & p2 & p3)|[(p1 & p2 & p3)|(p1 & p2 & p3 & p4)]]; [auto|auto|]. right; right. split; [exact p1|]. split; [exact p2|]. split; [exact p3|]. destruct p4 as [X|[X|X]]; [auto|right; left; apply in_or_app; auto|auto].
Qed.

Lemma fin_getB i l d m f b : nth_error (y_l y) i = Some l -> l_d l = Some d -> l_fwd l = m :: f -> k_set (s_conn (y_b y) d) = true -> now 1%N b (pr (y_b y)) (s_conn (y_b y)) (s_nc (y_b y)) (s_q (y_b y) ++ [incoming true d m]) (s_uq (y_b y)) (s_pend (y_b y)) ->
    exists k', FIN gd x k' (mkSys (y_a y) b (set_nth i (mkLink false (l_c l) (Some d) f (l_bwd l)) (y_l y)) (y_kill y)).
Proof.
  intros NI LD LB KS [nb np nk nn nq nu ne]. pose proof FN as [fa fb fk fka fkb fl fp]. pose proof fb as [f1 f2 f3 f4]. pose proof k_lc as KC.
  assert (LT : i < length (y_l y)) by (apply nth_error_Some; congruence).
  assert (IT : forall od, isT od (incoming true d m) = isP m && oeq od (Some d)) by (intros od; destruct m as [[n|]|[n|]]; reflexivity).
  assert (DT : isP m = true -> l_d k = Some d \/ k_term (s_conn (y_b y) d) = true).
  { intros P. destruct (Nat.eq_dec i (pred x)) as [E|E]; [left; subst i; rewrite fk in NI; injection NI as <-; exact LD|right]. destruct (fl i l NI E) as (_ & o2 & _). apply (o2 m d); [rewrite LB; left; reflexivity|exact P|exact LD]. }
  assert (FB' : forall k', l_d k' = l_d k -> FB k' b).
  { intros k' E. eapply FB_ld; [exact E|]. constructor; rewrite ?np, ?nu; auto.
    - intros e. rewrite nk. auto.
    - intros e n I. rewrite nq in I. rewrite nk. apply in_app_or in I as [I|[I|[]]]; [eauto|]. destruct m as [[w|]|[w|]]; try discriminate I. injection I as <- _. apply DT. reflexivity.
    - intros p c h n e. rewrite nk. apply f3. }
  destruct (Nat.eq_dec i (pred x)) as [E|E].
  - subst i. rewrite fk in NI. injection NI as <-. exists (mkLink false (l_c k) (Some d) f (l_bwd k)). constructor; cbn [y_a y_b y_l y_kill]; auto.
    + eapply set_same. exact fk.
    + cbn. rewrite <- LD. exact fkb.
    + intros j w NJ NE. destruct (nth_set _ _ _ _ _ NJ LT) as [(X & _)|(_ & NW)]; [contradiction|]. eapply oldl_mono; [| |apply (fl j w NW NE)]; auto. intros c. rewrite nk. auto.
    + assert (TK : tok (mkLink false (l_c k) (Some d) f (l_bwd k)) b = tok k (y_b y)). { unfold tok. cbn [l_fwd l_d]. rewrite nq, nu, np, LB, LD, cnt_app, !cnt_cons, IT. cbn [oeq]. rewrite Nat.eqb_refl, andb_true_r. change (cnt (isT (Some d)) []) with 0. lia. }
      unfold phase in *. rewrite TK. unfold on, back in *. cbn [l_d l_bwd]. rewrite np, <- LD. exact fp.
  - exists k. constructor; cbn [y_a y_b y_l y_kill]; auto.
    + rewrite (set_other _ _ _ l) by auto. exact fk.
    + intros j w NJ NE. destruct (nth_set _ _ _ _ _ NJ LT) as [(-> & ->)|(_ & NW)].
      * destruct (fl i l NI E) as (o1 & o2 & o3). split; [cbn; discriminate|]. split; cbn; [|exact o3]. intros v e I P X. rewrite nk. apply (o2 v e); [rewrite LB; right; exact I|exact P|congruence].
      * eapply oldl_mono; [| |apply (fl j w NW NE)]; auto. intros c. rewrite nk. auto.
    + assert (TK : tok k b = tok k (y_b y)). { unfold tok. rewrite nq, nu, np, cnt_app, cnt_cons, IT. destruct (isP m && oeq (l_d k) (Some d)) eqn:X; [|change (cnt (isT (l_d k)) []) with 0; lia]. apply andb_true_iff in X as (_ & X). destruct (l_d k) as [e|] eqn:LK; [|discriminate]. apply Nat.eqb_eq in X. subst e. destruct (E (ld_eq i l d NI LD LK)). }
      unfold phase in *. rewrite TK. unfold on in *. rewrite np. exact fp.
Qed.

Theorem FIN_tr y' : tr y y' -> exists k', FIN gd x k' y'.
Proof.
  intros [a e S|b e S|a c M W K N|b c M W K N|i l b H1 H2 H3 H4|i l d m g a H1 H2 H3 H4 H5|i l d m f b H1 H2 H3 H4 H5].
  - eexists; apply fin_A; exact S.
  - eexists; apply fin_B; exact S.
  - eexists; eapply fin_termA; eassumption.
  - eexists; eapply fin_termB; eassumption.
  - eapply fin_accept; eassumption.
  - eapply fin_getA; eassumption.
  - eapply fin_getB; eassumption.
Qed.
End Fin.

(** ** The dial *)
Lemma retry_dial z y n p g y' o : INV z y -> g_ok g = true -> g_cert g = None -> lstep (LEv (PRetry n p g)) y = Some (y', o) -> dial y y'.
Proof.
  intros I GO GC E. pose proof (a_b _ _ (i_a _ _ I)) as BA. pose proof (b_b _ (i_b _ _ I)) as BB. cbn [lstep pstep] in E. apply local_inv in E as (s1 & o1 & E & -> & ->). destruct n; cbn [node] in E.
  - exfalso. unfold step in E. destruct BB as [H1 H2 H3 H4 H5 H6 H7 H8]. rewrite H1 in E. destruct p as [|p]; [|rewrite (H4 (S p)) in E by lia; discriminate]. destruct (b_p _ (i_b _ _ I)) as (_ & _ & _ & TT & _). rewrite TT, andb_false_r in E. discriminate.
  - destruct (n_retry 2%N (y_a y) s1 o1 BA p g E GO GC) as (-> & TON & F & EF & N). rewrite route_out, EF. destruct (a_p _ _ (i_a _ _ I)) as (P1 & P2 & _).
    rewrite P1 in *. unfold outl, outk. cbn [fold_left outl1 outk1 addr_of negb N.eqb Pos.eqb set_node y_a y_b y_l y_kill].
    replace (fold_left (outl1 false) (out_kill (p_out (pr (y_a y)))) (y_l y ++ [mkLink false (s_nc (y_a y)) None [] []])) with (y_l y ++ [mkLink false (s_nc (y_a y)) None [] []]) by (destruct (p_out (pr (y_a y))); reflexivity).
    apply (D_A y s1); auto.
Qed.

(** The relation between EventModel and EventSpec, and its preservation. *)
From Coq Require Import Arith List Bool Lia.
From Verif Require Import EventModel EventSpec.
Import ListNotations.

Definition on_poll r timed := match r_poll r with Some (x, y) => Some (SPoll x y timed) | None => None end.
Definition on_timer r timed := option_map (fun d => STimer d timed) (r_timer r).
Definition on_sig r := option_map SSig (r_sig r).
(** The handles of a registration and what they are started with. *)
Definition parts (c : cls) (r : reg) : list (nat * option start) :=
  match c with
  | CFd => [(r_id r, on_poll r false)]
  | CTimer => [(r_id r, on_timer r false)]
  | CSig => [(r_id r, on_sig r)]
  | CTimed => [(r_id r, on_poll r true); (S (r_id r), on_timer r true)]
  end.

Definition concrete (c : cls) (r : reg) : obj :=
  mkO c (Some (r_loop r)) (r_fd r) (Some (r_id r)) (if cls_eqb c CTimed then Some (S (r_id r)) else None) (Some (r_cb r)) (r_ms r).

Definition obj_ok (s : st) (o : nat) (x : option (cls * option reg)) : Prop :=
  match x with
  | None => s_obj s o = None
  | Some (c, None) => exists q, s_obj s o = Some q /\ o_cls q = c /\ o_ev q = None /\ o_ev2 q = None
  | Some (c, Some r) => s_obj s o = Some (concrete c r) /\ s_dead s (r_loop r) = false /\
      forall h x, In (h, x) (parts c r) -> h < s_hn s /\ s_h s h = mkH (r_loop r) (PObj o) Open x
  end.

Definition held (a : ast) (h : nat) : Prop := exists o c r x, a_obj a o = Some (c, Some r) /\ In (h, x) (parts c r).

Record Rel (s : st) (a : ast) : Prop := mkRel {
  rel_obj : forall o, obj_ok s o (a_obj a o);
  rel_n : s_hn s = a_next a;
  rel_user : forall l, s_user s l = a_user a l;
  rel_run : s_run s = a_run a;
  rel_now : s_now s = a_now a;
  rel_lt : forall l, s_lt s l = a_lt a l;
  rel_bound : forall o, s_obj s o <> None -> o < s_bound s;
  rel_open : forall h, h < s_hn s -> h_st (s_h s h) = Open -> held a h;
  rel_dead : forall l, s_dead s l = true -> s_user s l = false /\ forall h, h < s_hn s -> h_loop (s_h s h) = l -> h_st (s_h s h) = Freed \/ h_st (s_h s h) = Lost;
  rel_on : forall h, h < s_hn s -> h_st (s_h s h) <> Open -> h_on (s_h s h) = None
}.

Lemma obj_frame s s' o x : obj_ok s o x -> s_obj s' o = s_obj s o -> s_hn s <= s_hn s' -> (forall l, s_dead s l = false -> (exists q, s_obj s o = Some q /\ o_ec q = Some l) -> s_dead s' l = false) ->
  (forall h, h < s_hn s -> h_data (s_h s h) = PObj o -> h_st (s_h s h) = Open -> s_h s' h = s_h s h) -> obj_ok s' o x.
Proof.
  intros K O N D H. destruct x as [[c [r|]]|]; cbn [obj_ok] in *.
  - destruct K as (K & DD & P). split; [congruence|]. split; [apply D; [exact DD|exists (concrete c r); auto]|]. intros h x I. destruct (P h x I) as (L & E). split; [lia|]. rewrite (H h L); [exact E|rewrite E; reflexivity|rewrite E; reflexivity].
  - destruct K as (q & Q & K). exists q. split; [congruence|exact K].
  - congruence.
Qed.

Ltac eqn := repeat match goal with
  | |- context [Nat.eqb ?x ?x] => rewrite (Nat.eqb_refl x)
  | H : ?x <> ?y |- context [Nat.eqb ?x ?y] => rewrite (proj2 (Nat.eqb_neq x y) H)
  | H : ?y <> ?x |- context [Nat.eqb ?x ?y] => rewrite (proj2 (Nat.eqb_neq x y) (not_eq_sym H))
  | |- context [Nat.eqb ?x (S ?x)] => rewrite (proj2 (Nat.eqb_neq x (S x)) (Nat.neq_succ_diag_r x))
  | |- context [Nat.eqb (S ?x) ?x] => rewrite (proj2 (Nat.eqb_neq (S x) x) (Nat.neq_succ_diag_l x))
  end.
Ltac splitn := match goal with |- context [Nat.eqb ?x ?y] => let E := fresh "E" in destruct (Nat.eqb x y) eqn:E; [apply Nat.eqb_eq in E|apply Nat.eqb_neq in E] end.
Ltac flds := cbn [put set_h set_data set_on new_h w_obj w_h w_hn w_bound w_user w_dead w_run w_now w_lt s_obj s_h s_hn s_bound s_user s_dead s_run s_now s_lt h_loop h_data h_st h_on a_put a_bump a_calls a_obj a_next a_user a_run a_now a_lt fst snd].

Lemma part_ids c r h x : In (h, x) (parts c r) -> h = r_id r \/ (c = CTimed /\ h = S (r_id r)).
Proof. destruct c; cbn [parts In]; intros I; repeat (destruct I as [I|I]; [injection I as <- _; auto|]); contradiction. Qed.

(** Two objects hold different registrations. *)
Lemma apart s a o o' c c' r r' h x x' : Rel s a -> a_obj a o = Some (c, Some r) -> a_obj a o' = Some (c', Some r') -> In (h, x) (parts c r) -> In (h, x') (parts c' r') -> o = o'.
Proof.
  intros R E E' I I'. pose proof (rel_obj _ _ R o) as K. rewrite E in K. pose proof (rel_obj _ _ R o') as K'. rewrite E' in K'. destruct K as (_ & _ & K), K' as (_ & _ & K').
  destruct (K _ _ I) as (_ & X), (K' _ _ I') as (_ & X'). congruence.
Qed.

Lemma Rel_ext s a a' : Rel s a -> (forall o, a_obj a' o = a_obj a o) -> a_next a' = a_next a -> (forall l, a_user a' l = a_user a l) -> a_run a' = a_run a -> a_now a' = a_now a -> (forall l, a_lt a' l = a_lt a l) -> Rel s a'.
Proof.
  intros [A B C D E F G H I J] P1 P2 P3 P4 P5 P6. constructor; [|congruence| |congruence|congruence| |exact G| |exact I|exact J].
  - intros o. rewrite P1. apply A.
  - intros l. rewrite P3. apply C.
  - intros l. rewrite P6. apply F.
  - intros h L O. destruct (H h L O) as (o & c & r & x & X & Y). exists o, c, r, x. rewrite P1. auto.
Qed.

(** ** Moves *)

Lemma part1 c r : exists x, In (r_id r, x) (parts c r).
Proof. destruct c; cbn [parts]; eexists; left; reflexivity. Qed.

(** Changing the holder of a registration: handles get the new address. *)
Definition relabel (c : cls) (r : reg) (o : nat) (f : nat -> hnd) (h : nat) : hnd :=
  let x := f h in if Nat.eqb h (r_id r) || (cls_eqb c CTimed && Nat.eqb h (S (r_id r))) then mkH (h_loop x) (PObj o) (h_st x) (h_on x) else x.
Definition relabel_opt (c : cls) (r : option reg) (o : nat) (f : nat -> hnd) : nat -> hnd := match r with Some r => relabel c r o f | None => f end.

Definition same_but (s s' : st) : Prop := s_hn s' = s_hn s /\ s_user s' = s_user s /\ s_dead s' = s_dead s /\ s_run s' = s_run s /\ s_now s' = s_now s /\ s_lt s' = s_lt s.
Lemma same_but_refl s : same_but s s. Proof. repeat split. Qed.

Lemma fix_all_eff o s c r : s_obj s o = Some (concrete c r) ->
  exists s', fix_all o s = Next s' [] /\ (forall h, s_h s' h = relabel c r o (s_h s) h) /\ s_obj s' = s_obj s /\ s_bound s' = s_bound s /\ same_but s s'.
Proof.
  intros E. unfold fix_all. rewrite E. destruct c; cbn [concrete o_cls cls_eqb].
  1,2,3: eexists; split; [reflexivity|]; unfold fix1; rewrite E; cbn [concrete o_ev]; flds; split; [|repeat split]; intros h; unfold relabel, upd; cbn [cls_eqb andb]; rewrite orb_false_r; splitn; [subst; reflexivity|reflexivity].
  unfold fix_timed, fix2, fix1. rewrite E. cbn [concrete o_ev o_ev2 cls_eqb]. flds. rewrite E. cbn [concrete o_ev o_ev2 cls_eqb]. flds. rewrite E. cbn [concrete o_ev o_ev2 cls_eqb]. eexists. split; [reflexivity|]. flds. split; [|repeat split].
  intros h. unfold relabel, upd. eqn. cbn [cls_eqb andb]. flds. splitn; [subst h; cbn [orb]; eqn; reflexivity|]. cbn [orb]. splitn; [subst; reflexivity|reflexivity].
Qed.
Lemma fix_all_none o s q : s_obj s o = Some q -> o_ev q = None -> o_ev2 q = None -> fix_all o s = Next s [].
Proof.
  intros E V V2. unfold fix_all. rewrite E. destruct (o_cls q); unfold fix_timed, fix2, fix1; repeat (rewrite E || rewrite V || rewrite V2); reflexivity.
Qed.

Definition conc_opt (s : st) (o : nat) (c : cls) (r : option reg) (q : obj) : Prop :=
  match r with Some r => q = concrete c r | None => o_cls q = c /\ o_ev q = None /\ o_ev2 q = None end.
Lemma obj_conc s o c r : obj_ok s o (Some (c, r)) -> exists q, s_obj s o = Some q /\ conc_opt s o c r q.
Proof. destruct r as [r|]; cbn [obj_ok]; intros K; [exists (concrete c r); split; [apply K|reflexivity]|destruct K as (q & Q & K); exists q; auto]. Qed.
Lemma fix_all_opt o s c r q : s_obj s o = Some q -> conc_opt s o c r q ->
  exists s', fix_all o s = Next s' [] /\ (forall h, s_h s' h = relabel_opt c r o (s_h s) h) /\ s_obj s' = s_obj s /\ s_bound s' = s_bound s /\ same_but s s'.
Proof.
  destruct r as [r|]; cbn [conc_opt relabel_opt]; intros E K.
  - apply fix_all_eff. congruence.
  - destruct K as (_ & V & V2). exists s. rewrite (fix_all_none _ _ _ E V V2). repeat split.
Qed.

Lemma relabel_in c r o f h x : In (h, x) (parts c r) -> relabel c r o f h = mkH (h_loop (f h)) (PObj o) (h_st (f h)) (h_on (f h)).
Proof. intros I. unfold relabel. destruct (part_ids _ _ _ _ I) as [-> |[-> ->]]; rewrite Nat.eqb_refl; [reflexivity|rewrite orb_true_r; reflexivity]. Qed.
Lemma relabel_out c r o f h : (forall x, ~ In (h, x) (parts c r)) -> relabel c r o f h = f h.
Proof.
  intros N. unfold relabel. assert (E : Nat.eqb h (r_id r) || (cls_eqb c CTimed && Nat.eqb h (S (r_id r))) = false); [|rewrite E; reflexivity].
  apply orb_false_intro; [apply Nat.eqb_neq; intros ->; destruct (part1 c r) as (x & I); exact (N x I)|].
  destruct c; try reflexivity. cbn [cls_eqb andb]. apply Nat.eqb_neq. intros ->. apply (N (on_timer r true)). right. left. reflexivity.
Qed.
Lemma relabel_same c r o f h : h_loop (relabel c r o f h) = h_loop (f h) /\ h_st (relabel c r o f h) = h_st (f h) /\ h_on (relabel c r o f h) = h_on (f h).
Proof. unfold relabel. destruct (_ || _); auto. Qed.
Lemma relabel_opt_same c r o f h : h_loop (relabel_opt c r o f h) = h_loop (f h) /\ h_st (relabel_opt c r o f h) = h_st (f h) /\ h_on (relabel_opt c r o f h) = h_on (f h).
Proof. destruct r as [r|]; [apply relabel_same|auto]. Qed.

(** The handle of another object stays. *)
Lemma relabel_other s a p c r o o' h : Rel s a -> a_obj a p = Some (c, r) -> h_data (s_h s h) = PObj o' -> o' <> p -> relabel_opt c r o (s_h s) h = s_h s h.
Proof.
  intros R E D N. destruct r as [r|]; [|reflexivity]. apply relabel_out. intros x I. pose proof (rel_obj _ _ R p) as K. rewrite E in K. destruct K as (_ & _ & K). destruct (K _ _ I) as (_ & X). rewrite X in D. cbn in D. congruence.
Qed.

Lemma move_rel s a o p c r : Rel s a -> a_obj a p = Some (c, r) -> a_obj a o = None ->
  exists s', move_new o p s = Next s' [] /\ Rel s' (a_put p (Some (c, None)) (a_put o (Some (c, r)) a)).
Proof.
  intros R P O. assert (NE : o <> p) by congruence. pose proof (rel_obj _ _ R p) as KP. rewrite P in KP. destruct (obj_conc _ _ _ _ KP) as (q & Q & CQ).
  unfold move_new. rewrite Q. set (s1 := put p _ (put o (Some q) s)).
  assert (E1 : s_obj s1 o = Some q) by (unfold s1; flds; unfold upd; eqn; reflexivity).
  destruct (fix_all_opt o s1 c r q E1 CQ) as (s' & F & HH & OO & BB & SB). exists s'. split; [exact F|].
  assert (H1 : s_h s1 = s_h s) by reflexivity. rewrite H1 in HH. destruct SB as (B1 & B2 & B3 & B4 & B5 & B6).
  assert (CL : o_cls q = c) by (destruct r as [r|]; cbn [conc_opt] in CQ; [subst q; reflexivity|apply CQ]).
  constructor.
  - intros x. cbn [a_put a_obj]. unfold upd at 1. destruct (Nat.eqb x p) eqn:XP; [apply Nat.eqb_eq in XP; subst x|apply Nat.eqb_neq in XP].
    + cbn [obj_ok]. rewrite OO. unfold s1. flds. unfold upd. eqn. eexists. split; [reflexivity|]. repeat split. exact CL.
    + unfold upd. destruct (Nat.eqb x o) eqn:XO; [apply Nat.eqb_eq in XO; subst x|apply Nat.eqb_neq in XO].
      * destruct r as [r|]; cbn [obj_ok conc_opt] in *.
        { rewrite OO, E1, CQ. split; [reflexivity|]. rewrite B3. destruct KP as (_ & DD & KP). split; [exact DD|]. intros h x I. rewrite B1. destruct (KP h x I) as (L & X). split; [exact L|]. rewrite HH. cbn [relabel_opt]. rewrite (relabel_in _ _ _ _ _ _ I), X. reflexivity. }
        { rewrite OO, E1. exists q. auto. }
      * apply (obj_frame s); [apply (rel_obj _ _ R)| | |rewrite B3; auto|].
        { rewrite OO. unfold s1. flds. unfold upd. eqn. reflexivity. }
        { rewrite B1. apply Nat.le_refl. }
        { intros h L D _. rewrite HH. apply (relabel_other s a p c r o x); auto. }
  - rewrite B1. apply (rel_n _ _ R).
  - intros l. rewrite B2. apply (rel_user _ _ R).
  - rewrite B4. apply (rel_run _ _ R).
  - rewrite B5. apply (rel_now _ _ R).
  - intros l. rewrite B6. apply (rel_lt _ _ R).
  - intros x. rewrite OO, BB. unfold s1. flds. unfold upd. splitn; [lia|]. splitn; [lia|]. intros X. pose proof (rel_bound _ _ R x X). lia.
  - intros h. rewrite B1, HH. destruct (relabel_opt_same c r o (s_h s) h) as (_ & -> & _). intros L X. destruct (rel_open _ _ R h L X) as (x & c' & r' & y & Y & I).
    destruct (Nat.eq_dec x p) as [-> |N]; [exists o|exists x]; exists c', r', y; (split; [|exact I]); flds; unfold upd.
    + eqn. congruence.
    + eqn. destruct (Nat.eqb x o) eqn:XO; [apply Nat.eqb_eq in XO; congruence|exact Y].
  - intros l. rewrite B3, B2. intros D. destruct (rel_dead _ _ R l D) as (U & K). split; [exact U|]. intros h. rewrite B1, HH. destruct (relabel_opt_same c r o (s_h s) h) as (-> & -> & _). apply K.
  - intros h. rewrite B1, HH. destruct (relabel_opt_same c r o (s_h s) h) as (_ & -> & ->). apply (rel_on _ _ R).
Qed.

Lemma conc_cls s o c r q : conc_opt s o c r q -> o_cls q = c.
Proof. destruct r as [r|]; cbn [conc_opt]; [intros ->; reflexivity|intros (K & _); exact K]. Qed.

Lemma swap_rel s a o p c r c' r' : Rel s a -> o <> p -> a_obj a o = Some (c, r) -> a_obj a p = Some (c', r') ->
  exists s', swap o p s = Next s' [] /\ Rel s' (a_put p (Some (c, r)) (a_put o (Some (c', r')) a)).
Proof.
  intros R NE O P. pose proof (rel_obj _ _ R p) as KP. rewrite P in KP. destruct (obj_conc _ _ _ _ KP) as (q' & Q' & CQ').
  pose proof (rel_obj _ _ R o) as KO. rewrite O in KO. destruct (obj_conc _ _ _ _ KO) as (q & Q & CQ).
  unfold swap. rewrite Q, Q'. set (s1 := put o _ (put p (Some q) s)).
  assert (E1 : s_obj s1 o = Some q') by (unfold s1; flds; unfold upd; eqn; reflexivity).
  destruct (fix_all_opt o s1 c' r' q' E1 CQ') as (s2 & F & HH & OO & BB & SB). rewrite F. cbn [bind].
  assert (E2 : s_obj s2 p = Some q) by (rewrite OO; unfold s1; flds; unfold upd; eqn; reflexivity).
  destruct (fix_all_opt p s2 c r q E2 CQ) as (s' & F' & HH' & OO' & BB' & SB'). rewrite F'. exists s'. split; [reflexivity|].
  assert (H1 : s_h s1 = s_h s) by reflexivity. rewrite H1 in HH. destruct SB as (B1 & B2 & B3 & B4 & B5 & B6). destruct SB' as (C1 & C2 & C3 & C4 & C5 & C6).
  assert (N1 : s_hn s' = s_hn s) by (rewrite C1; exact B1). assert (N2 : s_user s' = s_user s) by (rewrite C2; exact B2). assert (N3 : s_dead s' = s_dead s) by (rewrite C3; exact B3).
  assert (N4 : s_run s' = s_run s) by (rewrite C4; exact B4). assert (N5 : s_now s' = s_now s) by (rewrite C5; exact B5). assert (N6 : s_lt s' = s_lt s) by (rewrite C6; exact B6).
  assert (SM : forall h, h_loop (s_h s' h) = h_loop (s_h s h) /\ h_st (s_h s' h) = h_st (s_h s h) /\ h_on (s_h s' h) = h_on (s_h s h)).
  { intros h. rewrite HH'. destruct (relabel_opt_same c r p (s_h s2) h) as (-> & -> & ->). rewrite HH. apply relabel_opt_same. }
  assert (OB : forall x, s_obj s' x = if Nat.eqb x o then Some q' else if Nat.eqb x p then Some q else s_obj s x).
  { intros x. rewrite OO', OO. unfold s1. flds. reflexivity. }
  constructor.
  - intros x. cbn [a_put a_obj]. unfold upd at 1. destruct (Nat.eqb x p) eqn:XP; [apply Nat.eqb_eq in XP; subst x|apply Nat.eqb_neq in XP].
    + destruct r as [r|]; cbn [obj_ok conc_opt] in *.
      * rewrite OB. eqn. split; [congruence|]. rewrite N3. destruct KO as (_ & DD & KO). split; [exact DD|]. intros h x I. rewrite N1. destruct (KO h x I) as (L & X). split; [exact L|].
        rewrite HH'. cbn [relabel_opt]. rewrite (relabel_in _ _ _ _ _ _ I). rewrite HH. destruct (relabel_opt_same c' r' o (s_h s) h) as (-> & -> & ->). rewrite X. reflexivity.
      * exists q. rewrite OB. eqn. auto.
    + unfold upd. destruct (Nat.eqb x o) eqn:XO; [apply Nat.eqb_eq in XO; subst x|apply Nat.eqb_neq in XO].
      * destruct r' as [r'|]; cbn [obj_ok conc_opt] in *.
        { rewrite OB. eqn. split; [congruence|]. rewrite N3. destruct KP as (_ & DD & KP). split; [exact DD|]. intros h x I. rewrite N1. destruct (KP h x I) as (L & X). split; [exact L|].
          rewrite HH'. assert (Y : relabel_opt c r p (s_h s2) h = s_h s2 h).
          { destruct r as [r|]; [|reflexivity]. apply relabel_out. intros y I'. apply NE. exact (apart s a o p c c' r r' h y x R O P I' I). }
          rewrite Y, HH. cbn [relabel_opt]. rewrite (relabel_in _ _ _ _ _ _ I), X. reflexivity. }
        { exists q'. rewrite OB. eqn. auto. }
      * apply (obj_frame s); [apply (rel_obj _ _ R)| |lia|rewrite N3; auto|].
        { rewrite OB. eqn. reflexivity. }
        { intros h L D _. rewrite HH'. assert (X : s_h s2 h = s_h s h) by (rewrite HH; apply (relabel_other s a p c' r' o x); auto).
          destruct r as [r|]; [|exact X]. cbn [relabel_opt]. rewrite relabel_out; [exact X|]. intros y I. destruct KO as (_ & _ & KO). destruct (KO _ _ I) as (_ & Y). rewrite Y in D. cbn in D. congruence. }
  - rewrite N1. apply (rel_n _ _ R).
  - intros l. rewrite N2. apply (rel_user _ _ R).
  - rewrite N4. apply (rel_run _ _ R).
  - rewrite N5. apply (rel_now _ _ R).
  - intros l. rewrite N6. apply (rel_lt _ _ R).
  - intros x. rewrite OB, BB', BB. unfold s1. flds. splitn; [lia|]. splitn; [lia|]. intros X. pose proof (rel_bound _ _ R x X). lia.
  - intros h. rewrite N1. destruct (SM h) as (_ & -> & _). intros L X. destruct (rel_open _ _ R h L X) as (x & d & e & y & Y & I).
    destruct (Nat.eq_dec x p) as [-> |N]; [exists o|destruct (Nat.eq_dec x o) as [-> |N']; [exists p|exists x]]; exists d, e, y; (split; [|exact I]); flds; unfold upd; eqn; congruence.
  - intros l. rewrite N3, N2. intros D. destruct (rel_dead _ _ R l D) as (U & K). split; [exact U|]. intros h. rewrite N1. destruct (SM h) as (-> & -> & _). apply K.
  - intros h. rewrite N1. destruct (SM h) as (_ & -> & ->). apply (rel_on _ _ R).
Qed.

(** ** Clearing *)

(** The handles of a registration are closing. *)
Definition shut (c : cls) (r : reg) (f : nat -> hnd) (h : nat) : hnd :=
  let x := f h in if Nat.eqb h (r_id r) || (cls_eqb c CTimed && Nat.eqb h (S (r_id r))) then mkH (h_loop x) (h_data x) Closing None else x.
Lemma shut_in c r f h x : In (h, x) (parts c r) -> shut c r f h = mkH (h_loop (f h)) (h_data (f h)) Closing None.
Proof. intros I. unfold shut. destruct (part_ids _ _ _ _ I) as [-> |[-> ->]]; rewrite Nat.eqb_refl; [reflexivity|rewrite orb_true_r; reflexivity]. Qed.
Lemma shut_out c r f h : (forall x, ~ In (h, x) (parts c r)) -> shut c r f h = f h.
Proof.
  intros N. unfold shut. assert (E : Nat.eqb h (r_id r) || (cls_eqb c CTimed && Nat.eqb h (S (r_id r))) = false); [|rewrite E; reflexivity].
  apply orb_false_intro; [apply Nat.eqb_neq; intros ->; destruct (part1 c r) as (x & I); exact (N x I)|].
  destruct c; try reflexivity. cbn [cls_eqb andb]. apply Nat.eqb_neq. intros ->. apply (N (on_timer r true)). right. left. reflexivity.
Qed.
Lemma part_dec c r h : (exists x, In (h, x) (parts c r)) \/ forall x, ~ In (h, x) (parts c r).
Proof.
  destruct (Nat.eq_dec h (r_id r)) as [-> |N]; [left; apply part1|]. destruct c; try (right; intros x I; destruct (part_ids _ _ _ _ I) as [-> |[X _]]; [apply N; reflexivity|discriminate X]).
  destruct (Nat.eq_dec h (S (r_id r))) as [-> |N']; [left; exists (on_timer r true); right; left; reflexivity|]. right. intros x I. destruct (part_ids _ _ _ _ I) as [-> |[_ ->]]; auto.
Qed.
Definition shut_opt (c : cls) (r : option reg) (f : nat -> hnd) : nat -> hnd := match r with Some r => shut c r f | None => f end.

Lemma clear_eff s a o c r : Rel s a -> a_obj a o = Some (c, r) ->
  exists s' q, clear o s = Next s' [] /\ (forall h, s_h s' h = shut_opt c r (s_h s) h) /\ (forall x, s_obj s' x = if Nat.eqb x o then Some q else s_obj s x) /\
    o_cls q = c /\ o_ev q = None /\ o_ev2 q = None /\ s_bound s <= s_bound s' /\ o < s_bound s' /\ same_but s s'.
Proof.
  intros R O. pose proof (rel_obj _ _ R o) as KO. rewrite O in KO. destruct r as [r|]; cbn [obj_ok] in KO.
  - destruct KO as (Q & _ & K). unfold clear. rewrite Q. destruct c; cbn [concrete o_cls].
    1,2,3: unfold clear1; rewrite Q; cbn [concrete o_ev]; unfold close; destruct (K _ _ (or_introl eq_refl)) as (L & X); rewrite X; cbn [h_st]; unfold bind, ok1; flds;
      eexists; eexists; split; [reflexivity|]; flds; split; [|split; [intros x; unfold upd; reflexivity|repeat split; lia]]; intros h; unfold shut_opt, shut, upd; cbn [cls_eqb andb]; rewrite orb_false_r; splitn; [subst h; rewrite X; reflexivity|reflexivity].
    destruct (K (r_id r) _ (or_introl eq_refl)) as (L & X). destruct (K (S (r_id r)) _ (or_intror (or_introl eq_refl))) as (L2 & X2).
    unfold clear2. rewrite Q. cbn [concrete o_ev2 cls_eqb]. unfold close. rewrite X2. cbn [h_st]. unfold bind, ok1. flds. unfold clear1. flds. unfold upd. eqn. cbn [o_ev concrete]. unfold close. flds. unfold upd. eqn. rewrite X. cbn [h_st]. unfold bind, ok1. flds.
    eexists. eexists. split; [reflexivity|]. flds. split; [|split; [intros x; unfold upd; splitn; reflexivity|repeat split; lia]].
    intros h. unfold shut_opt, shut, upd. cbn [cls_eqb andb]. eqn. splitn; [subst h; cbn [orb]; rewrite X; reflexivity|]. cbn [orb]. splitn; [subst h; rewrite X2; reflexivity|reflexivity].
  - destruct KO as (q & Q & C & V & V2). unfold clear. rewrite Q.
    assert (G : exists s' q', clear1 o s = Next s' [] /\ (forall h, s_h s' h = s_h s h) /\ (forall x, s_obj s' x = if Nat.eqb x o then Some q' else s_obj s x) /\ o_cls q' = c /\ o_ev q' = None /\ o_ev2 q' = None /\ s_bound s <= s_bound s' /\ o < s_bound s' /\ same_but s s').
    { unfold clear1. rewrite Q, V. eexists. eexists. split; [reflexivity|]. flds. cbn [o_cls o_ev o_ev2]. split; [reflexivity|]. split; [intros x; unfold upd; reflexivity|]. repeat split; auto; lia. }
    destruct (o_cls q); try exact G. unfold clear2. rewrite Q, V2. destruct G as (s' & q' & G & G'). exists s', q'. split; [cbn [bind ok1]; rewrite G; reflexivity|exact G'].
Qed.

Lemma clear_rel_gen s a o c r s' q : Rel s a -> a_obj a o = Some (c, r) -> (forall h, s_h s' h = shut_opt c r (s_h s) h) -> (forall x, s_obj s' x = if Nat.eqb x o then q else s_obj s x) ->
  match q with Some q => o_cls q = c /\ o_ev q = None /\ o_ev2 q = None | None => True end -> s_bound s <= s_bound s' -> o < s_bound s' -> same_but s s' ->
  Rel s' (a_put o (match q with Some _ => Some (c, None) | None => None end) a).
Proof.
  intros R O HH OB KQ BB OL (N1 & N2 & N3 & N4 & N5 & N6). pose proof (rel_obj _ _ R o) as KO. rewrite O in KO.
  constructor.
  - intros x. cbn [a_put a_obj]. unfold upd. destruct (Nat.eqb x o) eqn:XO; [apply Nat.eqb_eq in XO; subst x|apply Nat.eqb_neq in XO].
    + destruct q as [q|]; cbn [obj_ok]; [exists q|]; rewrite OB; eqn; auto.
    + apply (obj_frame s); [apply (rel_obj _ _ R)| |lia|rewrite N3; auto|].
      * rewrite OB. eqn. reflexivity.
      * intros h L D _. rewrite HH. destruct r as [r|]; [|reflexivity]. apply shut_out. intros y I. destruct KO as (_ & _ & KO). destruct (KO _ _ I) as (_ & Y). rewrite Y in D. cbn in D. congruence.
  - rewrite N1. apply (rel_n _ _ R).
  - intros l. rewrite N2. apply (rel_user _ _ R).
  - rewrite N4. apply (rel_run _ _ R).
  - rewrite N5. apply (rel_now _ _ R).
  - intros l. rewrite N6. apply (rel_lt _ _ R).
  - intros x. rewrite OB. splitn; [lia|]. intros X. pose proof (rel_bound _ _ R x X). lia.
  - intros h. rewrite N1, HH. intros L X.
    assert (Y : (forall r', r = Some r' -> forall x, ~ In (h, x) (parts c r')) /\ h_st (s_h s h) = Open).
    { destruct r as [r|]; [|split; [discriminate|exact X]]. cbn [shut_opt] in X. destruct (part_dec c r h) as [(y & I)|NI]; [rewrite (shut_in _ _ _ _ _ I) in X; discriminate X|].
      rewrite (shut_out _ _ _ _ NI) in X. split; [|exact X]. intros r' E. injection E as <-. exact NI. }
    destruct Y as (NI & Y). destruct (rel_open _ _ R h L Y) as (x & d & e & y & Z & I). exists x, d, e, y. split; [|exact I]. flds. unfold upd. splitn; [|exact Z]. subst x.
    exfalso. rewrite O in Z. injection Z as <- ->. exact (NI e eq_refl y I).
  - intros l. rewrite N3, N2. intros D. destruct (rel_dead _ _ R l D) as (U & K). split; [exact U|]. intros h. rewrite N1, HH. destruct r as [r|]; [|apply K].
    cbn [shut_opt]. destruct (part_dec c r h) as [(y & I)|NI]; [|rewrite (shut_out _ _ _ _ NI); apply K].
    rewrite (shut_in _ _ _ _ _ I). cbn [h_loop]. intros L E. destruct KO as (_ & DD & KO). destruct (KO _ _ I) as (_ & Y). rewrite Y in E. cbn in E. congruence.
  - intros h. rewrite N1, HH. intros L X. destruct r as [r|]; [|exact (rel_on _ _ R h L X)]. cbn [shut_opt] in *. destruct (part_dec c r h) as [(y & I)|NI]; [rewrite (shut_in _ _ _ _ _ I); reflexivity|].
    rewrite (shut_out _ _ _ _ NI) in *. exact (rel_on _ _ R h L X).
Qed.

Lemma clear_rel s a o c r : Rel s a -> a_obj a o = Some (c, r) -> exists s', clear o s = Next s' [] /\ Rel s' (a_put o (Some (c, None)) a).
Proof.
  intros R O. destruct (clear_eff s a o c r R O) as (s' & q & E & HH & OB & C1 & C2 & C3 & B & L & SB). exists s'. split; [exact E|].
  exact (clear_rel_gen s a o c r s' (Some q) R O HH OB (conj C1 (conj C2 C3)) B L SB).
Qed.
Lemma destroy_rel s a o c r : Rel s a -> a_obj a o = Some (c, r) -> exists s', destroy o s = Next s' [] /\ Rel s' (a_put o None a).
Proof.
  intros R O. destruct (clear_eff s a o c r R O) as (s' & q & E & HH & OB & C1 & C2 & C3 & B & L & SB). unfold destroy. rewrite E. cbn [bind ok1]. eexists. split; [reflexivity|].
  apply (clear_rel_gen s a o c r _ None R O); [exact HH| |exact I|flds; lia|flds; lia|exact SB].
  intros x. flds. unfold upd. rewrite OB. splitn; reflexivity.
Qed.

Lemma assign_rel s a o p c r r' : Rel s a -> a_obj a 0 = None -> o <> p -> a_obj a o = Some (c, r) -> a_obj a p = Some (c, r') ->
  exists s', assign o p s = Next s' [] /\ Rel s' (a_put p (Some (c, None)) (a_put o (Some (c, r')) a)).
Proof.
  intros R Z NE O P. assert (O0 : o <> 0) by congruence. assert (P0 : p <> 0) by congruence. unfold assign. eqn.
  destruct (move_rel s a 0 p c r' R P Z) as (s1 & E1 & R1). rewrite E1. cbn [bind].
  destruct (swap_rel s1 _ 0 o c r' c r R1 (not_eq_sym O0)) as (s2 & E2 & R2); [flds; unfold upd; eqn; reflexivity|flds; unfold upd; eqn; exact O|]. rewrite E2. cbn [bind app].
  destruct (destroy_rel s2 _ 0 c r R2) as (s3 & E3 & R3); [flds; unfold upd; eqn; reflexivity|]. rewrite E3. exists s3. split; [reflexivity|].
  eapply Rel_ext; [exact R3|..]; try reflexivity. intros x. flds. unfold upd. repeat splitn; subst; try congruence; reflexivity.
Qed.

(** ** Changing what a registration waits for *)

Lemma parts_ids c r r' h x : r_id r' = r_id r -> In (h, x) (parts c r) -> exists y, In (h, y) (parts c r').
Proof. intros E I. destruct c; cbn [parts In] in *; rewrite E; repeat (destruct I as [I|I]; [injection I as <- _; eexists; eauto|]); contradiction. Qed.

Lemma tune_rel s a o c r r' s' : Rel s a -> a_obj a o = Some (c, Some r) -> r_id r' = r_id r -> r_loop r' = r_loop r ->
  (forall x, s_obj s' x = if Nat.eqb x o then Some (concrete c r') else s_obj s x) ->
  (forall h x, In (h, x) (parts c r') -> s_h s' h = mkH (r_loop r) (PObj o) Open x) -> (forall h, (forall x, ~ In (h, x) (parts c r)) -> s_h s' h = s_h s h) ->
  s_bound s <= s_bound s' -> same_but s s' -> Rel s' (a_put o (Some (c, Some r')) a).
Proof.
  intros R O EI EL OB HI HO BB (N1 & N2 & N3 & N4 & N5 & N6). pose proof (rel_obj _ _ R o) as KO. rewrite O in KO. destruct KO as (Q & DD & KO).
  constructor.
  - intros x. cbn [a_put a_obj]. unfold upd. destruct (Nat.eqb x o) eqn:XO; [apply Nat.eqb_eq in XO; subst x|apply Nat.eqb_neq in XO].
    + cbn [obj_ok]. rewrite OB. eqn. split; [reflexivity|]. rewrite N3, EL. split; [exact DD|]. intros h x I. split; [|exact (HI h x I)]. rewrite N1. destruct (parts_ids c r' r h x (eq_sym EI) I) as (y & J). apply (KO _ _ J).
    + apply (obj_frame s); [apply (rel_obj _ _ R)| |lia|rewrite N3; auto|].
      * rewrite OB. eqn. reflexivity.
      * intros h L D _. apply HO. intros y I. destruct (KO _ _ I) as (_ & Y). rewrite Y in D. cbn in D. congruence.
  - rewrite N1. apply (rel_n _ _ R).
  - intros l. rewrite N2. apply (rel_user _ _ R).
  - rewrite N4. apply (rel_run _ _ R).
  - rewrite N5. apply (rel_now _ _ R).
  - intros l. rewrite N6. apply (rel_lt _ _ R).
  - intros x. rewrite OB. splitn; [subst x; intros _; assert (X : s_obj s o <> None) by congruence; pose proof (rel_bound _ _ R o X); lia|]. intros X. pose proof (rel_bound _ _ R x X). lia.
  - intros h. rewrite N1. intros L X. destruct (part_dec c r h) as [(y & I)|NI].
    + destruct (parts_ids c r r' h y EI I) as (z & J). exists o, c, r', z. flds. unfold upd. eqn. auto.
    + rewrite (HO h NI) in X. destruct (rel_open _ _ R h L X) as (x & d & e & y & Z & I). exists x, d, e, y. split; [|exact I]. flds. unfold upd. splitn; [|exact Z]. subst x.
      exfalso. rewrite O in Z. injection Z as <- <-. exact (NI y I).
  - intros l. rewrite N3, N2. intros D. destruct (rel_dead _ _ R l D) as (U & K). split; [exact U|]. intros h. rewrite N1. destruct (part_dec c r h) as [(y & I)|NI].
    + destruct (parts_ids c r r' h y EI I) as (z & J). rewrite (HI h z J). cbn [h_loop]. congruence.
    + rewrite (HO h NI). apply K.
  - intros h. rewrite N1. intros L X. destruct (part_dec c r h) as [(y & I)|NI].
    + destruct (parts_ids c r r' h y EI I) as (z & J). rewrite (HI h z J) in X. contradiction X. reflexivity.
    + rewrite (HO h NI) in *. exact (rel_on _ _ R h L X).
Qed.

Lemma run_rel s a x : Rel s a -> Rel (w_run x s) (mkA (a_obj a) (a_next a) (a_user a) x (a_now a) (a_lt a)).
Proof. intros [A B C D E F G H I J]. constructor; auto. Qed.

Lemma new_rel s a o c l fd f : Rel s a -> a_obj a o = None -> c <> CTimed -> s_user s l = true ->
  Rel (put o (Some (mkO c (Some l) fd (Some (s_hn s)) None (Some f) 0)) (new_h l (PObj o) true s)) (a_bump 1 (a_put o (Some (c, Some (mkReg (a_next a) l fd f None None None 0))) a)).
Proof.
  intros R O NT U. constructor; flds.
  - intros x. unfold upd. destruct (Nat.eqb x o) eqn:XO; [apply Nat.eqb_eq in XO; subst x|apply Nat.eqb_neq in XO].
    + cbn [obj_ok]. flds. split; [unfold upd; eqn; rewrite (rel_n _ _ R); destruct c; try reflexivity; contradiction NT; reflexivity|]. split.
      * cbn [r_loop]. destruct (s_dead s l) eqn:D; [|reflexivity]. destruct (rel_dead _ _ R l D). congruence.
      * intros h x I. unfold upd. rewrite (rel_n _ _ R). destruct c; cbn [parts In on_poll on_timer on_sig r_id r_poll r_timer r_sig option_map] in I; destruct I as [I|I]; try contradiction; injection I as <- <-; eqn; (split; [lia|reflexivity]).
    + apply (obj_frame s); [apply (rel_obj _ _ R)| |flds; lia|auto|].
      * flds. unfold upd. eqn. reflexivity.
      * intros h L _ _. flds. unfold upd. splitn; [lia|reflexivity].
  - rewrite (rel_n _ _ R). lia.
  - apply (rel_user _ _ R).
  - apply (rel_run _ _ R).
  - apply (rel_now _ _ R).
  - apply (rel_lt _ _ R).
  - intros x. unfold upd. splitn; [lia|]. intros X. pose proof (rel_bound _ _ R x X). lia.
  - intros h L. unfold upd. splitn.
    + subst h. intros _. destruct (part1 c (mkReg (a_next a) l fd f None None None 0)) as (x & I). exists o, c, (mkReg (a_next a) l fd f None None None 0), x. flds. unfold upd. eqn. rewrite (rel_n _ _ R). split; [reflexivity|exact I].
    + intros X. destruct (rel_open _ _ R h ltac:(lia) X) as (x & d & e & y & Z & I). exists x, d, e, y. split; [|exact I]. flds. unfold upd. splitn; [congruence|exact Z].
  - intros l' D. destruct (rel_dead _ _ R l' D) as (U' & K). split; [exact U'|]. intros h L. unfold upd. splitn; [cbn [h_loop]; congruence|]. apply K. lia.
  - intros h L. unfold upd. splitn; [cbn [h_st]; congruence|]. apply (rel_on _ _ R). lia.
Qed.

(** A handle that is no object's: lost or closing. *)
Lemma lost_rel s a l p : Rel s a -> s_user s l = true -> Rel (new_h l p false s) (a_bump 1 a).
Proof.
  intros R U. constructor; flds.
  - intros x. apply (obj_frame s); [apply (rel_obj _ _ R)|reflexivity|flds; lia|auto|]. intros h L _ _. flds. unfold upd. splitn; [lia|reflexivity].
  - rewrite (rel_n _ _ R). lia.
  - apply (rel_user _ _ R).
  - apply (rel_run _ _ R).
  - apply (rel_now _ _ R).
  - apply (rel_lt _ _ R).
  - apply (rel_bound _ _ R).
  - intros h L. unfold upd. splitn; [discriminate|]. intros X. exact (rel_open _ _ R h ltac:(lia) X).
  - intros l' D. destruct (rel_dead _ _ R l' D) as (U' & K). split; [exact U'|]. intros h L. unfold upd. splitn; [cbn [h_loop]; congruence|]. apply K. lia.
  - intros h L. unfold upd. splitn; [cbn [h_on]; congruence|]. apply (rel_on _ _ R). lia.
Qed.

Lemma timed_rel s a o l fd f : Rel s a -> a_obj a o = None -> s_user s l = true ->
  exists s', fix_timed o (put o (Some (mkO CTimed (Some l) fd (Some (s_hn s)) (Some (S (s_hn s))) (Some f) 0)) (new_h l (PTimer o) true (new_h l (PObj o) true s))) = Next s' [] /\
  Rel s' (a_bump 2 (a_put o (Some (CTimed, Some (mkReg (a_next a) l fd f None None None 0))) a)).
Proof.
  intros R O U. set (s1 := put o _ _). assert (E : s_obj s1 o = Some (mkO CTimed (Some l) fd (Some (s_hn s)) (Some (S (s_hn s))) (Some f) 0)) by (unfold s1; flds; unfold upd; eqn; reflexivity).
  unfold fix_timed. rewrite E. cbn [o_ev o_ev2]. eexists. split; [reflexivity|]. subst s1. constructor; flds.
  - intros x. unfold upd at 1. destruct (Nat.eqb x o) eqn:XO; [apply Nat.eqb_eq in XO; subst x|apply Nat.eqb_neq in XO].
    + cbn [obj_ok]. flds. split; [unfold upd; eqn; rewrite (rel_n _ _ R); reflexivity|]. split.
      * cbn [r_loop]. destruct (s_dead s l) eqn:D; [|reflexivity]. destruct (rel_dead _ _ R l D). congruence.
      * intros h x I. unfold upd. rewrite (rel_n _ _ R). cbn [parts In on_poll on_timer on_sig r_id r_poll r_timer r_sig option_map] in I. destruct I as [I|[I|[]]]; injection I as <- <-; eqn; (split; [lia|reflexivity]).
    + apply (obj_frame s); [apply (rel_obj _ _ R)| |flds; lia|auto|].
      * flds. unfold upd. eqn. reflexivity.
      * intros h L _ _. flds. unfold upd. splitn; [lia|]. splitn; [lia|reflexivity].
  - rewrite (rel_n _ _ R). lia.
  - apply (rel_user _ _ R).
  - apply (rel_run _ _ R).
  - apply (rel_now _ _ R).
  - apply (rel_lt _ _ R).
  - intros x. unfold upd. splitn; [lia|]. intros X. pose proof (rel_bound _ _ R x X). lia.
  - intros h L. set (r := mkReg (a_next a) l fd f None None None 0).
    assert (HO : a_obj (a_bump 2 (a_put o (Some (CTimed, Some r)) a)) o = Some (CTimed, Some r)) by (flds; unfold upd; eqn; reflexivity).
    unfold upd. splitn; [subst h; intros _; exists o, CTimed, r, None; rewrite (rel_n _ _ R); split; [exact HO|left; reflexivity]|].
    splitn; [subst h; intros _; exists o, CTimed, r, None; rewrite (rel_n _ _ R); split; [exact HO|right; left; reflexivity]|].
    intros X. destruct (rel_open _ _ R h ltac:(lia) X) as (x & d & e & y & Z & I). exists x, d, e, y. split; [|exact I]. flds. unfold upd. splitn; [congruence|exact Z].
  - intros l' D. destruct (rel_dead _ _ R l' D) as (U' & K). split; [exact U'|]. intros h L. unfold upd. eqn. splitn; [cbn [h_loop]; congruence|]. splitn; [cbn [h_loop]; congruence|]. apply K. lia.
  - intros h L. unfold upd. eqn. splitn; [cbn [h_st]; congruence|]. splitn; [cbn [h_st]; congruence|]. apply (rel_on _ _ R). lia.
Qed.

Lemma closing_rel s a l o : Rel s a -> s_user s l = true ->
  exists s', close (s_hn s) (new_h l (PTimer o) false (new_h l (PObj o) true s)) = Next s' [] /\ Rel s' (a_bump 2 a).
Proof.
  intros R U. unfold close. flds. unfold upd at 1. eqn. unfold upd at 1. eqn. cbn [h_st]. eexists. split; [reflexivity|]. constructor; flds.
  - intros x. apply (obj_frame s); [apply (rel_obj _ _ R)|reflexivity|flds; lia|auto|]. intros h L _ _. flds. unfold upd. splitn; [lia|]. splitn; [lia|reflexivity].
  - rewrite (rel_n _ _ R). lia.
  - apply (rel_user _ _ R).
  - apply (rel_run _ _ R).
  - apply (rel_now _ _ R).
  - apply (rel_lt _ _ R).
  - apply (rel_bound _ _ R).
  - intros h L. unfold upd. splitn; [discriminate|]. splitn; [discriminate|]. intros X. exact (rel_open _ _ R h ltac:(lia) X).
  - intros l' D. destruct (rel_dead _ _ R l' D) as (U' & K). split; [exact U'|]. intros h L. unfold upd. eqn. splitn; [cbn [h_loop]; congruence|]. splitn; [cbn [h_loop]; congruence|]. apply K. lia.
  - intros h L. unfold upd. eqn. splitn; [cbn [h_on]; congruence|]. splitn; [cbn [h_on]; congruence|]. apply (rel_on _ _ R). lia.
Qed.

Lemma freed_rel s a h : Rel s a -> h_st (s_h s h) = Closing -> Rel (set_h h (mkH (h_loop (s_h s h)) (h_data (s_h s h)) Freed None) s) a.
Proof.
  intros R C. constructor; flds.
  - intros x. apply (obj_frame s); [apply (rel_obj _ _ R)|reflexivity|flds; lia|auto|]. intros k L _ X. flds. unfold upd. splitn; [congruence|reflexivity].
  - apply (rel_n _ _ R).
  - apply (rel_user _ _ R).
  - apply (rel_run _ _ R).
  - apply (rel_now _ _ R).
  - apply (rel_lt _ _ R).
  - apply (rel_bound _ _ R).
  - intros k L. unfold upd. splitn; [discriminate|]. apply (rel_open _ _ R k L).
  - intros l' D. destruct (rel_dead _ _ R l' D) as (U' & K). split; [exact U'|]. intros k L. unfold upd. splitn; [auto|]. apply K. exact L.
  - intros k L. unfold upd. splitn; [reflexivity|]. apply (rel_on _ _ R k L).
Qed.

Lemma die_rel s a l : Rel s a -> s_user s l = false -> (forall o q, s_obj s o = Some q -> o_ec q <> Some l) ->
  Rel (w_dead (upd (s_dead s) l true)
        (w_h (fun h => let x := s_h s h in if Nat.ltb h (s_hn s) && Nat.eqb (h_loop x) l then match h_st x with Lost => x | _ => mkH (h_loop x) (h_data x) Freed None end else x) s)) a.
Proof.
  intros R U NO. constructor; flds.
  - intros x. apply (obj_frame s); [apply (rel_obj _ _ R)|reflexivity|flds; lia| |].
    + intros l' D (q & Q & E). flds. unfold upd. splitn; [subst l'; exfalso; exact (NO _ _ Q E)|exact D].
    + intros h L D X. flds. destruct (Nat.ltb h (s_hn s) && Nat.eqb (h_loop (s_h s h)) l) eqn:B; [|reflexivity]. exfalso. apply andb_prop in B. destruct B as (_ & B). apply Nat.eqb_eq in B.
      destruct (rel_open _ _ R h L X) as (o & c & r & y & Y & I). pose proof (rel_obj _ _ R o) as K. rewrite Y in K. destruct K as (Q & _ & K). destruct (K _ _ I) as (_ & Z). rewrite Z in B. cbn in B. apply (NO _ _ Q). cbn. congruence.
  - apply (rel_n _ _ R).
  - apply (rel_user _ _ R).
  - apply (rel_run _ _ R).
  - apply (rel_now _ _ R).
  - apply (rel_lt _ _ R).
  - apply (rel_bound _ _ R).
  - intros h L X. apply (rel_open _ _ R h L). destruct (Nat.ltb h (s_hn s) && Nat.eqb (h_loop (s_h s h)) l); [|exact X]. destruct (h_st (s_h s h)) eqn:Y; cbn in X; congruence.
  - intros l'. unfold upd. splitn.
    + subst l'. intros _. split; [exact U|]. intros h L. rewrite (proj2 (Nat.ltb_lt _ _) L). cbn [andb]. destruct (Nat.eqb (h_loop (s_h s h)) l) eqn:B; [|apply Nat.eqb_neq in B; congruence]. destruct (h_st (s_h s h)) eqn:Y; cbn; auto.
    + intros D. destruct (rel_dead _ _ R l' D) as (U' & K). split; [exact U'|]. intros h L. destruct (Nat.ltb h (s_hn s) && Nat.eqb (h_loop (s_h s h)) l) eqn:B; [|apply K; exact L].
      apply andb_prop in B. destruct B as (_ & B). apply Nat.eqb_eq in B. destruct (h_st (s_h s h)); cbn; intros; congruence.
  - intros h L. destruct (Nat.ltb h (s_hn s) && Nat.eqb (h_loop (s_h s h)) l); [|apply (rel_on _ _ R h L)]. destruct (h_st (s_h s h)) eqn:Y; cbn; try reflexivity. intros _. apply (rel_on _ _ R h L). congruence.
Qed.

(** ** The simulation *)

Definition R0 (s : st) (a : ast) : Prop := Rel s a /\ a_obj a 0 = None.

Lemma free_spec o s a : Rel s a -> free o s = true -> o <> 0 /\ a_obj a o = None.
Proof.
  intros R F. destruct o as [|o]; [discriminate F|]. split; [discriminate|]. unfold free in F. pose proof (rel_obj _ _ R (S o)) as K. destruct (a_obj a (S o)) as [[c [r|]]|]; [|..|reflexivity].
  - destruct K as (K & _). rewrite K in F. discriminate F.
  - destruct K as (q & K & _). rewrite K in F. discriminate F.
Qed.
Lemma live_spec o s a q : Rel s a -> live o s = Some q -> o <> 0 /\ s_obj s o = Some q /\ exists r, a_obj a o = Some (o_cls q, r) /\ conc_opt s o (o_cls q) r q.
Proof.
  intros R F. destruct o as [|o]; [discriminate F|]. split; [discriminate|]. split; [exact F|]. unfold live in F. pose proof (rel_obj _ _ R (S o)) as K. destruct (a_obj a (S o)) as [[c r]|]; [|cbn in K; congruence].
  destruct (obj_conc _ _ _ _ K) as (q' & Q & C). assert (q' = q) by congruence. subst q'. pose proof (conc_cls _ _ _ _ _ C) as X. subst c. exists r. auto.
Qed.
Lemma touch_spec o s a : Rel s a -> touch o s = Next s [] /\ a_run a <> Some o \/ touch o s = Ub /\ a_run a = Some o.
Proof.
  intros R. unfold touch. rewrite (rel_run _ _ R). destruct (a_run a) as [x|]; [|left; split; [reflexivity|discriminate]]. destruct (Nat.eqb x o) eqn:E; [apply Nat.eqb_eq in E; right; subst; auto|apply Nat.eqb_neq in E; left; split; [reflexivity|congruence]].
Qed.
Lemma cls_eqb_eq a b : cls_eqb a b = true -> a = b.
Proof. destruct a, b; cbn; congruence. Qed.
Lemma cls_neq c : negb (cls_eqb c CTimed) = true -> c <> CTimed.
Proof. destruct c; cbn; congruence. Qed.

(** The holder of an open handle. *)
Lemma holder s a h x : Rel s a -> h < s_hn s -> h_st (s_h s h) = Open -> h_on (s_h s h) = Some x ->
  exists o c r, h_data (s_h s h) = PObj o /\ a_obj a o = Some (c, Some r) /\ s_obj s o = Some (concrete c r) /\ In (h, Some x) (parts c r) /\ h_loop (s_h s h) = r_loop r.
Proof.
  intros R L O X. destruct (rel_open _ _ R h L O) as (o & c & r & y & Y & I). pose proof (rel_obj _ _ R o) as K. rewrite Y in K. destruct K as (Q & _ & K). destruct (K _ _ I) as (_ & Z). exists o, c, r. rewrite Z in *. cbn in *. subst y. auto.
Qed.

Lemma set_on_h h x s k : s_h (set_on h x s) k = if Nat.eqb k h then mkH (h_loop (s_h s h)) (h_data (s_h s h)) (h_st (s_h s h)) x else s_h s k.
Proof. reflexivity. Qed.

Lemma mask_on rd wr r timed : on_poll (w_poll (mask rd wr) r) timed = poll_start rd wr timed.
Proof. unfold on_poll, poll_start, mask. cbn. destruct rd, wr; reflexivity. Qed.

Lemma obj_out s a o c r h : Rel s a -> a_obj a o = Some (c, Some r) -> forall x, In (h, x) (parts c r) -> s_h s h = mkH (r_loop r) (PObj o) Open x.
Proof. intros R O x I. pose proof (rel_obj _ _ R o) as K. rewrite O in K. destruct K as (_ & _ & K). apply (K _ _ I). Qed.

Ltac no := intros x; splitn; [subst|reflexivity].

(** ** Adding, removing *)
Lemma same_obj s o q : s_obj s o = Some q -> forall x, s_obj s x = if Nat.eqb x o then Some q else s_obj s x.
Proof. intros E x. splitn; [subst; exact E|reflexivity]. Qed.

Lemma put_obj s o q x : s_obj (put o q s) x = if Nat.eqb x o then q else s_obj s x.
Proof. reflexivity. Qed.
Ltac ids NI := repeat match goal with |- context [Nat.eqb ?h ?i] => let E := fresh "E" in destruct (Nat.eqb h i) eqn:E; [apply Nat.eqb_eq in E; subst; exfalso; solve [eapply NI; first [left; reflexivity|right; left; reflexivity]]|] end.

Lemma asked_spec (rd wr err mr mw : bool) : (if err then negb rd && negb wr else (rd || wr) && implb rd mr && implb wr mw) = true -> asked rd wr err mr mw.
Proof. unfold asked. destruct err, rd, wr, mr, mw; cbn; intros; try discriminate; repeat split; auto; congruence. Qed.

Lemma call_rel s a o c r s1 r' arg : Rel s a -> a_obj a o = Some (c, Some r) -> Rel s1 (a_put o (Some (c, Some r')) a) -> r_cb r' = r_cb r ->
  exists s', call o arg s1 = Next s' [OCall o (r_cb r) arg] /\ Rel s' (a_calls o (a_put o (Some (c, Some r')) a)).
Proof.
  intros R O R1 CB. pose proof (rel_obj _ _ R1 o) as K. cbn [a_put a_obj] in K. unfold upd in K. rewrite Nat.eqb_refl in K. destruct K as (Q & _). unfold call. rewrite Q. cbn [concrete o_cb]. rewrite CB. eexists. split; [reflexivity|].
  apply (run_rel _ _ (Some o) R1).
Qed.

Theorem sim : forall s a e, R0 s a ->
  match step e s with
  | Next s' l => exists a', astep a e l a' /\ R0 s' a'
  | Ub => misuse a e
  | Off => True
  end.
Proof.
  intros s a e (R & Z). destruct e as [o c l fd f ok|o l fd f ok ok'|o c|o p|o p|o|o f|o rd wr|o ms|o once|o rd wr ms|o|o|l|l|d|l|h rd wr err|h|h|h|]; cbn [step].
  - destruct (free o s && negb (cls_eqb c CTimed) && s_user s l) eqn:E; [|exact I]. apply andb_prop in E. destruct E as (E & U). apply andb_prop in E. destruct E as (F & C). destruct (free_spec _ _ _ R F) as (O0 & O). apply cls_neq in C.
    assert (UA : a_user a l = true) by (rewrite <- (rel_user _ _ R); exact U).
    destruct ok; [cbn [ok1]|].
    + eexists. split; [exact (A_new a o c l fd f O O0 C UA)|]. split; [exact (new_rel s a o c l fd f R O C U)|]. flds. unfold upd. eqn. exact Z.
    + eexists. split; [exact (A_new_fail a o c l fd f O O0 C UA)|]. split; [exact (lost_rel s a l (PObj o) R U)|exact Z].
  - destruct (free o s && s_user s l) eqn:E; [|exact I]. apply andb_prop in E. destruct E as (F & U). destruct (free_spec _ _ _ R F) as (O0 & O).
    assert (UA : a_user a l = true) by (rewrite <- (rel_user _ _ R); exact U).
    destruct ok; [destruct ok'|].
    + destruct (timed_rel s a o l fd f R O U) as (s' & E & R'). rewrite E. cbn [bind ok1 app]. eexists. split; [exact (A_timed a o l fd f O O0 UA)|]. split; [exact R'|]. flds. unfold upd. eqn. exact Z.
    + destruct (closing_rel s a l o R U) as (s' & E & R'). rewrite E. cbn [bind app]. eexists. split; [exact (A_timed_fail2 a o l fd f O O0 UA)|]. split; [exact R'|exact Z].
    + eexists. split; [exact (A_timed_fail a o l fd f ok' O O0 UA)|]. split; [exact (lost_rel s a l (PObj o) R U)|exact Z].
  - destruct (free o s) eqn:F; [|exact I]. destruct (free_spec _ _ _ R F) as (O0 & O). cbn [ok1]. eexists. split; [exact (A_default a o c O O0)|]. split; [|flds; unfold upd; eqn; exact Z].
    constructor; flds; try apply R.
    + intros x. unfold upd. destruct (Nat.eqb x o) eqn:XO; [apply Nat.eqb_eq in XO; subst x|apply Nat.eqb_neq in XO].
      * cbn [obj_ok]. flds. unfold upd. eqn. eexists. split; [reflexivity|auto].
      * apply (obj_frame s); [apply (rel_obj _ _ R)| |flds; lia|auto|reflexivity]. flds. unfold upd. eqn. reflexivity.
    + intros x. unfold upd. splitn; [lia|]. intros X. pose proof (rel_bound _ _ R x X). lia.
    + intros h L X. destruct (rel_open _ _ R h L X) as (x & d & e & y & Y & I). exists x, d, e, y. split; [|exact I]. flds. unfold upd. splitn; [congruence|exact Y].
  - destruct (free o s) eqn:F; [|exact I]. destruct (free_spec _ _ _ R F) as (O0 & O). destruct (live p s) as [q|] eqn:L; [|exact I]. destruct (live_spec _ _ _ _ R L) as (P0 & Q & r & P & C).
    destruct (touch_spec p s a R) as [(T & N)|(T & N)]; rewrite T; cbn [bind]; [|exact N]. destruct (move_rel s a o p _ r R P O) as (s' & E & R'). rewrite E. cbn [app]. eexists. split; [exact (A_move a o p _ r O O0 P)|]. split; [exact R'|]. flds. unfold upd. eqn. exact Z.
  - destruct (live o s) as [q|] eqn:L; [|exact I]. destruct (live p s) as [q'|] eqn:L'; [|exact I]. destruct (cls_eqb (o_cls q) (o_cls q')) eqn:C; [|exact I]. apply cls_eqb_eq in C.
    destruct (live_spec _ _ _ _ R L) as (O0 & Q & r & O & CO). destruct (live_spec _ _ _ _ R L') as (P0 & Q' & r' & P & CP).
    destruct (Nat.eqb o p) eqn:E; [apply Nat.eqb_eq in E; subst p; cbn [ok1]; eexists; split; [exact (A_self a o _ r O)|split; assumption]|]. apply Nat.eqb_neq in E.
    destruct (touch_spec o s a R) as [(T & N)|(T & N)]; rewrite T; cbn [bind]; [|split; auto]. destruct (touch_spec p s a R) as [(T' & N')|(T' & N')]; rewrite T'; cbn [bind app]; [|split; auto].
    rewrite <- C in P. destruct (assign_rel s a o p _ r r' R Z E O P) as (s' & E' & R'). rewrite E'. eexists. split; [exact (A_assign a o p _ r r' E O P)|]. split; [exact R'|]. flds. unfold upd. eqn. exact Z.
  - destruct (live o s) as [q|] eqn:L; [|exact I]. destruct (live_spec _ _ _ _ R L) as (O0 & Q & r & O & CO). destruct (touch_spec o s a R) as [(T & N)|(T & N)]; rewrite T; cbn [bind]; [|exact N].
    destruct (clear_rel s a o _ r R O) as (s' & E & R'). rewrite E. cbn [app]. eexists. split; [exact (A_clear a o _ r O)|]. split; [exact R'|]. flds. unfold upd. eqn. exact Z.
  - destruct (live o s) as [q|] eqn:L; [|exact I]. destruct (live_spec _ _ _ _ R L) as (O0 & Q & r & O & CO). destruct (touch_spec o s a R) as [(T & N)|(T & N)]; rewrite T; cbn [bind ok1 app]; [|exact N].
    eexists. split; [exact (A_set_cb a o _ r f O)|]. split; [|flds; unfold upd; eqn; exact Z]. destruct r as [r|]; cbn [option_map conc_opt] in *.
    + apply (tune_rel s a o _ r _ _ R O); try reflexivity.
      * intros x. rewrite put_obj. splitn; [|reflexivity]. f_equal. set (c := o_cls q) in *. clearbody c. subst q. reflexivity.
      * intros h x I. flds. apply (obj_out s a o _ r h R O x). replace (parts (o_cls q) r) with (parts (o_cls q) (w_cb f r)) by (destruct (o_cls q); reflexivity). exact I.
      * flds. lia.
      * repeat split.
    + constructor; flds; try apply R.
      * intros x. unfold upd. destruct (Nat.eqb x o) eqn:XO; [apply Nat.eqb_eq in XO; subst x|apply Nat.eqb_neq in XO].
        { cbn [obj_ok]. flds. unfold upd. eqn. eexists. split; [reflexivity|]. cbn. destruct CO as (_ & V & V2). auto. }
        { apply (obj_frame s); [apply (rel_obj _ _ R)| |flds; lia|auto|reflexivity]. flds. unfold upd. eqn. reflexivity. }
      * intros x. unfold upd. splitn; [lia|]. intros X. pose proof (rel_bound _ _ R x X). lia.
      * intros h LL X. destruct (rel_open _ _ R h LL X) as (x & d & e & y & Y & I). exists x, d, e, y. split; [|exact I]. flds. unfold upd. splitn; [congruence|exact Y].
  - destruct (live o s) as [q|] eqn:L; [|exact I]. destruct (live_spec _ _ _ _ R L) as (O0 & Q & r & O & CO). destruct (o_cls q) eqn:C; try exact I. destruct r as [r|]; cbn [conc_opt] in CO.
    + subst q. cbn [concrete o_ev ok1]. eexists. split; [exact (A_add_poll a o r rd wr O)|]. split; [|flds; unfold upd; eqn; exact Z].
      apply (tune_rel s a o CFd r _ _ R O); try reflexivity.
      * intros x. exact (same_obj _ _ _ Q x).
      * intros h x I. cbn [parts In r_id w_poll] in I. destruct I as [I|[]]. injection I as <- <-. rewrite set_on_h. eqn. rewrite (obj_out s a o CFd r _ R O _ (or_introl eq_refl)). cbn [h_loop h_data h_st]. rewrite <- mask_on with (r := r). reflexivity.
      * intros h NI. rewrite set_on_h. ids NI. reflexivity.
      * repeat split.
    + destruct CO as (_ & V & _). rewrite V. exists CFd. exact O.
  - destruct (live o s) as [q|] eqn:L; [|exact I]. destruct (live_spec _ _ _ _ R L) as (O0 & Q & r & O & CO). destruct (o_cls q) eqn:C; try exact I. destruct r as [r|]; cbn [conc_opt] in CO.
    + subst q. cbn [concrete o_ev ok1]. eexists. split; [exact (A_add_timer a o r ms O)|]. split; [|flds; unfold upd; eqn; exact Z].
      pose proof (obj_out s a o CTimer r _ R O _ (or_introl eq_refl)) as X.
      apply (tune_rel s a o CTimer r _ _ R O); try reflexivity.
      * intros x. exact (same_obj _ _ _ Q x).
      * intros h x I. cbn [parts In r_id w_timer] in I. destruct I as [I|[]]. injection I as <- <-. rewrite set_on_h. eqn. rewrite X. cbn [h_loop h_data h_st]. rewrite (rel_lt _ _ R). reflexivity.
      * intros h NI. rewrite set_on_h. ids NI. reflexivity.
      * repeat split.
    + destruct CO as (_ & V & _). rewrite V. exists CTimer. exact O.
  - destruct (live o s) as [q|] eqn:L; [|exact I]. destruct (live_spec _ _ _ _ R L) as (O0 & Q & r & O & CO). destruct (o_cls q) eqn:C; try exact I. destruct r as [r|]; cbn [conc_opt] in CO.
    + subst q. cbn [concrete o_ev ok1]. eexists. split; [exact (A_add_sig a o r once O)|]. split; [|flds; unfold upd; eqn; exact Z].
      pose proof (obj_out s a o CSig r _ R O _ (or_introl eq_refl)) as X.
      apply (tune_rel s a o CSig r _ _ R O); try reflexivity.
      * intros x. exact (same_obj _ _ _ Q x).
      * intros h x I. cbn [parts In r_id w_sig] in I. destruct I as [I|[]]. injection I as <- <-. rewrite set_on_h. eqn. rewrite X. reflexivity.
      * intros h NI. rewrite set_on_h. ids NI. reflexivity.
      * repeat split.
    + destruct CO as (_ & V & _). rewrite V. exists CSig. exact O.
  - destruct (live o s) as [q|] eqn:L; [|exact I]. destruct (live_spec _ _ _ _ R L) as (O0 & Q & r & O & CO). destruct (o_cls q) eqn:C; try exact I. destruct r as [r|]; cbn [conc_opt] in CO.
    + subst q. cbn [concrete o_ev o_ev2 o_ec o_fd o_cb cls_eqb ok1]. eexists. split; [exact (A_add_timed a o r rd wr ms O)|]. split; [|flds; unfold upd; eqn; exact Z].
      pose proof (obj_out s a o CTimed r _ R O _ (or_introl eq_refl)) as X. pose proof (obj_out s a o CTimed r _ R O _ (or_intror (or_introl eq_refl))) as X2.
      apply (tune_rel s a o CTimed r _ _ R O); try reflexivity.
      * intros h x I. cbn [parts In r_id w_timer w_poll w_ms] in I. rewrite !set_on_h. destruct I as [I|[I|[]]]; injection I as <- <-; eqn; flds.
        { rewrite X. cbn [h_loop h_data h_st]. rewrite <- mask_on with (r := r). reflexivity. }
        { rewrite X2. cbn [h_loop h_data h_st]. rewrite (rel_lt _ _ R). reflexivity. }
      * intros h NI. rewrite !set_on_h. flds. eqn. ids NI. reflexivity.
      * flds. lia.
      * repeat split.
    + destruct CO as (_ & V & V2). rewrite V. exists CTimed. exact O.
  - destruct (live o s) as [q|] eqn:L; [|exact I]. destruct (live_spec _ _ _ _ R L) as (O0 & Q & r & O & CO). cbn [ok1]. eexists. split; [exact (A_del a o _ r O)|]. split; [|flds; unfold upd; eqn; exact Z].
    destruct r as [r|]; cbn [conc_opt option_map] in *.
    + set (c := o_cls q) in *. clearbody c. subst q. cbn [concrete o_ev o_ev2]. apply (tune_rel s a o c r _ _ R O); try reflexivity.
      * intros x. destruct c; cbn [cls_eqb]; exact (same_obj _ _ _ Q x).
      * intros h x I. assert (EQ : x = None) by (destruct c; cbn [parts quiet] in I; repeat (destruct I as [I|I]; [injection I as _ <-; reflexivity|]); contradiction). subst x.
        assert (J : exists y, In (h, y) (parts c r)) by (apply (parts_ids c (quiet r) r h None); auto). destruct J as (y & J). pose proof (obj_out s a o c r h R O y J) as X.
        destruct c; cbn [cls_eqb]; rewrite !set_on_h; cbn [parts In r_id quiet w_poll w_timer w_sig] in I; repeat (destruct I as [I|I]; [injection I as <-; eqn; rewrite ?X; try reflexivity|]); try contradiction.
      * intros h NI. destruct c; cbn [cls_eqb]; rewrite !set_on_h; ids NI; reflexivity.
      * destruct c; cbn; lia.
      * destruct c; repeat split.
    + destruct CO as (CC & V & V2). rewrite V, V2. eapply Rel_ext; [exact R|..]; try reflexivity. intros x. flds. unfold upd. splitn; [subst x; symmetry; exact O|reflexivity].
  - destruct (live o s) as [q|] eqn:L; [|exact I]. destruct (live_spec _ _ _ _ R L) as (O0 & Q & r & O & CO). destruct (touch_spec o s a R) as [(T & N)|(T & N)]; rewrite T; cbn [bind]; [|exact N].
    destruct (destroy_rel s a o _ r R O) as (s' & E & R'). rewrite E. cbn [app]. eexists. split; [exact (A_destroy a o _ r O)|]. split; [exact R'|]. flds. unfold upd. eqn. exact Z.
  - cbn [ok1]. eexists. split; [exact (A_drop a l)|]. split; [|exact Z]. constructor; flds; try apply R.
    + intros l'. unfold upd. splitn; [reflexivity|apply (rel_user _ _ R)].
    + intros l' D. destruct (rel_dead _ _ R l' D) as (U & K). split; [unfold upd; splitn; [reflexivity|exact U]|exact K].
  - destruct (_ && _) eqn:E; [|exact I]. cbn [ok1]. exists a. split; [constructor|]. split; [|exact Z].
    repeat (apply andb_prop in E; let x := fresh in destruct E as (E & x)). apply negb_true_iff in E. apply die_rel; auto.
    intros o q Q EC. match goal with H : forallb _ _ = true |- _ => rewrite forallb_forall in H; assert (B : o < s_bound s) by (apply (rel_bound _ _ R); congruence); specialize (H o (proj2 (in_seq _ _ _) (conj (Nat.le_0_l o) B))); rewrite Q, EC, Nat.eqb_refl in H; discriminate H end.
  - cbn [ok1]. eexists. split; [exact (A_tick a d)|]. split; [|exact Z]. constructor; flds; try apply R.
    + rewrite (rel_now _ _ R). reflexivity.
  - cbn [ok1]. eexists. split; [exact (A_update a l)|]. split; [|exact Z]. constructor; flds; try apply R.
    + intros l'. unfold upd. splitn; [apply (rel_now _ _ R)|apply (rel_lt _ _ R)].
  - destruct (s_run s) eqn:RU; [exact I|]. destruct (h_st (s_h s h)) eqn:HS; try exact I. destruct (h_on (s_h s h)) as [[mr mw timed|due timed|once]|] eqn:HO; try exact I.
    destruct (negb (Nat.ltb h (s_hn s))) eqn:LT; [exact I|]. apply negb_false_iff, Nat.ltb_lt in LT. destruct (if err then _ else _) eqn:AS; [|exact I]. apply asked_spec in AS.
    destruct (holder s a h _ R LT HS HO) as (o & c & r & D & O & Q & IN & HL). rewrite D.
    assert (QQ : s_obj (if err then set_on h None s else s) o = Some (concrete c r)) by (destruct err; exact Q). rewrite QQ.
    assert (PL : polls c r h /\ r_poll r = Some (mr, mw) /\ timed = cls_eqb c CTimed).
    { unfold polls. destruct c; cbn [parts In on_poll on_timer on_sig] in IN; (destruct IN as [IN|IN]; [|try contradiction]).
      - injection IN as <- IN. unfold on_poll in IN. destruct (r_poll r) as [[x y]|]; [injection IN as -> -> <-|discriminate IN]. auto.
      - injection IN as <- IN. unfold on_timer in IN. destruct (r_timer r); discriminate IN.
      - injection IN as <- IN. unfold on_sig in IN. destruct (r_sig r); discriminate IN.
      - injection IN as <- IN. unfold on_poll in IN. destruct (r_poll r) as [[x y]|]; [injection IN as -> -> <-|discriminate IN]. auto.
      - destruct IN as [IN|[]]. injection IN as <- IN. unfold on_timer in IN. destruct (r_timer r); discriminate IN. }
    destruct PL as (PL & RP & TI).
    assert (RA : a_run a = None) by (rewrite <- (rel_run _ _ R); exact RU).
    set (r' := let r' := if err then w_poll None r else r in if cls_eqb c CTimed then w_timer (Some (a_lt a (r_loop r) + r_ms r)) r' else r').
    assert (R1 : Rel (if timed then set_on (S (r_id r)) (Some (STimer (s_lt (if err then set_on h None s else s) (h_loop (s_h (if err then set_on h None s else s) (S (r_id r)))) + r_ms r) true)) (if err then set_on h None s else s) else if err then set_on h None s else s) (a_put o (Some (c, Some r')) a)).
    { destruct PL as (CC & ->). pose proof (obj_out s a o c r (r_id r) R O _ IN) as X.
      apply (tune_rel s a o c r _ _ R O); [unfold r'; destruct c, err; reflexivity|unfold r'; destruct c, err; reflexivity| | | | |].
      - intros x. replace (concrete c r') with (concrete c r) by (unfold r'; destruct c, err; reflexivity). subst timed. destruct c, err; exact (same_obj _ _ _ Q x).
      - intros k x I. destruct CC as [-> | ->]; subst timed; cbn [cls_eqb] in *; cbn [parts In] in I.
        + destruct I as [I|[]]. injection I as <- <-. unfold r'. destruct err; [rewrite set_on_h; cbn [w_poll r_id]; eqn; rewrite X; reflexivity|]. rewrite X. f_equal. cbn [parts In] in IN. destruct IN as [IN|[]]. injection IN as IN. congruence.
        + pose proof (obj_out s a o CTimed r _ R O _ (or_intror (or_introl eq_refl))) as X2. destruct I as [I|[I|[]]]; injection I as <- <-.
          * unfold r'. destruct err; rewrite !set_on_h; cbn [w_timer w_poll r_id]; eqn.
            { rewrite X. reflexivity. }
            { rewrite X. f_equal. cbn [parts In] in IN. destruct IN as [IN|[IN|[]]]; [injection IN as IN; symmetry; exact IN|]. injection IN as IN _. lia. }
          * unfold r'. destruct err; rewrite !set_on_h; cbn [w_timer w_poll r_id]; eqn; rewrite X2; cbn [h_loop h_data h_st]; flds; rewrite (rel_lt _ _ R); reflexivity.
      - intros k NI. destruct CC as [-> | ->]; subst timed; cbn [cls_eqb]; destruct err; rewrite ?set_on_h; eqn; ids NI; reflexivity.
      - destruct timed, err; flds; lia.
      - destruct timed, err; repeat split. }
    assert (CB : r_cb r' = r_cb r) by (unfold r'; destruct c, err; reflexivity).
    destruct timed.
    + assert (CT : c = CTimed) by (destruct c; cbn in TI; congruence). cbn [concrete o_ev2 o_fd o_tmo]. rewrite <- TI.
      destruct (call_rel s a o c r _ r' (AFd (r_fd r) rd wr err) R O R1 CB) as (s' & E & R'). rewrite E. eexists. split; [exact (A_fire a o c r h rd wr err mr mw RA O PL RP AS)|]. split; [exact R'|]. flds. unfold upd. assert (o <> 0) by congruence. eqn. exact Z.
    + cbn [concrete o_fd]. destruct (call_rel s a o c r _ r' (AFd (r_fd r) rd wr err) R O R1 CB) as (s' & E & R'). rewrite E. eexists. split; [exact (A_fire a o c r h rd wr err mr mw RA O PL RP AS)|]. split; [exact R'|]. flds. unfold upd. assert (o <> 0) by congruence. eqn. exact Z.
  - destruct (s_run s) eqn:RU; [exact I|]. destruct (h_st (s_h s h)) eqn:HS; try exact I. destruct (h_on (s_h s h)) as [[mr mw timed|due timed|once]|] eqn:HO; try exact I.
    destruct (Nat.ltb h (s_hn s) && Nat.leb due (s_lt s (h_loop (s_h s h)))) eqn:LT; [|exact I]. apply andb_prop in LT. destruct LT as (LT & DUE). apply Nat.ltb_lt in LT. apply Nat.leb_le in DUE.
    destruct (holder s a h _ R LT HS HO) as (o & c & r & D & O & Q & IN & HL). rewrite D.
    assert (QQ : s_obj (set_on h None s) o = Some (concrete c r)) by exact Q. rewrite QQ.
    assert (PL : times c r h /\ r_timer r = Some due /\ timed = cls_eqb c CTimed).
    { unfold times. destruct c; cbn [parts In on_poll on_timer on_sig] in IN; (destruct IN as [IN|IN]; [|try contradiction]).
      - injection IN as <- IN. unfold on_poll in IN. destruct (r_poll r) as [[x y]|]; discriminate IN.
      - injection IN as <- IN. unfold on_timer in IN. destruct (r_timer r); [injection IN as -> <-|discriminate IN]. auto.
      - injection IN as <- IN. unfold on_sig in IN. destruct (r_sig r); discriminate IN.
      - injection IN as <- IN. unfold on_poll in IN. destruct (r_poll r) as [[x y]|]; discriminate IN.
      - destruct IN as [IN|[]]. injection IN as <- IN. unfold on_timer in IN. destruct (r_timer r); [injection IN as -> <-|discriminate IN]. auto. }
    destruct PL as (PL & RP & TI). rewrite HL, (rel_lt _ _ R) in DUE.
    assert (RA : a_run a = None) by (rewrite <- (rel_run _ _ R); exact RU).
    assert (O0 : o <> 0) by congruence.
    destruct PL as [(-> & ->)|(-> & ->)]; cbn [cls_eqb] in TI; subst timed.
    + assert (R1 : Rel (set_on (r_id r) None s) (a_put o (Some (CTimer, Some (quiet r))) a)).
      { pose proof (obj_out s a o CTimer r _ R O _ (or_introl eq_refl)) as X. apply (tune_rel s a o CTimer r _ _ R O); try reflexivity.
        - intros x. exact (same_obj _ _ _ Q x).
        - intros k x I. destruct I as [I|[]]. injection I as <- <-. rewrite set_on_h. cbn [r_id quiet w_poll w_timer w_sig]. eqn. rewrite X. reflexivity.
        - intros k NI. rewrite set_on_h. ids NI. reflexivity.
        - repeat split. }
      destruct (call_rel s a o CTimer r _ (quiet r) ATimer R O R1 eq_refl) as (s' & E & R'). rewrite E. eexists. split; [exact (A_expire a o CTimer r _ due RA O (or_introl (conj eq_refl eq_refl)) RP DUE)|]. split; [exact R'|]. flds. unfold upd. eqn. exact Z.
    + cbn [concrete o_ev o_fd].
      assert (R1 : Rel (set_on (r_id r) None (set_on (S (r_id r)) None s)) (a_put o (Some (CTimed, Some (quiet r))) a)).
      { pose proof (obj_out s a o CTimed r _ R O _ (or_introl eq_refl)) as X. pose proof (obj_out s a o CTimed r _ R O _ (or_intror (or_introl eq_refl))) as X2. apply (tune_rel s a o CTimed r _ _ R O); try reflexivity.
        - intros x. exact (same_obj _ _ _ Q x).
        - intros k x I. destruct I as [I|[I|[]]]; injection I as <- <-; rewrite !set_on_h; cbn [r_id quiet w_poll w_timer w_sig]; eqn; [rewrite X; reflexivity|rewrite X2; reflexivity].
        - intros k NI. rewrite !set_on_h. eqn. ids NI. reflexivity.
        - repeat split. }
      destruct (call_rel s a o CTimed r _ (quiet r) (ATimeout (r_fd r)) R O R1 eq_refl) as (s' & E & R'). rewrite E. eexists. split; [exact (A_expire a o CTimed r _ due RA O (or_intror (conj eq_refl eq_refl)) RP DUE)|]. split; [exact R'|]. flds. unfold upd. eqn. exact Z.
  - destruct (s_run s) eqn:RU; [exact I|]. destruct (h_st (s_h s h)) eqn:HS; try exact I. destruct (h_on (s_h s h)) as [[mr mw timed|due timed|once]|] eqn:HO; try exact I.
    destruct (Nat.ltb h (s_hn s)) eqn:LT; [|exact I]. apply Nat.ltb_lt in LT.
    destruct (holder s a h _ R LT HS HO) as (o & c & r & D & O & Q & IN & HL). rewrite D.
    assert (PL : c = CSig /\ h = r_id r /\ r_sig r = Some once).
    { destruct c; cbn [parts In on_poll on_timer on_sig] in IN; (destruct IN as [IN|IN]; [|try contradiction]).
      - injection IN as <- IN. unfold on_poll in IN. destruct (r_poll r) as [[x y]|]; discriminate IN.
      - injection IN as <- IN. unfold on_timer in IN. destruct (r_timer r); discriminate IN.
      - injection IN as <- IN. unfold on_sig in IN. destruct (r_sig r); [injection IN as ->|discriminate IN]. auto.
      - injection IN as <- IN. unfold on_poll in IN. destruct (r_poll r) as [[x y]|]; discriminate IN.
      - destruct IN as [IN|[]]. injection IN as <- IN. unfold on_timer in IN. destruct (r_timer r); discriminate IN. }
    destruct PL as (-> & -> & RP). assert (RA : a_run a = None) by (rewrite <- (rel_run _ _ R); exact RU). assert (O0 : o <> 0) by congruence.
    assert (R1 : Rel (if once then set_on (r_id r) None s else s) (a_put o (Some (CSig, Some (if once then w_sig None r else r))) a)).
    { pose proof (obj_out s a o CSig r _ R O _ (or_introl eq_refl)) as X. apply (tune_rel s a o CSig r _ _ R O); try (destruct once; reflexivity).
      - intros x. destruct once; exact (same_obj _ _ _ Q x).
      - intros k x I. destruct once; destruct I as [I|[]]; injection I as <- <-; [rewrite set_on_h; cbn [r_id w_sig]; eqn; rewrite X; reflexivity|exact X].
      - intros k NI. destruct once; [rewrite set_on_h; ids NI; reflexivity|reflexivity].
      - destruct once; repeat split. }
    destruct (call_rel s a o CSig r _ _ ASig R O R1 ltac:(destruct once; reflexivity)) as (s' & E & R'). rewrite E. eexists. split; [exact (A_signal a o r once RA O RP)|]. split; [exact R'|]. flds. unfold upd. eqn. exact Z.
  - destruct (h_st (s_h s h)) eqn:HS; try exact I. destruct (Nat.ltb h (s_hn s)); [|exact I]. cbn [ok1]. exists a. split; [constructor|]. split; [apply freed_rel; assumption|exact Z].
  - cbn [ok1]. eexists. split; [exact (A_ret a)|]. split; [exact (run_rel s a None R)|exact Z].
Qed.

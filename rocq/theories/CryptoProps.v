(** Properties of the OpenSSL wrappers. *)
From Coq Require Import Arith Lia List Bool Permutation.
From Verif Require Import CryptoModel.
Import ListNotations.

Section P.
Variable bufsize : nat.
Variable is_enc : kind -> list nat -> bool.
Notation step := (step bufsize is_enc).
Notation run := (run bufsize is_enc).

(** ** C99: handles are given back once, and none is lost *)

(** What the library handed out and did not get back; what the objects hold. *)
Definition out_now (w : world) : list (nat * kind) := map (fun e => (e_h e, e_kind e)) (w_live w).
Definition own (ss : list slot) : list (nat * kind) :=
  map (fun x => (snd x, fst x)) (filter (fun x => negb (snd x =? 0)) ss).
Definition thrown (xs : list seen) : nat := length (filter (fun x => match x with SThr _ => true | _ => false end) xs).

Definition good (w : world) : Prop := Forall (fun e => 0 < e_h e <= w_next w) (w_live w) /\ NoDup (map e_h (w_live w)).

Lemma kind_eqb_eq a b : kind_eqb a b = true <-> a = b.
Proof. destruct a, b; split; intro H; try reflexivity; discriminate H. Qed.
Lemma kind_eqb_refl a : kind_eqb a a = true. Proof. destruct a; reflexivity. Qed.

Lemma fr l n h k : Forall (fun e => 0 < e_h e <= n) l -> n < h ->
  filter (fun e => negb ((e_h e =? h) && kind_eqb (e_kind e) k)) l = l.
Proof.
  induction 1 as [|e l E _ IH]; intro L; [reflexivity|]. cbn [filter].
  destruct (e_h e =? h) eqn:F; [apply Nat.eqb_eq in F; lia|]. cbn [andb negb]. f_equal. apply IH; exact L.
Qed.

Definition ext (l : list entry) (w : world) : world := mkW l (w_next w) (w_ans w) (w_fs w) (w_wr w) (w_out w).

Lemma Forall_up l n m : Forall (fun e : entry => 0 < e_h e <= n) l -> n <= m -> Forall (fun e => 0 < e_h e <= m) l.
Proof. intros F L. eapply Forall_impl; [|exact F]. cbn beta. intros a A. lia. Qed.

(** Effects of the programs on the ledger. *)
Definition new_ok (k : kind) (r : out nat) (w w' : world) : Prop :=
  w_next w <= w_next w' /\
  match r with
  | Ret h => w_next w < h <= w_next w' /\ exists o, w_live w' = (h, k, o) :: w_live w
  | Thr _ => w_live w' = w_live w \/
             exists h k' o, (k' = KFile \/ k' = KKey \/ k' = KSsl) /\ w_next w < h <= w_next w' /\ w_live w' = (h, k', o) :: w_live w
  | Ub => True
  end.

Ltac inj E := injection E as <- <-.
Ltac simp := cbn [bind ret throw ub give ask make fst snd w_live w_next w_ans w_fs w_wr w_out w_live_ e_h e_kind e_obj] in *.

Lemma lookup_hd h k o l w : w_live w = (h, k, o) :: l -> lookup h k w = Some (h, k, o).
Proof. intro E. unfold lookup. rewrite E. cbn [find e_h e_kind fst snd]. rewrite Nat.eqb_refl, kind_eqb_refl. reflexivity. Qed.

Lemma use_hd k h o l n a fs wr ou : use k h (mkW ((h, k, o) :: l) n a fs wr ou) = (Ret o, mkW ((h, k, o) :: l) n a fs wr ou).
Proof. unfold use, lookup. cbn [w_live find e_h e_kind fst snd]. rewrite Nat.eqb_refl, kind_eqb_refl. reflexivity. Qed.
Lemma free_hd k h o l m n a fs wr ou : Forall (fun e => 0 < e_h e <= m) l -> m < h ->
  free k h (mkW ((h, k, o) :: l) n a fs wr ou) = (Ret tt, mkW l n a fs wr ou).
Proof.
  intros F L. unfold free, lookup, w_live_. cbn [w_live find filter e_h e_kind fst snd]. rewrite Nat.eqb_refl, kind_eqb_refl. cbn [andb negb].
  rewrite fr with (n := m); [reflexivity|exact F|exact L].
Qed.
Lemma free_def k h o l n a fs wr ou : exists l', free k h (mkW ((h, k, o) :: l) n a fs wr ou) = (Ret tt, mkW l' n a fs wr ou).
Proof. unfold free, lookup, w_live_. cbn [w_live find filter e_h e_kind fst snd]. rewrite Nat.eqb_refl, kind_eqb_refl. cbn [andb negb]. eexists. reflexivity. Qed.
Lemma free_snd k h o e l m n a fs wr ou : Forall (fun e => 0 < e_h e <= m) l -> m < h -> h < e_h e ->
  free k h (mkW (e :: (h, k, o) :: l) n a fs wr ou) = (Ret tt, mkW (e :: l) n a fs wr ou).
Proof.
  intros F L H. unfold free, lookup, w_live_. cbn [w_live find filter]. replace (e_h e =? h) with false by (symmetry; apply Nat.eqb_neq; lia).
  cbn [andb negb find filter e_h e_kind fst snd]. rewrite Nat.eqb_refl, kind_eqb_refl. cbn [andb negb].
  rewrite fr with (n := m); [reflexivity|exact F|exact L].
Qed.

Lemma free_snd' k h o e l n a fs wr ou : h < e_h e ->
  free k h (mkW (e :: (h, k, o) :: l) n a fs wr ou) =
  (Ret tt, mkW (e :: filter (fun e => negb ((e_h e =? h) && kind_eqb (e_kind e) k)) l) n a fs wr ou).
Proof.
  intros H. unfold free, lookup, w_live_. cbn [w_live find filter]. replace (e_h e =? h) with false by (symmetry; apply Nat.eqb_neq; lia).
  cbn [andb negb find filter e_h e_kind fst snd]. rewrite Nat.eqb_refl, kind_eqb_refl. cbn [andb negb]. reflexivity.
Qed.

Lemma rsa_ok w r w' : good w -> key_rsa w = (r, w') -> new_ok KKey r w w' /\ r <> Ub.
Proof.
  intros (G & _) E. unfold key_rsa, make, ask, bind in E. destruct w as [l n a fs wr o]. cbn [w_live w_next] in G. simp.
  assert (X : forall b : bool, forall ys l2,
    free KBn (S (S n)) (mkW ((S (S (S n)), KRsa, []) :: (S (S n), KBn, []) :: (S n, KKey, ys) :: l) (S (S (S n))) l2 fs wr o) =
    (Ret tt, mkW ((S (S (S n)), KRsa, []) :: (S n, KKey, ys) :: l) (S (S (S n))) l2 fs wr o)).
  { intros _ ys l2. unfold free, lookup, w_live_. cbn [w_live find filter e_h e_kind fst snd kind_eqb].
    rewrite !Nat.eqb_refl. cbn [kind_eqb andb].
    replace (S (S (S n)) =? S (S n)) with false by (symmetry; apply Nat.eqb_neq; lia).
    replace (S n =? S (S n)) with false by (symmetry; apply Nat.eqb_neq; lia). cbn [andb negb].
    rewrite fr with (n := n); [reflexivity|exact G|lia]. }
  assert (Y : forall ys l2, free KRsa (S (S (S n))) (mkW ((S (S (S n)), KRsa, []) :: (S n, KKey, ys) :: l) (S (S (S n))) l2 fs wr o) =
    (Ret tt, mkW ((S n, KKey, ys) :: l) (S (S (S n))) l2 fs wr o)).
  { intros ys l2. unfold free, lookup, w_live_. cbn [w_live find filter e_h e_kind fst snd kind_eqb].
    rewrite !Nat.eqb_refl. cbn [kind_eqb andb negb].
    replace (S n =? S (S (S n))) with false by (symmetry; apply Nat.eqb_neq; lia). cbn [andb negb].
    rewrite fr with (n := n); [reflexivity|exact G|lia]. }
  destruct a as [|[[] x] a]; simp.
  - cbn [Nat.eqb] in E. simp. inj E. split; [|discriminate]. split; [apply le_n|]. left. reflexivity.
  - cbn [Nat.eqb] in E. simp.
    destruct a as [|[[] y] a]; simp; rewrite (X true) in E; simp; rewrite Y in E; simp; inj E; (split; [|discriminate]); unfold new_ok; simp.
    + split; [lia|]. right. exists (S n), KKey, x. split; [tauto|]. split; [lia|reflexivity].
    + split; [lia|]. split; [lia|]. exists x. reflexivity.
    + split; [lia|]. right. exists (S n), KKey, x. split; [tauto|]. split; [lia|reflexivity].
  - cbn [Nat.eqb] in E. simp. inj E. split; [|discriminate]. split; [apply le_n|]. left. reflexivity.
Qed.

Lemma pem_ok k x f pw w r w' : good w -> from_pem bufsize k x f pw w = (r, w') -> new_ok k r w w'.
Proof.
  intros (G & _) E. unfold from_pem, open_r, bind in E. destruct w as [l n a fs wr o]. cbn [w_live w_next] in G. simp.
  destruct (fs f) as [p|] eqn:F; simp; [|cbn [Nat.eqb] in E; simp; inj E; split; [apply le_n|left; reflexivity]].
  cbn [Nat.eqb] in E. unfold pem_read in E. simp. rewrite F in E.
  assert (Z : forall ob, free KFile (S n) (mkW ((S (S n), k, ob) :: (S n, KFile, []) :: l) (S (S n)) a fs wr o) =
    (Ret tt, mkW ((S (S n), k, ob) :: l) (S (S n)) a fs wr o)).
  { intro ob. unfold free, lookup, w_live_. cbn [w_live find filter e_h e_kind fst snd].
    replace (S (S n) =? S n) with false by (symmetry; apply Nat.eqb_neq; lia).
    rewrite !Nat.eqb_refl. cbn [kind_eqb andb negb]. rewrite fr with (n := n); [reflexivity|exact G|lia]. }
  assert (T : new_ok k (@Thr nat x) (mkW l n a fs wr o) (mkW ((S n, KFile, []) :: l) (S n) a fs wr o)).
  { split; [simp; lia|]. right. exists (S n), KFile, []. split; [tauto|]. simp. split; [lia|reflexivity]. }
  assert (R : forall ob, new_ok k (Ret (S (S n))) (mkW l n a fs wr o) (mkW ((S (S n), k, ob) :: l) (S (S n)) a fs wr o)).
  { intro ob. split; [simp; lia|]. split; [simp; lia|]. exists ob. reflexivity. }
  destruct p as [|ob|p ob].
  - cbn [Nat.eqb] in E. simp. inj E. exact T.
  - simp. cbn [Nat.eqb] in E. rewrite Z in E. inj E. apply R.
  - destruct (pw_cb pw bufsize) as [|s|].
    + cbn [Nat.eqb] in E. simp. inj E. exact T.
    + destruct (bytes_eqb s p); simp; cbn [Nat.eqb] in E.
      * rewrite Z in E. inj E. apply R.
      * simp. inj E. exact T.
    + inj E. split; [simp; lia|exact I].
Qed.

Lemma der_ok k x d w r w' : from_der is_enc k x d w = (r, w') -> new_ok k r w w'.
Proof.
  intro E. unfold from_der in E. destruct d as [|b d]; [inj E; split; [apply le_n|exact I]|].
  unfold bind, d2i in E. destruct (find (is_enc k) (prefixes (b :: d))) as [o|]; simp; cbn [Nat.eqb] in E; simp; inj E.
  - split; [simp; lia|]. split; [simp; lia|]. exists o. reflexivity.
  - split; [apply le_n|left; reflexivity].
Qed.

Lemma use_same k h w o w' : use k h w = (Ret o, w') -> w' = w.
Proof. unfold use. destruct (lookup h k w); intro E; [injection E as _ <-; reflexivity|discriminate E]. Qed.

Lemma make_ok k w : exists r w', make k w = (Ret r, w') /\ w_next w <= w_next w' /\
  ((r = 0 /\ w_live w' = w_live w) \/ (r = S (w_next w) /\ w_next w' = S (w_next w) /\ exists o, w_live w' = (r, k, o) :: w_live w)).
Proof.
  unfold make, ask, bind. destruct w as [l n a fs wr o]. destruct a as [|[[] x] a]; simp.
  - exists 0. eexists. split; [reflexivity|]. split; [simp; lia|]. left. split; reflexivity.
  - exists (S n). eexists. split; [reflexivity|]. split; [simp; lia|]. right. split; [reflexivity|]. split; [reflexivity|]. exists x. reflexivity.
  - exists 0. eexists. split; [reflexivity|]. split; [simp; lia|]. left. split; reflexivity.
Qed.

Lemma ask_ok w : exists a w', ask w = (Ret a, w') /\ w_next w' = w_next w /\ w_live w' = w_live w.
Proof. unfold ask. destruct (w_ans w) as [|a l]; eexists; eexists; (split; [reflexivity|]); split; reflexivity. Qed.

Lemma made_ok k x (w : world) r w' : (h <- make k; if h =? 0 then throw x else ret h) w = (r, w') -> new_ok k r w w'.
Proof.
  unfold bind. destruct (make_ok k w) as (h & w1 & E & N & C). rewrite E.
  destruct C as [(-> & L)|(-> & M & o & L)]; cbn [Nat.eqb]; intro F; simp; inj F.
  - split; [exact N|left; exact L].
  - split; [exact N|]. split; [lia|]. exists o. exact L.
Qed.

Lemma used_ok {A} k h (p : list nat -> prog A) w r w' : (o <- use k h; p o) w = (r, w') ->
  (r = Ub /\ w' = w /\ lookup h k w = None) \/ (exists e, lookup h k w = Some e /\ p (e_obj e) w = (r, w')).
Proof.
  unfold bind, use. destruct (lookup h k w) as [e|]; intro E.
  - right. exists e. split; [reflexivity|exact E].
  - left. injection E as <- <-. split; [reflexivity|]. split; reflexivity.
Qed.

Lemma self_ok h w r w' : self_signed h w = (r, w') -> new_ok KCert r w w'.
Proof.
  unfold self_signed. intro E. apply used_ok in E. destruct E as [(-> & -> & _)|(_ & _ & E)]; [split; [apply le_n|exact I]|].
  unfold bind in E. destruct (ask_ok w) as (a & w1 & A & N & L). rewrite A in E. simp. inj E.
  split; [simp; lia|]. split; [simp; lia|]. exists (snd a). simp. rewrite L, N. reflexivity.
Qed.

Lemma pubof_ok h w r w' : pub_of h w = (r, w') -> new_ok KKey r w w'.
Proof.
  unfold pub_of. intro E. apply used_ok in E. destruct E as [(-> & -> & _)|(_ & _ & E)]; [split; [apply le_n|exact I]|].
  apply made_ok with (x := EX509). exact E.
Qed.
Lemma peer_ok h w r w' : peer_cert h w = (r, w') -> new_ok KCert r w w'.
Proof.
  unfold peer_cert. intro E. apply used_ok in E. destruct E as [(-> & -> & _)|(_ & _ & E)]; [split; [apply le_n|exact I]|].
  apply made_ok with (x := ETls). exact E.
Qed.
Lemma tls_ok h w r w' : tls_new h w = (r, w') -> new_ok KSsl r w w'.
Proof.
  unfold tls_new. intro E. apply used_ok in E. destruct E as [(-> & -> & _)|(_ & _ & E)]; [split; [apply le_n|exact I]|].
  unfold bind in E. destruct (make_ok KSsl w) as (s & w1 & M & N & C). rewrite M in E.
  destruct C as [(-> & L)|(-> & N1 & o & L)]; cbn [Nat.eqb] in E; simp.
  - inj E. split; [exact N|left; exact L].
  - destruct (ask_ok w1) as (a & w2 & A & N2 & L2). rewrite A in E. destruct (fst a); simp; inj E.
    + split; [lia|]. split; [lia|]. exists o. rewrite L2. exact L.
    + split; [lia|]. right. exists (S (w_next w)), KSsl, o. split; [tauto|]. split; [lia|]. rewrite L2. exact L.
Qed.

(** Methods leave the ledger as it is. *)
Definition keeps {A} (r : out A) (w w' : world) : Prop := w_next w <= w_next w' /\ (r = Ub \/ w_live w' = w_live w).

Lemma buf_ok o w r w' : good w -> (b <- give KBuf o; c <- use KBuf b; free KBuf b ;; ret c) w = (r, w') ->
  r = Ret o /\ keeps r w w'.
Proof.
  intros (G & _) E. unfold bind in E. destruct w as [l n a fs wr ou]. simp.
  rewrite use_hd in E. simp. rewrite (free_hd _ _ _ _ n) in E; [|exact G|lia]. inj E. split; [reflexivity|]. split; [simp; lia|].
  right. reflexivity.
Qed.

Lemma getder_ok k x h w r w' : good w -> get_der k x h w = (r, w') -> keeps r w w' /\ (r = Ub -> lookup h k w = None).
Proof.
  intros G E. apply used_ok in E. destruct E as [(-> & -> & U)|(e & _ & E)]; [split; [split; [apply le_n|left; reflexivity]|intros _; exact U]|].
  unfold bind at 1 in E. destruct (ask_ok w) as (a & w1 & A & N & L). rewrite A in E. destruct (fst a).
  - apply buf_ok in E; [|unfold good; rewrite L, N; exact G]. destruct E as (-> & K1 & K2). split; [|discriminate]. split; [lia|]. rewrite L in K2. exact K2.
  - simp. inj E. split; [|discriminate]. split; [lia|]. right. exact L.
Qed.
Lemma getpub_ok h w r w' : good w -> get_pub_der h w = (r, w') -> keeps r w w' /\ (r = Ub -> lookup h KKey w = None).
Proof.
  intros G E. apply used_ok in E. destruct E as [(-> & -> & U)|(e & _ & E)]; [split; [split; [apply le_n|left; reflexivity]|intros _; exact U]|].
  unfold bind at 1 in E. destruct (ask_ok w) as (a & w1 & A & N & L). rewrite A in E. destruct (fst a).
  - apply buf_ok in E; [|unfold good; rewrite L, N; exact G]. destruct E as (-> & K1 & K2). split; [|discriminate]. split; [lia|]. rewrite L in K2. exact K2.
  - simp. inj E. split; [|discriminate]. split; [lia|]. right. exact L.
Qed.
Lemma save_ok k h f w r w' : good w -> save k h f w = (r, w') -> keeps r w w' /\ (r = Ub -> lookup h k w = None \/ w_wr w f = false).
Proof.
  intros (G & _) E. apply used_ok in E. destruct E as [(-> & -> & U)|(e & _ & E)]; [split; [split; [apply le_n|left; reflexivity]|intros _; left; exact U]|].
  unfold bind, open_w in E. destruct w as [l n a fs wr ou]. simp. destruct (wr f) eqn:WR; simp.
  - rewrite use_hd in E. simp.
    destruct a as [|[[] y] a]; simp; (rewrite (free_hd _ _ _ _ n) in E; [|exact G|lia]); simp; inj E;
      (split; [|discriminate]); (split; [simp; lia|]); right; reflexivity.
  - assert (F : find (fun e0 : entry => (e_h e0 =? 0) && kind_eqb (e_kind e0) KFile) l = None).
    { clear - G. induction G as [|x l X _ IH]; [reflexivity|]. cbn [find]. destruct (e_h x =? 0) eqn:Q; [apply Nat.eqb_eq in Q; lia|]. exact IH. }
    unfold use, lookup in E. simp. rewrite F in E. inj E. split; [split; [apply le_n|left; reflexivity]|intros _; right; reflexivity].
Qed.
Lemma set_ok h x w r w' : ctx_set h x w = (r, w') -> keeps r w w'.
Proof.
  intro E. apply used_ok in E. destruct E as [(-> & -> & _)|(e & _ & E)]; [split; [apply le_n|left; reflexivity]|].
  unfold bind in E. destruct (ask_ok w) as (a & w1 & A & N & L). rewrite A in E. destruct (fst a); simp; inj E; (split; [lia|right; exact L]).
Qed.
Lemma chk_ok h w r w' : ctx_check h w = (r, w') -> keeps r w w'.
Proof.
  intro E. apply used_ok in E. destruct E as [(-> & -> & _)|(e & _ & E)]; [split; [apply le_n|left; reflexivity]|].
  unfold bind in E. destruct (ask_ok w) as (a & w1 & A & N & L). rewrite A in E. simp; inj E; (split; [lia|right; exact L]).
Qed.

(** The invariant: the ledger is what the objects hold and what was lost. *)
Definition lost_kind (x : nat * kind) : Prop := snd x = KFile \/ snd x = KKey \/ snd x = KSsl.
Definition inv (n : nat) (ss : list slot) (w : world) : Prop :=
  good w /\ exists L, Permutation (out_now w) (own ss ++ L) /\ Forall lost_kind L /\ length L <= n.

Lemma own_app a b : own (a ++ b) = own a ++ own b.
Proof. unfold own. rewrite filter_app, map_app. reflexivity. Qed.
Lemma own_repl i k h ss : nth_error ss i = Some (k, h) -> h <> 0 -> Permutation (own ss) ((h, k) :: own (repl i (k, 0) ss)).
Proof.
  revert i. induction ss as [|[k' h'] ss IH]; intros [|i] N H; cbn [nth_error] in N; try discriminate N.
  - injection N as -> ->. unfold own. cbn [repl filter snd Nat.eqb negb].
    destruct (h =? 0) eqn:F; [apply Nat.eqb_eq in F; contradiction|]. cbn [negb map fst snd]. reflexivity.
  - specialize (IH i N H). unfold own in *. cbn [repl filter snd]. destruct (negb (h' =? 0)); [|exact IH]. cbn [map fst snd].
    rewrite IH. apply perm_swap.
Qed.
Lemma own_repl0 i k ss : nth_error ss i = Some (k, 0) -> own (repl i (k, 0) ss) = own ss.
Proof.
  revert i. induction ss as [|[k' h'] ss IH]; intros [|i] N; cbn [nth_error] in N; try discriminate N.
  - injection N as -> ->. reflexivity.
  - specialize (IH i N). unfold own in *. cbn [repl filter snd]. destruct (negb (h' =? 0)); [cbn [map]; f_equal|]; exact IH.
Qed.

Lemma good_cons w w' h k o : good w -> w_next w < h <= w_next w' -> w_live w' = (h, k, o) :: w_live w -> good w'.
Proof.
  intros (G1 & G2) H E. unfold good. rewrite E. split.
  - constructor; [cbn [e_h fst]; lia|]. eapply Forall_up; [exact G1|lia].
  - cbn [map e_h fst]. constructor; [|exact G2]. intro I. apply in_map_iff in I. destruct I as (e & Q & I).
    rewrite Forall_forall in G1. specialize (G1 e I). lia.
Qed.
Lemma good_same w w' : good w -> w_next w <= w_next w' -> w_live w' = w_live w -> good w'.
Proof. intros (G1 & G2) N E. unfold good. rewrite E. split; [eapply Forall_up; [exact G1|exact N]|exact G2]. Qed.

Definition bad (x : seen) : Prop := x = SUb.
Definition fails (x : seen) : nat := match x with SThr _ => 1 | _ => 0 end.

Lemma mk_inv n k p ss w ss' w' x : (forall r w', p w = (r, w') -> new_ok k r w w') -> inv n ss w ->
  mk k p ss w = Some (ss', w', x) -> x = SUb \/ inv (fails x + n) ss' w'.
Proof.
  intros P (G & L & I1 & I2 & I3) E. unfold mk in E. destruct (p w) as [r w1] eqn:F. specialize (P _ _ eq_refl).
  destruct P as (N & P). destruct r as [h|e|]; injection E as <- <- <-; [right|right|left; reflexivity].
  - destruct P as (H & o & Q). split; [eapply good_cons; eassumption|]. exists L. split; [|split; [exact I2|exact I3]].
    unfold out_now. rewrite Q. cbn [map e_h e_kind fst snd]. rewrite own_app. unfold own at 2. cbn [filter snd].
    destruct (h =? 0) eqn:Z; [apply Nat.eqb_eq in Z; lia|]. cbn [negb map fst snd]. rewrite <- app_assoc. cbn [app].
    apply Permutation_cons_app. exact I1.
  - cbn [fails Nat.add]. destruct P as [Q|(h & k' & o & K & H & Q)].
    + split; [eapply good_same; eassumption|]. exists L. split; [unfold out_now; rewrite Q; exact I1|]. split; [exact I2|lia].
    + split; [eapply good_cons; eassumption|]. exists ((h, k') :: L). split; [|split; [constructor; [exact K|exact I2]|cbn [length]; lia]].
      unfold out_now. rewrite Q. cbn [map e_h e_kind fst snd]. apply Permutation_cons_app. exact I1.
Qed.

Lemma call_inv {A} n (f : A -> seen) p ss w ss' w' x : (forall r w', p w = (r, w') -> keeps r w w') -> inv n ss w ->
  call f p ss w = Some (ss', w', x) -> x = SUb \/ inv (fails x + n) ss' w'.
Proof.
  intros P (G & L & I1 & I2 & I3) E. unfold call in E. destruct (p w) as [r w1] eqn:F. destruct (P _ _ eq_refl) as (N & Q).
  destruct r as [a|e|]; injection E as <- <- <-; [right|right|left; reflexivity];
    (destruct Q as [Q|Q]; [discriminate Q|]);
    (split; [eapply good_same; eassumption|]); exists L; (split; [unfold out_now; rewrite Q; exact I1|]); (split; [exact I2|lia]).
Qed.

Lemma step_inv n o ss w ss' w' x : inv n ss w -> step o ss w = Some (ss', w', x) -> x = SUb \/ inv (fails x + n) ss' w'.
Proof.
  intros I E. assert (G : good w) by exact (proj1 I). destruct o; cbn [CryptoModel.step] in E.
  - eapply mk_inv; [|exact I|exact E]. intros r w1 F. apply rsa_ok; assumption.
  - destruct k; try discriminate E; (eapply mk_inv; [|exact I|exact E]); intros r w1 F; eapply pem_ok; eassumption.
  - destruct k; try discriminate E; (eapply mk_inv; [|exact I|exact E]); intros r w1 F; eapply der_ok; eassumption.
  - destruct (held KKey i ss); [|discriminate E]. eapply mk_inv; [|exact I|exact E]. intros r w1 F. eapply self_ok; eassumption.
  - destruct (held KCert i ss); [|discriminate E]. eapply mk_inv; [|exact I|exact E]. intros r w1 F. eapply pubof_ok; eassumption.
  - eapply mk_inv; [|exact I|exact E]. intros r w1 F. eapply made_ok; eassumption.
  - destruct (held KCtx i ss); [|discriminate E]. eapply mk_inv; [|exact I|exact E]. intros r w1 F. eapply tls_ok; eassumption.
  - destruct (held KSsl i ss); [|discriminate E]. eapply mk_inv; [|exact I|exact E]. intros r w1 F. eapply peer_ok; eassumption.
  - destruct (nth_error ss i) as [[[] h]|]; try discriminate E; (destruct (h =? 0); [discriminate E|]);
      (eapply call_inv; [|exact I|exact E]); intros r w1 F; exact (proj1 (getder_ok _ _ _ _ _ _ G F)).
  - destruct (held KKey i ss); [|discriminate E]. eapply call_inv; [|exact I|exact E]. intros r w1 F. exact (proj1 (getpub_ok _ _ _ _ G F)).
  - destruct (nth_error ss i) as [[[] h]|]; try discriminate E; (destruct (h =? 0); [discriminate E|]);
      (eapply call_inv; [|exact I|exact E]); intros r w1 F; exact (proj1 (save_ok _ _ _ _ _ _ G F)).
  - destruct (held KCtx i ss); [|discriminate E]. eapply call_inv; [|exact I|exact E]. intros r w1 F. eapply set_ok; eassumption.
  - destruct (held KCtx i ss); [|discriminate E]. eapply call_inv; [|exact I|exact E]. intros r w1 F. eapply chk_ok; eassumption.
  - (* Move *) destruct (nth_error ss i) as [[k h]|] eqn:N; [|discriminate E]. injection E as <- <- <-. right.
    destruct I as (_ & L & I1 & I2 & I3). split; [exact G|]. exists L. split; [|split; [exact I2|exact I3]].
    rewrite I1. apply Permutation_app_tail. rewrite own_app. unfold own at 3. cbn [filter snd].
    destruct (Nat.eq_dec h 0) as [->|H].
    + cbn [Nat.eqb negb map]. rewrite app_nil_r, own_repl0 by exact N. reflexivity.
    + rewrite (own_repl _ _ _ _ N H). destruct (h =? 0) eqn:Z; [apply Nat.eqb_eq in Z; contradiction|]. cbn [negb map fst snd].
      apply Permutation_cons_append.
  - (* Drop *) destruct (nth_error ss i) as [[k h]|] eqn:N; [|discriminate E]. destruct (h =? 0) eqn:Z.
    + injection E as <- <- <-. right. destruct I as (_ & L & I1 & I2 & I3). split; [exact G|]. exists L. split; [exact I1|]. split; [exact I2|exact I3].
    + apply Nat.eqb_neq in Z. unfold call in E. destruct (free k h w) as [r w1] eqn:F. unfold free in F.
      destruct I as (_ & L & I1 & I2 & I3).
      destruct (lookup h k w) as [e|] eqn:Q; [|injection F as <- <-; injection E as <- <- <-; left; reflexivity].
      injection F as <- <-. injection E as <- <- <-. right.
      assert (X : Permutation (out_now w) ((h, k) :: out_now (w_live_ (filter (fun e0 => negb ((e_h e0 =? h) && kind_eqb (e_kind e0) k)) (w_live w)) w)) /\
                  good (w_live_ (filter (fun e0 => negb ((e_h e0 =? h) && kind_eqb (e_kind e0) k)) (w_live w)) w)).
      { unfold lookup in Q. destruct G as (G1 & G2). unfold out_now, good, w_live_. cbn [w_live w_next].
        clear - Q G1 G2. revert G1 G2 Q. generalize (w_next w). induction (w_live w) as [|a l IH]; intros m G1 G2 Q; [discriminate Q|].
        cbn [find] in Q. inversion G1; subst. inversion G2; subst. cbn [filter map].
        destruct ((e_h a =? h) && kind_eqb (e_kind a) k) eqn:B.
        - apply andb_prop in B. destruct B as (B1 & B2). apply Nat.eqb_eq in B1. apply kind_eqb_eq in B2. cbn [negb].
          assert (W : filter (fun e0 => negb ((e_h e0 =? h) && kind_eqb (e_kind e0) k)) l = l).
          { clear - B1 H3. induction l as [|b l IH]; [reflexivity|]. cbn [filter]. cbn [map] in H3.
            destruct (e_h b =? h) eqn:Z; [apply Nat.eqb_eq in Z; exfalso; apply H3; left; congruence|]. cbn [andb negb]. f_equal. apply IH.
            intro J. apply H3. right. exact J. }
          rewrite W, B1, B2. split; [reflexivity|]. split; assumption.
        - cbn [negb map]. destruct (IH m H2 H4 Q) as (J1 & J2 & J3). split; [|split].
          + rewrite J1. apply perm_swap.
          + constructor; assumption.
          + cbn [map]. constructor; [|exact J3]. intro J. apply H3. clear - J. apply in_map_iff in J. destruct J as (b & <- & J).
            apply filter_In in J. apply in_map. exact (proj1 J). }
      destruct X as (X1 & X2). split; [exact X2|]. exists L. split; [|split; [exact I2|exact I3]].
      apply Permutation_cons_inv with (a := (h, k)). rewrite <- X1, I1, (own_repl _ _ _ _ N Z). reflexivity.
Qed.

Lemma run_inv l : forall n ss w ss' w' xs, inv n ss w -> run l ss w = Some (ss', w', xs) -> ~ In SUb xs -> inv (thrown xs + n) ss' w'.
Proof.
  induction l as [|o l IH]; intros n ss w ss' w' xs I E U; cbn [CryptoModel.run] in E.
  - injection E as <- <- <-. exact I.
  - destruct (step o ss w) as [[[s1 w1] x]|] eqn:S; [|discriminate E]. destruct (run l s1 w1) as [[[s2 w2] ys]|] eqn:R; [|discriminate E].
    injection E as <- <- <-. destruct (step_inv _ _ _ _ _ _ _ I S) as [->|J]; [exfalso; apply U; left; reflexivity|].
    apply (IH _ _ _ _ _ _ J) in R; [|intro Q; apply U; right; exact Q].
    replace (thrown (x :: ys) + n) with (thrown ys + (fails x + n)); [exact R|]. unfold thrown. cbn [filter]. destruct x; cbn [length fails]; lia.
Qed.

(** The start: nothing is held. *)
Definition start (w : world) : Prop := w_live w = [].

Theorem C99_handles_partial : forall l w ss w' xs, start w -> run l [] w = Some (ss, w', xs) -> ~ In SUb xs ->
  exists L, Permutation (out_now w') (own ss ++ L) /\ NoDup (map fst (out_now w')) /\
            Forall lost_kind L /\ length L <= thrown xs /\ (thrown xs = 0 -> L = []).
Proof.
  intros l w ss w' xs S R U. apply (run_inv l 0) in R; [|unfold inv, good, out_now; rewrite S; split; [split; constructor|exists []; split; [reflexivity|split; [constructor|apply le_n]]]|exact U].
  destruct R as ((G1 & G2) & L & I1 & I2 & I3). rewrite Nat.add_0_r in I3. exists L. split; [exact I1|]. split.
  { unfold out_now. rewrite map_map. exact G2. }
  split; [exact I2|]. split; [exact I3|]. intro Z. rewrite Z in I3. destruct L; [reflexivity|cbn [length] in I3; lia].
Qed.

(** Every object gone and nothing thrown: the library has everything back. *)
Corollary C99_all_back_partial : forall l w ss w' xs, start w -> run l [] w = Some (ss, w', xs) -> ~ In SUb xs -> thrown xs = 0 ->
  (forall x, In x ss -> snd x = 0) -> w_live w' = [].
Proof.
  intros l w ss w' xs S R U T D. destruct (C99_handles_partial _ _ _ _ _ S R U) as (L & P & _ & _ & _ & Z). rewrite (Z T), app_nil_r in P.
  assert (O : own ss = []).
  { clear - D. induction ss as [|x ss IH]; [reflexivity|]. unfold own in *. cbn [filter]. rewrite (D x (or_introl eq_refl)). cbn [Nat.eqb negb].
    apply IH. intros y Y. apply D. right. exact Y. }
  rewrite O in P. apply Permutation_sym, Permutation_nil in P. unfold out_now in P. destruct (w_live w'); [reflexivity|discriminate P].
Qed.

(** ** C100: methods of valid objects are defined *)

Definition in_ledger (ss : list slot) (w : world) : Prop := forall i k h, nth_error ss i = Some (k, h) -> h <> 0 -> lookup h k w <> None.

Lemma lookup_in h k w : In (h, k) (out_now w) -> lookup h k w <> None.
Proof.
  unfold out_now, lookup. intro I. apply in_map_iff in I. destruct I as (e & Q & I). injection Q as Q1 Q2. intro N.
  apply (find_none _ _ N) in I. rewrite Q1, Q2, Nat.eqb_refl, kind_eqb_refl in I. discriminate I.
Qed.
Lemma own_in ss i k h : nth_error ss i = Some (k, h) -> h <> 0 -> In (h, k) (own ss).
Proof.
  intros N H. apply nth_error_In in N. unfold own. apply in_map_iff. exists (k, h). split; [reflexivity|]. apply filter_In. split; [exact N|].
  cbn [snd]. destruct (h =? 0) eqn:Z; [apply Nat.eqb_eq in Z; contradiction|reflexivity].
Qed.
Lemma inv_ledger n ss w : inv n ss w -> in_ledger ss w.
Proof.
  intros (_ & L & P & _) i k h N H. apply lookup_in. eapply Permutation_in; [apply Permutation_sym; exact P|]. apply in_or_app. left. eapply own_in; eassumption.
Qed.

(** What makes an operation undefined: an empty encoding, a file that cannot
    be written, a password longer than the library's buffer. *)
Definition excused (o : op) (w : world) : Prop :=
  match o with
  | NewDer _ d => d = []
  | Save _ f => w_wr w f = false
  | NewPem _ f (Some pw) => bufsize <= length (cstr pw) /\ exists p o, w_fs w f = Some (PEnc p o)
  | _ => False
  end.

Lemma held_ok k i ss h : held k i ss = Some h -> nth_error ss i = Some (k, h) /\ h <> 0.
Proof.
  unfold held. destruct (nth_error ss i) as [[k' h']|]; [|discriminate]. destruct (kind_eqb k k') eqn:K; cbn [andb]; [|discriminate].
  destruct (h' =? 0) eqn:Z; cbn [negb]; [discriminate|]. intro E. injection E as <-. apply kind_eqb_eq in K. subst k'.
  split; [reflexivity|]. apply Nat.eqb_neq. exact Z.
Qed.

Lemma step_defined n o ss w ss' w' : inv n ss w -> step o ss w = Some (ss', w', SUb) -> excused o w.
Proof.
  intros I E. pose proof (inv_ledger _ _ _ I) as IL. destruct I as (G & _).
  assert (HL : forall k i h, held k i ss = Some h -> exists e, lookup h k w = Some e).
  { intros k i h Q. apply held_ok in Q. destruct Q as (Q1 & Q2). specialize (IL _ _ _ Q1 Q2). destruct (lookup h k w) as [e|]; [exists e; reflexivity|contradiction]. }
  assert (MK : forall k p ss1, mk k p ss w = Some (ss1, w', SUb) -> exists v, p w = (Ub, v)).
  { intros k p ss1 M. unfold mk in M. destruct (p w) as [[]]; try discriminate M. eexists; reflexivity. }
  assert (CL : forall A (f : A -> seen) p, (forall a, f a <> SUb) -> call f p ss w = Some (ss', w', SUb) -> exists v, p w = (Ub, v)).
  { intros A f p NF M. unfold call in M. destruct (p w) as [[a|e|] v]; try discriminate M; [injection M as _ _ M; exfalso; exact (NF a M)|eexists; reflexivity]. }
  assert (AS : forall w1, exists a w2, ask w1 = (Ret a, w2)) by (intro w1; destruct (ask_ok w1) as (a & w2 & A & _); exists a, w2; exact A).
  destruct o; cbn [CryptoModel.step excused] in *.
  - apply MK in E. destruct E as (v & E). apply rsa_ok in E; [|exact G]. destruct E as (_ & E). apply E. reflexivity.
  - destruct k; try discriminate E; apply MK in E; destruct E as (v & E);
      unfold from_pem, open_r, bind in E; destruct (w_fs w f) as [p|] eqn:F; simp; cbn [Nat.eqb] in E; simp; try discriminate E;
      unfold pem_read in E; simp; rewrite F in E; destruct p as [|ob|p ob]; simp; cbn [Nat.eqb] in E; simp; try discriminate E;
      try (rewrite (free_snd _ _ _ _ _ (w_next w)) in E; [discriminate E|exact (proj1 G)|lia|cbn [e_h fst]; lia]);
      (destruct pw as [q|]; cbn [pw_cb] in E; [|cbn [Nat.eqb] in E; simp; discriminate E]);
      (destruct (bufsize <? S (length (cstr q))) eqn:B;
        [apply Nat.ltb_lt in B; split; [lia|]; exists p, ob; reflexivity|]);
      (destruct (bytes_eqb (cstr q) p); simp; cbn [Nat.eqb] in E; simp; [|discriminate E]);
      (rewrite (free_snd _ _ _ _ _ (w_next w)) in E; [discriminate E|exact (proj1 G)|lia|cbn [e_h fst]; lia]).
  - destruct k; try discriminate E; apply MK in E; destruct E as (v & E); unfold from_der in E;
      (destruct der as [|b d]; [reflexivity|]); exfalso; unfold d2i, bind in E;
      (match type of E with context [find ?a ?b] => destruct (find a b) end); simp; cbn [Nat.eqb] in E; simp; discriminate E.
  - destruct (held KKey i ss) eqn:H; [|discriminate E]. apply MK in E. destruct E as (v & E). destruct (HL _ _ _ H) as (e & Q).
    exfalso. unfold self_signed, bind, use in E. rewrite Q in E. destruct (AS w) as (a & w2 & A). rewrite A in E. simp. discriminate E.
  - destruct (held KCert i ss) eqn:H; [|discriminate E]. apply MK in E. destruct E as (v & E). destruct (HL _ _ _ H) as (e & Q).
    exfalso. unfold pub_of, bind, use in E. rewrite Q in E. destruct (make_ok KKey w) as (x & w1 & M & _). rewrite M in E.
    destruct (x =? 0); discriminate E.
  - apply MK in E. destruct E as (v & E). exfalso. unfold ctx_new, bind in E. destruct (make_ok KCtx w) as (x & w1 & M & _). rewrite M in E.
    destruct (x =? 0); discriminate E.
  - destruct (held KCtx i ss) eqn:H; [|discriminate E]. apply MK in E. destruct E as (v & E). destruct (HL _ _ _ H) as (e & Q).
    exfalso. unfold tls_new, bind, use in E. rewrite Q in E. destruct (make_ok KSsl w) as (x & w1 & M & _). rewrite M in E.
    destruct (x =? 0); [discriminate E|]. destruct (AS w1) as (a & w2 & A). rewrite A in E. destruct (fst a); discriminate E.
  - destruct (held KSsl i ss) eqn:H; [|discriminate E]. apply MK in E. destruct E as (v & E). destruct (HL _ _ _ H) as (e & Q).
    exfalso. unfold peer_cert, bind, use in E. rewrite Q in E. destruct (make_ok KCert w) as (x & w1 & M & _). rewrite M in E.
    destruct (x =? 0); discriminate E.
  - exfalso. destruct (nth_error ss i) as [[[] h]|] eqn:H; try discriminate E; (destruct (h =? 0) eqn:Z; [discriminate E|]); apply Nat.eqb_neq in Z;
      specialize (IL _ _ _ H Z); (apply CL in E; [|discriminate]); destruct E as (v & E);
      apply IL; exact (proj2 (getder_ok _ _ _ _ _ _ G E) eq_refl).
  - exfalso. destruct (held KKey i ss) eqn:H; [|discriminate E]. apply CL in E; [|discriminate]. destruct E as (v & E). destruct (HL _ _ _ H) as (e & Q).
    rewrite (proj2 (getpub_ok _ _ _ _ G E) eq_refl) in Q. discriminate Q.
  - destruct (nth_error ss i) as [[[] h]|] eqn:H; try discriminate E; (destruct (h =? 0) eqn:Z; [discriminate E|]); apply Nat.eqb_neq in Z;
      specialize (IL _ _ _ H Z); (apply CL in E; [|discriminate]); destruct E as (v & E);
      (destruct (proj2 (save_ok _ _ _ _ _ _ G E) eq_refl) as [X|X]; [contradiction|exact X]).
  - exfalso. destruct (held KCtx i ss) eqn:H; [|discriminate E]. apply CL in E; [|discriminate]. destruct E as (v & E). destruct (HL _ _ _ H) as (e & Q).
    unfold ctx_set, bind, use in E. rewrite Q in E. destruct (AS w) as (a & w2 & A). rewrite A in E. destruct (fst a); discriminate E.
  - exfalso. destruct (held KCtx i ss) eqn:H; [|discriminate E]. apply CL in E; [|discriminate]. destruct E as (v & E). destruct (HL _ _ _ H) as (e & Q).
    unfold ctx_check, bind, use in E. rewrite Q in E. destruct (AS w) as (a & w2 & A). rewrite A in E. discriminate E.
  - exfalso. destruct (nth_error ss i) as [[]|]; discriminate E.
  - exfalso. destruct (nth_error ss i) as [[k h]|] eqn:N; [|discriminate E]. destruct (h =? 0) eqn:Z; [discriminate E|]. apply Nat.eqb_neq in Z.
    specialize (IL _ _ _ N Z). unfold call, free in E. destruct (lookup h k w); [discriminate E|contradiction].
Qed.

(** After any history without undefined behaviour, an operation that is
    undefined is one of the three. *)
Theorem C100_defined_partial : forall l w ss w1 xs o ss' w', start w -> run l [] w = Some (ss, w1, xs) -> ~ In SUb xs ->
  step o ss w1 = Some (ss', w', SUb) -> excused o w1.
Proof.
  intros l w ss w1 xs o ss' w' S R U E. apply (run_inv l 0) in R; [|unfold inv, good, out_now; rewrite S; split; [split; constructor|exists []; split; [reflexivity|split; [constructor|apply le_n]]]|exact U].
  eapply step_defined; eassumption.
Qed.

(** What the library is asked by an operation, in order: for each call the
    exception the caller is promised when the library refuses it.  Not here:
    files and encodings, of which C101 and C102 speak; check_privkey, which
    gives the answer to its caller; create_self_signed_from_pubkey, see
    C100_unsigned_refuted. *)
Definition calls (o : op) (ss : list slot) : option (list exn) :=
  match o with
  | NewRsa => Some [EKey; EKey]
  | NewCtx => Some [ERun]
  | NewTls _ => Some [ERun; ETls]
  | PubOf _ => Some [EX509]
  | PeerCert _ => Some [ETls]
  | Der i => match nth_error ss i with Some (KKey, _) => Some [EKey] | _ => Some [EX509] end
  | PubDer _ => Some [EKey]
  | Save _ _ => Some [EX509]
  | CtxSet _ x => Some [x]
  | _ => None
  end.
(** The exception of the first call that is refused. *)
Fixpoint refused (cs : list exn) (ans : list (bool * list nat)) : option exn :=
  match cs with
  | [] => None
  | e :: cs => match ans with (true, _) :: ans => refused cs ans | _ => Some e end
  end.
Definition normal (x : seen) : Prop := match x with SThr _ | SUb => False | _ => True end.

Lemma free_two k h w : exists w', free k h w = (Ret tt, w') \/ free k h w = (Ub, w').
Proof. unfold free. destruct (lookup h k w); eexists; [left|right]; reflexivity. Qed.
Lemma rsa_reported w r w' : key_rsa w = (r, w') -> r <> Ub ->
  match refused [EKey; EKey] (w_ans w) with Some e => r = Thr e | None => exists h, r = Ret h end.
Proof.
  destruct w as [l n a fs wr o]. unfold key_rsa, make, ask, bind, throw, ret. simp. intros E U.
  destruct a as [|[[] x] a]; simp; cbn [Nat.eqb refused] in *; simp; [congruence| |congruence].
  destruct a as [|[[] y] a]; simp; cbn [refused];
  repeat match type of E with context [free ?k ?h ?w] => let F := fresh "F" in destruct (free_two k h w) as (? & [F|F]); rewrite F in E; simp end; try congruence;
  injection E as <- _; eexists; reflexivity.
Qed.

Lemma mk_seen k p ss w ss' w' x : mk k p ss w = Some (ss', w', x) ->
  match fst (p w) with Ret _ => x = SNew | Thr e => x = SThr e | Ub => x = SUb end.
Proof. unfold mk. destruct (p w) as [[h|e|] w1]; cbn [fst]; congruence. Qed.
Lemma call_seen {A} (f : A -> seen) p ss w ss' w' x : call f p ss w = Some (ss', w', x) ->
  match fst (p w) with Ret a => x = f a | Thr e => x = SThr e | Ub => x = SUb end.
Proof. unfold call. destruct (p w) as [[h|e|] w1]; cbn [fst]; congruence. Qed.

(** An operation throws what the first refused call is to throw, and if none
    is refused it returns. *)
Theorem C100_reported_partial : forall o ss w cs ss' w' x,
  calls o ss = Some cs -> step o ss w = Some (ss', w', x) -> x <> SUb ->
  match refused cs (w_ans w) with Some e => x = SThr e | None => normal x end.
Proof.
  intros o ss w cs ss' w' x C E U. destruct o; cbn [calls step CryptoModel.step] in C, E; try discriminate C.
  - injection C as <-. apply mk_seen in E. destruct (key_rsa w) as [r w1] eqn:K. cbn [fst] in E.
    assert (r <> Ub) by (intros ->; apply U; exact E). apply rsa_reported in K; [|assumption].
    destruct (refused [EKey; EKey] (w_ans w)); [subst r; exact E|]. destruct K as (h & ->). subst x. exact I.
  - injection C as <-. destruct (held KCert i ss) as [h|]; [|discriminate E]. apply mk_seen in E.
    unfold pub_of, use, make, ask, bind, throw, ret in E. destruct (lookup h KCert w); [|cbn [fst] in E; congruence].
    destruct w as [l n a fs wr o]. simp. destruct a as [|[[] y] a]; simp; cbn [Nat.eqb fst refused] in *; simp; try exact E. rewrite E. exact I.
  - injection C as <-. apply mk_seen in E. unfold ctx_new, make, ask, bind, throw, ret in E.
    destruct w as [l n a fs wr o]. simp. destruct a as [|[[] y] a]; simp; cbn [Nat.eqb fst refused] in *; simp; try exact E. rewrite E. exact I.
  - injection C as <-. destruct (held KCtx i ss) as [h|]; [|discriminate E]. apply mk_seen in E.
    unfold tls_new, use, make, ask, bind, throw, ret in E. destruct (lookup h KCtx w); [|cbn [fst] in E; congruence].
    destruct w as [l n a fs wr o]. simp. destruct a as [|[[] y] a]; simp; cbn [Nat.eqb fst refused] in *; simp; try exact E.
    destruct a as [|[[] z] a]; simp; try exact E. rewrite E. exact I.
  - injection C as <-. destruct (held KSsl i ss) as [h|]; [|discriminate E]. apply mk_seen in E.
    unfold peer_cert, use, make, ask, bind, throw, ret in E. destruct (lookup h KSsl w); [|cbn [fst] in E; congruence].
    destruct w as [l n a fs wr o]. simp. destruct a as [|[[] y] a]; simp; cbn [Nat.eqb fst refused] in *; simp; try exact E. rewrite E. exact I.
  - assert (G : forall k e h, call SBytes (get_der k e h) ss w = Some (ss', w', x) ->
      match refused [e] (w_ans w) with Some e => x = SThr e | None => normal x end).
    { intros k e h Q. apply call_seen in Q. unfold get_der, use, ask, bind, throw, ret in Q. destruct (lookup h k w); [|cbn [fst] in Q; congruence].
      destruct w as [l n a fs wr o]. simp. destruct a as [|[[] y] a]; simp; cbn [fst refused] in *; try exact Q.
      repeat match type of Q with context [lookup ?k ?h ?w] => destruct (lookup k h w); simp end; try congruence.
      repeat match type of Q with context [free ?k ?h ?w] => let F := fresh "F" in destruct (free_two k h w) as (? & [F|F]); rewrite F in Q; simp end; rewrite ?Q; try exact I; try congruence. }
    destruct (nth_error ss i) as [[[] h]|]; try discriminate E; (destruct (h =? 0); [discriminate E|]); injection C as <-; eapply G; exact E.
  - injection C as <-. destruct (held KKey i ss) as [h|]; [|discriminate E]. apply call_seen in E.
    unfold get_pub_der, use, ask, bind, throw, ret in E. destruct (lookup h KKey w); [|cbn [fst] in E; congruence].
    destruct w as [l n a fs wr o]. simp. destruct a as [|[[] y] a]; simp; cbn [fst refused] in *; try exact E.
    repeat match type of E with context [lookup ?k ?h ?w] => destruct (lookup k h w); simp end; try congruence.
    repeat match type of E with context [free ?k ?h ?w] => let F := fresh "F" in destruct (free_two k h w) as (? & [F|F]); rewrite F in E; simp end; rewrite ?E; try exact I; try congruence.
  - assert (G : forall k h, call (fun _ => SOk true) (save k h f) ss w = Some (ss', w', x) ->
      match refused [EX509] (w_ans w) with Some e => x = SThr e | None => normal x end).
    { intros k h Q. apply call_seen in Q. unfold save, use, open_w, ask, bind, throw, ret in Q. destruct (lookup h k w); [|cbn [fst] in Q; congruence].
      destruct w as [l n a fs wr o]. simp. destruct (wr f); simp; [|destruct (lookup 0 KFile _) as [e0|]; [|cbn [fst] in Q; congruence]].
      all: repeat match type of Q with context [match lookup ?k ?h ?w with _ => _ end] => destruct (lookup k h w); simp end; try congruence.
      all: destruct a as [|[[] y] a]; simp; cbn [fst refused] in *.
      all: repeat match type of Q with context [free ?k ?h ?w] => let F := fresh "F" in destruct (free_two k h w) as (? & [F|F]); rewrite F in Q; simp end; cbn [fst] in Q; rewrite ?Q; try exact I; try reflexivity; try congruence. }
    injection C as <-. destruct (nth_error ss i) as [[[] h]|]; try discriminate E; (destruct (h =? 0); [discriminate E|]); eapply G; exact E.
  - injection C as <-. destruct (held KCtx i ss) as [h|]; [|discriminate E]. apply call_seen in E.
    unfold ctx_set, use, ask, bind, throw, ret in E. destruct (lookup h KCtx w); [|cbn [fst] in E; congruence].
    destruct w as [l n a fs wr o]. simp. destruct a as [|[[] y] a]; simp; cbn [fst refused] in *; simp; try exact E. rewrite E. exact I.
Qed.

(** check_privkey gives its caller the answer. *)
Theorem C100_check : forall i ss w ss' w' x, step (Check i) ss w = Some (ss', w', x) -> x <> SUb ->
  x = SOk true <-> exists y l, w_ans w = (true, y) :: l.
Proof.
  intros i ss w ss' w' x E U. cbn [step CryptoModel.step] in E. destruct (held KCtx i ss) as [h|]; [|discriminate E]. apply call_seen in E.
  unfold ctx_check, use, ask, bind, throw, ret in E. destruct (lookup h KCtx w); [|cbn [fst] in E; congruence].
  destruct w as [l n a fs wr o]. simp. destruct a as [|[b y] a]; simp; cbn [fst] in E; subst x; split; intro Q.
  - discriminate Q.
  - destruct Q as (? & ? & Q). discriminate Q.
  - injection Q as ->. eexists _, _. reflexivity.
  - destruct Q as (? & ? & Q). injection Q as -> _ _. reflexivity.
Qed.

(** ** C101: passwords *)

(** The object a file yields under a password, if any. *)
Definition opens (w : world) (f : nat) (pw : option (list nat)) (o : list nat) : Prop :=
  w_fs w f = Some (PPlain o) \/ exists p, w_fs w f = Some (PEnc p o) /\ pw = Some p.
Definition cstr_ok (pw : option (list nat)) : Prop := match pw with None => True | Some p => ~ In 0 p /\ length p < bufsize end.

Lemma cstr_id p : ~ In 0 p -> cstr p = p.
Proof.
  induction p as [|c p IH]; intro N; [reflexivity|]. cbn [cstr]. destruct (c =? 0) eqn:Z; [apply Nat.eqb_eq in Z; exfalso; apply N; left; exact Z|].
  f_equal. apply IH. intro Q. apply N. right. exact Q.
Qed.
Lemma bytes_eqb_eq a b : bytes_eqb a b = true <-> a = b.
Proof. unfold bytes_eqb. destruct (list_eq_dec Nat.eq_dec a b); split; intro H; try reflexivity; try assumption; try discriminate H; contradiction. Qed.

Theorem C101_password_partial : forall k x f pw w, cstr_ok pw ->
  match from_pem bufsize k x f pw w with
  | (Ret h, w') => exists o e, opens w f pw o /\ lookup h k w' = Some e /\ e_obj e = o
  | (Thr e, _) => e = x /\ forall o, ~ opens w f pw o
  | (Ub, _) => False
  end.
Proof.
  intros k x f pw w C. unfold from_pem, open_r, bind. unfold opens. destruct (w_fs w f) as [p|] eqn:F; simp; cbn [Nat.eqb]; simp.
  2: { split; [reflexivity|]. intros o [Q|(q & Q & _)]; discriminate Q. }
  unfold pem_read. simp. rewrite F.
  destruct p as [|ob|p ob]; simp; cbn [Nat.eqb]; simp.
  - split; [reflexivity|]. intros o [Q|(q & Q & _)]; discriminate Q.
  - rewrite free_snd' by (cbn [e_h fst]; lia). simp.
    exists ob, (S (S (w_next w)), k, ob). split; [left; reflexivity|]. unfold lookup. cbn [w_live find e_h e_kind fst snd].
    rewrite Nat.eqb_refl, kind_eqb_refl. split; reflexivity.
  - destruct pw as [q|]; cbn [pw_cb].
    + destruct C as (C1 & C2). rewrite (cstr_id q C1). destruct (bufsize <? S (length q)) eqn:B; [apply Nat.ltb_lt in B; lia|].
      destruct (bytes_eqb q p) eqn:Q; simp; cbn [Nat.eqb]; simp.
      * apply bytes_eqb_eq in Q. subst q. rewrite free_snd' by (cbn [e_h fst]; lia). simp.
        exists ob, (S (S (w_next w)), k, ob). split; [right; exists p; split; reflexivity|]. unfold lookup. cbn [w_live find e_h e_kind fst snd].
        rewrite Nat.eqb_refl, kind_eqb_refl. split; reflexivity.
      * split; [reflexivity|]. intros o [R|(r & R & S)]; [discriminate R|]. injection R as <- <-. injection S as ->.
        assert (T : bytes_eqb p p = true) by (apply bytes_eqb_eq; reflexivity). rewrite T in Q. discriminate Q.
    + cbn [Nat.eqb]. simp. split; [reflexivity|]. intros o [R|(r & R & S)]; [discriminate R|discriminate S].
Qed.

(** The copy made by the C functions. *)
Theorem C101_copy_partial : forall k f pw w h w' c, c_from_pem bufsize k f pw w = (Ret h, w', c) -> forall p, c <> Left p.
Proof.
  intros k f pw w h w' c E p. unfold c_from_pem in E. destruct (from_pem _ _ _ _ _ w) as [[]]; try discriminate E. injection E as _ _ <-.
  destruct pw; discriminate.
Qed.

(** ** C102: encodings *)

Lemma prefixes_in p d : In p (prefixes d) <-> exists t, d = p ++ t.
Proof.
  revert p. induction d as [|x d IH]; intro p; cbn [prefixes].
  - split; [intros [<-|[]]; exists []; reflexivity|]. intros (t & E). left. destruct p; [reflexivity|discriminate E].
  - split.
    + intros [<-|I]; [exists (x :: d); reflexivity|]. apply in_map_iff in I. destruct I as (q & <- & I). apply IH in I. destruct I as (t & ->). exists t. reflexivity.
    + intros (t & E). destruct p as [|y p]; [left; reflexivity|]. cbn [app] in E. injection E as <- E. right. apply in_map_iff. exists p.
      split; [reflexivity|]. apply IH. exists t. exact E.
Qed.

(** [d] is one encoding and no beginning of it is another. *)
Definition one_enc (k : kind) (d : list nat) : Prop := is_enc k d = true /\ forall p t, d = p ++ t -> is_enc k p = true -> t = [].

Theorem C102_round_trip_partial : forall k x d w h w1, (k = KKey \/ k = KCert) -> one_enc k d -> d <> [] ->
  from_der is_enc k x d w = (Ret h, w1) -> forall w2 y c w3, lookup h k w2 = lookup h k w1 -> get_der k y h w2 = (Ret c, w3) -> c = d.
Proof.
  intros k x d w h w1 K (O1 & O2) ND E w2 y c w3 L D. unfold from_der in E. destruct d as [|b d]; [contradiction|].
  unfold bind, d2i in E. destruct (find (is_enc k) (prefixes (b :: d))) as [p|] eqn:F.
  2: { exfalso. pose proof (find_none _ _ F (b :: d)) as X. rewrite O1 in X. assert (I : In (b :: d) (prefixes (b :: d))) by (apply prefixes_in; exists []; rewrite app_nil_r; reflexivity).
       specialize (X I). discriminate X. }
  apply find_some in F. destruct F as (F1 & F2). apply prefixes_in in F1. destruct F1 as (t & F1). pose proof (O2 _ _ F1 F2) as ->. rewrite app_nil_r in F1. subst p.
  simp. cbn [Nat.eqb] in E. inj E. unfold lookup at 2 in L. cbn [w_live find e_h e_kind fst snd] in L. rewrite Nat.eqb_refl, kind_eqb_refl in L. cbn [andb] in L.
  unfold get_der, bind, use at 1 in D. rewrite L in D. destruct (ask_ok w2) as (a & w4 & A & _). rewrite A in D. destruct (fst a); [|discriminate D].
  unfold give in D. rewrite use_hd in D. (match type of D with context [free ?k ?h (mkW ((?h, ?k, ?o) :: ?l) ?n ?a ?fs ?wr ?ou)] => destruct (free_def k h o l n a fs wr ou) as (l' & FD) end).
  rewrite FD in D. injection D as <- _. reflexivity.
Qed.

(** Whatever is accepted, what is kept is a beginning of it, and an encoding;
    what has no encoding at its beginning is refused. *)
Theorem C102_accepted_partial : forall k x d w, d <> [] ->
  match from_der is_enc k x d w with
  | (Ret h, w') => exists e t, lookup h k w' = Some e /\ d = e_obj e ++ t /\ is_enc k (e_obj e) = true
  | (Thr e, w') => e = x /\ w' = w /\ forall p t, d = p ++ t -> is_enc k p = false
  | (Ub, _) => False
  end.
Proof.
  intros k x d w ND. unfold from_der. destruct d as [|b d]; [contradiction|]. unfold bind, d2i.
  destruct (find (is_enc k) (prefixes (b :: d))) as [p|] eqn:F; simp; cbn [Nat.eqb]; simp.
  - apply find_some in F. destruct F as (F1 & F2). apply prefixes_in in F1. destruct F1 as (t & F1).
    exists (S (w_next w), k, p), t. unfold lookup. cbn [w_live find e_h e_kind e_obj fst snd]. rewrite Nat.eqb_refl, kind_eqb_refl. split; [reflexivity|]. split; assumption.
  - split; [reflexivity|]. split; [reflexivity|]. intros p t E. apply (find_none _ _ F). apply prefixes_in. exists t. exact E.
Qed.
End P.
Print Assumptions C99_handles_partial.
Print Assumptions C99_all_back_partial.
Print Assumptions C100_defined_partial.
Print Assumptions C100_reported_partial.
Print Assumptions C100_check.
Print Assumptions C101_password_partial.
Print Assumptions C101_copy_partial.
Print Assumptions C102_round_trip_partial.
Print Assumptions C102_accepted_partial.

(** ** What does not hold *)

(** A world: file 0 is unreadable, file 1 holds no object, file 2 an object
    under the password 5 6, file 3 an object without one; only file 9 can be
    written; the library answers as listed. *)
Definition fs0 (f : nat) : option pem :=
  match f with 1 => Some PBad | 2 => Some (PEnc [5; 6] [48; 1; 7]) | 3 => Some (PPlain [48; 1; 8]) | _ => None end.
Definition w0 (a : list (bool * list nat)) : world := mkW [] 0 a fs0 (fun f => f =? 9) [].
(** Encodings: 48, the number of bytes that follow, those bytes. *)
Definition enc0 (k : kind) (d : list nat) : bool :=
  match k, d with
  | KKey, a :: n :: r => (a =? 48) && (n =? length r)
  | KCert, a :: n :: r => (a =? 49) && (n =? length r)
  | _, _ => false
  end.

(** Every failure below leaves a handle that no object holds. *)
Theorem C99_refuted : exists l w ss w' xs, start w /\ run 1024 enc0 l [] w = Some (ss, w', xs) /\ ~ In SUb xs /\ ss = [] /\ w_live w' <> [].
Proof.
  exists [NewPem KKey 2 (Some [5; 7])], (w0 []). eexists _, _, _. split; [reflexivity|]. split; [vm_compute; reflexivity|].
  split; [intros [H|[]]; discriminate H|]. split; [reflexivity|discriminate].
Qed.
Theorem C99_rsa_refuted : exists w w', run 1024 enc0 [NewRsa] [] w = Some ([], w', [SThr EKey]) /\ start w /\ out_now w' = [(1, KKey)].
Proof. exists (w0 [(true, []); (false, [])]). eexists. split; [vm_compute; reflexivity|]. split; reflexivity. Qed.
Theorem C99_tls_refuted : exists w w', run 1024 enc0 [NewCtx; NewTls 0; Drop 0] [] w = Some ([(KCtx, 0)], w', [SNew; SThr ETls; SOk true]) /\ start w /\ out_now w' = [(2, KSsl)].
Proof. exists (w0 [(true, []); (true, []); (false, [])]). eexists. split; [vm_compute; reflexivity|]. split; reflexivity. Qed.
(** The loss has no bound. *)
Theorem C99_unbounded_refuted : forall n, exists w', run 1024 enc0 (repeat (NewPem KCert 1 None) n) [] (w0 []) = Some ([], w', repeat (SThr EX509) n) /\
  length (w_live w') = n.
Proof.
  intro n. enough (X : forall n l m, exists w', run 1024 enc0 (repeat (NewPem KCert 1 None) n) [] (mkW l m [] fs0 (fun f => f =? 9) []) = Some ([], w', repeat (SThr EX509) n) /\
    length (w_live w') = n + length l).
  { destruct (X n [] 0) as (w' & A & B). exists w'. split; [exact A|]. rewrite B. cbn [length]. lia. }
  clear n. induction n as [|n IH]; intros l m.
  - eexists. split; [reflexivity|]. reflexivity.
  - destruct (IH ((S m, KFile, []) :: l) (S m)) as (w' & A & B). exists w'. cbn [repeat CryptoModel.run].
    change (step 1024 enc0 (NewPem KCert 1 None) [] (mkW l m [] fs0 (fun f => f =? 9) []))
      with (Some (@nil slot, mkW ((S m, KFile, []) :: l) (S m) [] fs0 (fun f => f =? 9) [], SThr EX509)). cbv beta iota. rewrite A. split; [reflexivity|].
    rewrite B. cbn [length]. lia.
Qed.
Example C99_nonvacuous : exists w',
  run 1024 enc0 [NewRsa; NewPem KKey 2 (Some [5; 6]); NewSelf 0; PubOf 2; NewCtx; NewTls 4; PeerCert 5; Der 1; Save 2 9; Move 5;
                 Drop 0; Drop 1; Drop 2; Drop 3; Drop 4; Drop 5; Drop 6; Drop 7] []
    (w0 (repeat (true, [48; 0]) 12)) = Some ([(KKey, 0); (KKey, 0); (KCert, 0); (KKey, 0); (KCtx, 0); (KSsl, 0); (KCert, 0); (KSsl, 0)], w',
      [SNew; SNew; SNew; SNew; SNew; SNew; SNew; SBytes [48; 1; 7]; SOk true; SNew; SOk true; SOk true; SOk true; SOk true; SOk true; SOk true; SOk true; SOk true]) /\
  w_live w' = [] /\ w_out w' = [(9, [48; 0])].
Proof. eexists. split; [vm_compute; reflexivity|]. split; reflexivity. Qed.
Print Assumptions C99_refuted.
Print Assumptions C99_rsa_refuted.
Print Assumptions C99_tls_refuted.
Print Assumptions C99_unbounded_refuted.

Theorem C100_save_refuted : exists l w ss w' xs, start w /\ run 1024 enc0 l [] w = Some (ss, w', xs) /\ xs = [SNew; SUb].
Proof. exists [NewPem KKey 3 None; Save 0 4], (w0 []). eexists _, _, _. split; [reflexivity|]. split; vm_compute; reflexivity. Qed.
Theorem C100_empty_refuted : exists w ss w', start w /\ run 1024 enc0 [NewDer KCert []] [] w = Some (ss, w', [SUb]).
Proof. exists (w0 []). eexists _, _. split; [reflexivity|]. vm_compute; reflexivity. Qed.
Theorem C100_long_refuted : exists pw w ss w', start w /\ run 8 enc0 [NewPem KKey 2 (Some pw)] [] w = Some (ss, w', [SUb]).
Proof. exists [1; 2; 3; 4; 5; 6; 7; 8], (w0 []). eexists _, _. split; [reflexivity|]. vm_compute; reflexivity. Qed.
(** The excuses do occur, and the operations beside them do not need one. *)
Example C100_nonvacuous : exists w', run 8 enc0 [NewPem KKey 3 None; Save 0 9; NewDer KCert [48; 1; 2]; NewPem KKey 2 (Some [1; 2; 3; 4; 5; 6; 7]); Drop 0] [] (w0 [(true, [])]) =
  Some ([(KKey, 0)], w', [SNew; SOk true; SThr EX509; SThr EKey; SOk true]) /\ excused 8 (Save 0 4) w' /\ ~ excused 8 (Save 0 9) w'.
Proof. eexists. split; [vm_compute; reflexivity|]. split; [reflexivity|discriminate]. Qed.
(** A certificate the library refuses to sign (X509_sign is not looked at,
    250) is handed out as if it were signed. *)
Theorem C100_unsigned_refuted : exists w ss w', start w /\
  run 1024 enc0 [NewRsa; NewSelf 0] [] w = Some (ss, w', [SNew; SNew]) /\ w_ans w = [(true, []); (true, []); (false, [])].
Proof. exists (w0 [(true, []); (true, []); (false, [])]). eexists _, _. split; [reflexivity|]. split; vm_compute; reflexivity. Qed.
(** A key pair is made, a context refuses a certificate, then a key, then takes both; the keys do not match. *)
Example C100_reported_nonvacuous : exists ss w',
  run 1024 enc0 [NewRsa; NewCtx; CtxSet 1 ELoadCert; CtxSet 1 ELoadKey; CtxSet 1 ELoadCert; CtxSet 1 ELoadKey; Check 1; NewTls 1; NewTls 1; Der 0] []
    (w0 [(true, []); (true, []); (true, []); (false, []); (false, []); (true, []); (true, []); (false, []); (true, []); (false, []); (false, []); (false, [])]) =
  Some (ss, w', [SNew; SNew; SThr ELoadCert; SThr ELoadKey; SOk true; SOk true; SOk false; SThr ETls; SThr ERun; SThr EKey]).
Proof. eexists _, _. vm_compute. reflexivity. Qed.
Print Assumptions C100_save_refuted.
Print Assumptions C100_unsigned_refuted.
Print Assumptions C100_empty_refuted.
Print Assumptions C100_long_refuted.

(** A wrong password is accepted: what follows a NUL is not looked at. *)
Theorem C101_nul_refuted : exists f pw w h w', from_pem 1024 KKey EKey f (Some pw) w = (Ret h, w') /\ forall o, ~ opens w f (Some pw) o.
Proof.
  exists 2, [5; 6; 0; 9], (w0 []). eexists _, _. split; [vm_compute; reflexivity|]. intros o [H|(p & H & Q)]; [discriminate H|].
  injection Q as <-. discriminate H.
Qed.
(** A right one is refused. *)
Theorem C101_nul2_refuted : exists f pw w o w', opens w f (Some pw) o /\ from_pem 1024 KKey EKey f (Some pw) w = (Thr EKey, w').
Proof.
  exists 0, [5; 0; 6], (mkW [] 0 [] (fun _ => Some (PEnc [5; 0; 6] [48; 0])) (fun _ => false) []). eexists _, _. split; [right; eexists; split; reflexivity|].
  vm_compute; reflexivity.
Qed.
(** A refused password stays in memory that was given back. *)
Theorem C101_copy_refuted : exists f pw w w', c_from_pem 1024 KKey f (Some pw) w = (Thr EKey, w', Left pw).
Proof. exists 2, [5; 7], (w0 []). eexists. vm_compute; reflexivity. Qed.
Example C101_nonvacuous :
  cstr_ok 1024 (Some [5; 6]) /\ (exists w', from_pem 1024 KKey EKey 2 (Some [5; 6]) (w0 []) = (Ret 2, w') /\ opens (w0 []) 2 (Some [5; 6]) [48; 1; 7]) /\
  (exists w', from_pem 1024 KKey EKey 2 (Some [5; 7]) (w0 []) = (Thr EKey, w')) /\ (exists w', from_pem 1024 KKey EKey 2 None (w0 []) = (Thr EKey, w')) /\
  (exists w', c_from_pem 1024 KKey 2 (Some [5; 6]) (w0 []) = (Ret 2, w', Wiped)).
Proof.
  split; [split; [intros [H|[H|[]]]; discriminate H|apply Nat.ltb_lt; reflexivity]|]. split.
  { eexists. split; [vm_compute; reflexivity|]. right. eexists. split; reflexivity. }
  split; [eexists; vm_compute; reflexivity|]. split; eexists; vm_compute; reflexivity.
Qed.
Print Assumptions C101_nul_refuted.
Print Assumptions C101_nul2_refuted.
Print Assumptions C101_copy_refuted.

(** Bytes after the encoding are dropped without a word. *)
Theorem C102_trailing_refuted : exists d w w', run 1024 enc0 [NewDer KKey d; Der 0] [] w = Some ([(KKey, 1)], w', [SNew; SBytes [48; 1; 7]]) /\ d <> [48; 1; 7].
Proof. exists [48; 1; 7; 99], (w0 [(true, [])]). eexists. split; [vm_compute; reflexivity|discriminate]. Qed.
Example C102_nonvacuous : one_enc enc0 KKey [48; 1; 7] /\
  exists w', run 1024 enc0 [NewDer KKey [48; 1; 7]; NewDer KCert [48; 1; 7]; Der 0] [] (w0 [(true, [])]) = Some ([(KKey, 1)], w', [SNew; SThr EX509; SBytes [48; 1; 7]]).
Proof.
  split.
  - split; [reflexivity|]. intros p t E I. destruct p as [|a [|b [|c [|d p]]]]; cbn [app] in E; try discriminate I; try (injection E as <- <- _; discriminate I).
    injection E as _ _ _ <-. reflexivity.
  - eexists. vm_compute. reflexivity.
Qed.
Print Assumptions C102_trailing_refuted.

(** ** C103: digests *)

(** What was fed since the last reset, and whether a digest was taken since. *)
Fixpoint fed_from (acc : list nat) (l : list sop) : list nat :=
  match l with
  | [] => acc
  | SReset :: l => fed_from [] l
  | SUpd d :: l => fed_from (acc ++ d) l
  | _ :: l => fed_from acc l
  end.
Definition fed := fed_from [].
Fixpoint taken_from (b : bool) (l : list sop) : bool :=
  match l with
  | [] => b
  | SReset :: l => taken_from false l
  | SUpd _ :: l => taken_from b l
  | _ :: l => taken_from true l
  end.
Definition taken := taken_from false.

Lemma srun_app H l l' : forall c, exists c', srun H (l ++ l') c = srun H l c ++ srun H l' c' /\
  (forall (acc : list nat) (b : bool), c = (if b then Spent else Absorb acc) -> c' = if taken_from b l then Spent else Absorb (fed_from acc l)).
Proof.
  induction l as [|o l IH]; intro c; cbn [app srun].
  - exists c. split; [reflexivity|]. intros acc b ->. reflexivity.
  - destruct (sstep H o c) as [c1 r] eqn:S. destruct (IH c1) as (c' & E & K). exists c'. split; [rewrite E, app_assoc; reflexivity|].
    intros acc b ->. destruct o; cbn [sstep sha_digest sha_digest_to] in S; injection S as <- _; cbn [fed_from taken_from]; (apply K || (apply (K acc))).
    + reflexivity.
    + destruct b; reflexivity.
    + reflexivity.
    + reflexivity.
Qed.

Lemma resize_len n l : length (resize n l) = n.
Proof. unfold resize. rewrite app_length, firstn_length, repeat_length. lia. Qed.
Lemma skipn_all2' {A} n (l : list A) : length l <= n -> skipn n l = [].
Proof. intro L. apply skipn_all2. exact L. Qed.

Section D.
Variable H : list nat -> list nat.

Theorem C103_sha256_partial : (forall x, length (H x) = 32) -> forall pre o, taken pre = false -> (o = SDig \/ exists md, o = SDigTo md) ->
  srun H (pre ++ [o]) sha_reset = srun H pre sha_reset ++ [Some (H (fed pre))].
Proof.
  intros HL pre o T O. destruct (srun_app H pre [o] sha_reset) as (c' & E & K). rewrite E. f_equal. rewrite (K [] false eq_refl). fold (taken pre). rewrite T.
  fold (fed pre). destruct O as [->|(md & ->)]; cbn [srun sstep sha_digest sha_digest_to sha_final app]; rewrite HL, skipn_all2'.
  - rewrite app_nil_r. reflexivity.
  - rewrite repeat_length. apply le_n.
  - rewrite app_nil_r. reflexivity.
  - rewrite resize_len. apply le_n.
Qed.

(** With a hash of twenty bytes, twelve more follow: zeros, or what the caller's
    vector held before. *)
Theorem C103_sha1_partial : (forall x, length (H x) = 20) -> forall pre o, taken pre = false ->
  match o with
  | SDig => srun H (pre ++ [o]) sha_reset = srun H pre sha_reset ++ [Some (H (fed pre) ++ repeat 0 12)]
  | SDigTo md => length md = 32 -> srun H (pre ++ [o]) sha_reset = srun H pre sha_reset ++ [Some (H (fed pre) ++ skipn 20 md)]
  | _ => True
  end.
Proof.
  intros HL pre o T. destruct (srun_app H pre [o] sha_reset) as (c' & E & K). specialize (K [] false eq_refl). fold (taken pre) in K. rewrite T in K. fold (fed pre) in K.
  destruct o; try exact I.
  - rewrite E, K. cbn [srun sstep sha_digest sha_final app]. rewrite HL. reflexivity.
  - intro L. rewrite E, K. cbn [srun sstep sha_digest_to sha_final app]. rewrite HL. unfold resize. rewrite L, firstn_all2 by lia. rewrite app_nil_r. reflexivity.
Qed.

(** A second digest without a reset uses an erased context. *)
Theorem C103_erased_partial : forall pre o, taken pre = true -> (o = SDig \/ exists md, o = SDigTo md) ->
  srun H (pre ++ [o]) sha_reset = srun H pre sha_reset ++ [None].
Proof.
  intros pre o T O. destruct (srun_app H pre [o] sha_reset) as (c' & E & K). rewrite E. f_equal. rewrite (K [] false eq_refl). fold (taken pre). rewrite T.
  destruct O as [->|(md & ->)]; reflexivity.
Qed.
End D.

(** The claim: a digest is the hash of what was fed since the last reset. *)
Definition digest_is_hash (H : list nat -> list nat) (n : nat) : Prop :=
  (forall x, length (H x) = n) -> forall pre o, (o = SDig \/ exists md, o = SDigTo md) ->
  srun H (pre ++ [o]) sha_reset = srun H pre sha_reset ++ [Some (H (fed pre))].
Theorem C103_length_refuted : exists H, ~ digest_is_hash H 20.
Proof.
  exists (fun _ => repeat 7 20). intro D. specialize (D (fun _ => repeat_length 7 20) [SUpd [1]] SDig (or_introl eq_refl)). discriminate D.
Qed.
Theorem C103_twice_refuted : exists H, ~ digest_is_hash H 32.
Proof.
  exists (fun _ => repeat 7 32). intro D. specialize (D (fun _ => repeat_length 7 32) [SUpd [1]; SDig] SDig (or_introl eq_refl)). discriminate D.
Qed.
(** The caller's bytes are left in the digest. *)
Theorem C103_stale_refuted : exists H md d, (forall x, length (H x) = 20) /\ srun H [SUpd [1]; SDigTo md] sha_reset = [Some d] /\ nth 31 d 0 = 99.
Proof. exists (fun _ => repeat 7 20), (repeat 99 32). eexists. split; [intros _; reflexivity|]. split; reflexivity. Qed.
Example C103_nonvacuous : let H := fun l => repeat (length l) 32 in
  (forall x, length (H x) = 32) /\ taken [SUpd [1; 2]; SDig; SReset; SUpd [3]] = false /\ fed [SUpd [1; 2]; SDig; SReset; SUpd [3]] = [3] /\
  srun H [SUpd [1; 2]; SDig; SReset; SUpd [3]; SDigTo [4]] sha_reset = [Some (repeat 2 32); Some (repeat 1 32)].
Proof. cbn zeta. split; [intros x; apply repeat_length|]. split; [reflexivity|]. split; reflexivity. Qed.
Print Assumptions C103_sha256_partial.
Print Assumptions C103_sha1_partial.
Print Assumptions C103_erased_partial.
Print Assumptions C103_length_refuted.
Print Assumptions C103_twice_refuted.
Print Assumptions C103_stale_refuted.

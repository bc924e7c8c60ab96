(** What holds in every state of PeerModel.v that a run reaches. *)
From Coq Require Import Arith NArith ZArith List Bool Lia.
From Verif Require Import PeerModel.
Import ListNotations.

(** ** Tables *)

Lemma find_by_In k l v : find_by k l = Some v -> In (k, v) l.
Proof.
  unfold find_by. destruct (find _ l) as [[a b]|] eqn:E; [|discriminate].
  intros H. injection H as <-. apply find_some in E. destruct E as (I & E). cbn in E. apply N.eqb_eq in E. subst. exact I.
Qed.

Lemma find_by_None k l : find_by k l = None -> forall v, ~ In (k, v) l.
Proof.
  unfold find_by. destruct (find _ l) as [[a b]|] eqn:E; [discriminate|].
  intros _ v I. pose proof (find_none _ _ E _ I) as H. cbn in H. rewrite N.eqb_refl in H. discriminate.
Qed.

Lemma In_find_by k l v : NoDup (map fst l) -> In (k, v) l -> find_by k l = Some v.
Proof.
  intros H I. destruct (find_by k l) as [w|] eqn:E.
  - f_equal. apply find_by_In in E. induction l as [|[a b] l IH]; [destruct I|]. cbn in H. inversion H; subst.
    destruct I as [I|I], E as [E|E].
    + congruence.
    + injection I as -> ->. exfalso. apply H2. exact (in_map fst _ _ E).
    + injection E as -> ->. exfalso. apply H2. exact (in_map fst _ _ I).
    + auto.
  - exfalso. exact (find_by_None _ _ E _ I).
Qed.

Lemma drop_by_In k l a v : In (a, v) (drop_by k l) <-> In (a, v) l /\ a <> k.
Proof.
  unfold drop_by. rewrite filter_In. cbn. split; intros (H & K); split; auto.
  - intros ->. rewrite N.eqb_refl in K. discriminate.
  - apply negb_true_iff, N.eqb_neq. exact K.
Qed.

Lemma drop_by_none k l : find_by k l = None -> drop_by k l = l.
Proof.
  intros F. assert (H : forall x, In x l -> fst x <> k) by (intros [a v] I E; cbn in E; subst a; exact (find_by_None _ _ F _ I)).
  clear F. induction l as [|x l IH]; [reflexivity|]. cbn. destruct (N.eqb_spec (fst x) k) as [E|_]; [exfalso; exact (H x (or_introl eq_refl) E)|].
  cbn. f_equal. apply IH. intros y I. apply H. right. exact I.
Qed.
Lemma drop_by_NoDup k l : NoDup (map fst l) -> NoDup (map fst (drop_by k l)).
Proof.
  induction l as [|[a b] l IH]; cbn; intros H; [exact H|]. inversion H; subst.
  destruct (negb (a =? k)%N); cbn; auto. constructor; auto.
  intros I. apply H2. apply in_map_iff in I. destruct I as ([x y] & <- & I). apply (drop_by_In k l x y) in I. destruct I as (I & _). exact (in_map fst _ _ I).
Qed.

Lemma upd_same {B} (f : nat -> B) i v : upd f i v i = v.
Proof. unfold upd. rewrite Nat.eqb_refl. reflexivity. Qed.
Lemma upd_other {B} (f : nat -> B) i j v : j <> i -> upd f i v j = f j.
Proof. intros H. unfold upd. apply Nat.eqb_neq in H. rewrite H. reflexivity. Qed.

(** ** Reasoning about [seq] *)

Definition post (x : out) (Q : st -> list obs -> Prop) : Prop := Q (fst x) (snd x).

Lemma post_seq x f (P Q : st -> list obs -> Prop) :
  post x P ->
  (forall s o, P s o -> s_halt s = true -> Q s o) ->
  (forall s o, P s o -> s_halt s = false -> post (f s) (fun s' o' => Q s' (o ++ o'))) ->
  post (seq x f) Q.
Proof.
  unfold post, seq. destruct x as [s o]. cbn. intros H K1 K2. destruct (s_halt s) eqn:E; [exact (K1 _ _ H E)|].
  specialize (K2 s o H E). destruct (f s) as [s' o']. exact K2.
Qed.

Lemma post_say l s (Q : st -> list obs -> Prop) : Q s l -> post (say l s) Q.
Proof. exact (fun H => H). Qed.
Lemma post_weak x (P Q : st -> list obs -> Prop) : post x P -> (forall s o, P s o -> Q s o) -> post x Q.
Proof. unfold post. auto. Qed.

Lemma post_run hash (P : st -> list obs -> Prop) : P st0 [] ->
  (forall e s o s' o', P s o -> step hash e s = Some (s', o') -> P s' (o ++ o')) ->
  forall es s o, run hash es st0 = Some (s, o) -> P s o.
Proof.
  intros H0 HS es.
  assert (G : forall s0 o0, P s0 o0 -> forall s o, run hash es s0 = Some (s, o) -> P s (o0 ++ o)).
  { induction es as [|e es IH]; intros s0 o0 H s o E; cbn in E.
    - injection E as <- <-. rewrite app_nil_r. exact H.
    - destruct (step hash e s0) as [[s1 o1]|] eqn:E1; [|discriminate]. destruct (run hash es s1) as [[s2 o2]|] eqn:E2; [|discriminate].
      injection E as <- <-. rewrite app_assoc. exact (IH s1 _ (HS _ _ _ _ _ H E1) _ _ E2). }
  intros s o E. exact (G st0 [] H0 s o E).
Qed.

Lemma run_app hash es1 es2 s : run hash (es1 ++ es2) s =
  match run hash es1 s with Some (s1, o1) => match run hash es2 s1 with Some (s2, o2) => Some (s2, o1 ++ o2) | None => None end | None => None end.
Proof.
  revert s. induction es1 as [|e es1 IH]; intros s; cbn.
  - destruct (run hash es2 s) as [[? ?]|]; reflexivity.
  - destruct (step hash e s) as [[s1 o1]|]; [|reflexivity]. rewrite IH. destruct (run hash es1 s1) as [[s2 o2]|]; [|reflexivity].
    destruct (run hash es2 s2) as [[s3 o3]|]; [|reflexivity]. rewrite app_assoc. reflexivity.
Qed.

(** ** Well-formed states *)

(** A peer's record: its connection exists and is in range, a peer without
    retry timer has no attempts left, an established peer's connection is the
    chosen one, and the heartbeat flags are initialised once one is chosen. *)
Record okp (nc : nat) (x : peer) : Prop := mkOkp {
  ok_conn : exists c, p_conn x = Some c /\ c < nc;
  ok_in : forall c, p_in x = Some c -> c < nc;
  ok_out : forall c, p_out x = Some c -> c < nc;
  ok_ch : forall c, p_chosen x = Some c -> c < nc;
  ok_timer : p_timer x = false -> p_cur x = 0%Z /\ p_ntry x = 0%Z /\ p_ton x = false;
  ok_state : p_state x <> Disconnected -> p_chosen x = p_conn x;
  ok_fl : p_ptok x <> None -> p_pmok x <> None /\ p_chosen x <> None;
  ok_ping : p_ping x = true -> p_ptok x <> None }.

Definition okt (nc : nat) (t : dtask) : Prop := match t with TPing (Some c) _ _ | TPong c _ _ => c < nc | _ => True end.
Definition oku (nc : nat) (t : utask) : Prop := match t with UPre _ _ _ _ (Some c) => c < nc | _ => True end.

Record WF (s : st) : Prop := mkWF {
  w_keys : NoDup (map fst (s_known s));
  w_kn : forall i p, In (i, p) (s_known s) -> p_live (s_peer s p) = true /\ p_id (s_peer s p) = i;
  w_live : forall p, p_live (s_peer s p) = true -> p < s_np s /\ In (p_id (s_peer s p), p) (s_known s) /\ okp (s_nc s) (s_peer s p);
  w_pc : forall c p, k_peer (s_conn s c) = Some p -> p < s_np s /\ c < s_nc s;
  w_task : forall t, In t (s_q s) -> okt (s_nc s) t;
  w_ut : forall t, In t (s_uq s) -> oku (s_nc s) t }.

Lemma okp_le nc nc' x : nc <= nc' -> okp nc x -> okp nc' x.
Proof. intros L [H1 H2 H3 H4 H5 H6 H7 H8]. constructor; auto; try (intros c E; specialize (H2 c); specialize (H3 c); specialize (H4 c); intuition lia). destruct H1 as (c & ? & ?). exists c. split; [auto|lia]. Qed.
Lemma okt_le nc nc' t : nc <= nc' -> okt nc t -> okt nc' t.
Proof. intros L. destruct t as [ | | | | | | | | |[c|]|]; cbn; auto; lia. Qed.
Lemma oku_le nc nc' t : nc <= nc' -> oku nc t -> oku nc' t.
Proof. intros L. destruct t as [|? ? ? ? [c|]|]; cbn; auto; lia. Qed.

Lemma wf0 : WF st0.
Proof. constructor; cbn; try (intros; contradiction); try (intros; discriminate). constructor. Qed.

Lemma wf_halt s : WF s -> WF (halt s).
Proof. intros [? ? ? ? ? ?]. constructor; auto. Qed.

Lemma wf_onp p f s : WF s ->
  (p_live (s_peer s p) = true -> p_live (f (s_peer s p)) = true /\ p_id (f (s_peer s p)) = p_id (s_peer s p) /\ okp (s_nc s) (f (s_peer s p))) ->
  p_live (s_peer s p) = true -> WF (onp p f s).
Proof.
  intros [K1 K2 K3 K4 K5 K6] H L. destruct (H L) as (H1 & H2 & H3). unfold onp, w_peer. constructor; cbn; auto.
  - intros i q I. destruct (Nat.eq_dec q p) as [->|N]; [rewrite upd_same|rewrite upd_other by exact N; auto].
    destruct (K2 _ _ I). split; congruence.
  - intros q. destruct (Nat.eq_dec q p) as [->|N]; [rewrite upd_same|rewrite upd_other by exact N; auto].
    intros _. destruct (K3 _ L) as (? & ? & ?). rewrite H2. auto.
Qed.

Lemma wf_setpeer c v s : WF s -> c < s_nc s -> (forall p, v = Some p -> p < s_np s) -> WF (onc c (k_setpeer v) s).
Proof.
  intros [K1 K2 K3 K4 K5 K6] H1 H2. unfold onc, w_conn. constructor; cbn; auto.
  intros d p. destruct (Nat.eq_dec d c) as [->|N]; [rewrite upd_same|rewrite upd_other by exact N; auto]. cbn. auto.
Qed.

Lemma wf_flags c t u x s : WF s -> WF (onc c (k_flags t u x) s).
Proof.
  intros [K1 K2 K3 K4 K5 K6]. unfold onc, w_conn. constructor; cbn; auto.
  intros d p. destruct (Nat.eq_dec d c) as [->|N]; [rewrite upd_same|rewrite upd_other by exact N; auto]. cbn. auto.
Qed.

Lemma wf_pend l s : WF s -> WF (w_pend l s).
Proof. intros [? ? ? ? ? ?]. constructor; auto. Qed.

Lemma wf_q l s : WF s -> (forall t, In t l -> okt (s_nc s) t) -> WF (w_q l s).
Proof. intros [? ? ? ? ? ?] H. constructor; auto. Qed.

Lemma wf_uq l s : WF s -> (forall t, In t l -> oku (s_nc s) t) -> WF (w_uq l s).
Proof. intros [? ? ? ? ? ?] H. constructor; auto. Qed.

Lemma wf_upost t s : WF s -> oku (s_nc s) t -> WF (upost t s).
Proof. intros W H. apply wf_uq; [exact W|]. intros u I. apply in_app_or in I. destruct I as [I|[<-|[]]]; [exact (w_ut s W _ I)|exact H]. Qed.

(** A new connection. *)
Lemma wf_new k s : WF s -> (forall p, k_peer k = Some p -> p < s_np s) ->
  WF (mkSt (upd (s_conn s) (s_nc s) k) (S (s_nc s)) (s_peer s) (s_np s) (s_known s) (s_pend s) (s_q s) (s_uq s) (s_halt s)).
Proof.
  intros [K1 K2 K3 K4 K5 K6] H. constructor; cbn; auto.
  - intros p L. destruct (K3 _ L) as (? & ? & O). split; [assumption|]. split; [assumption|]. eapply okp_le; [|exact O]. lia.
  - intros c p. destruct (Nat.eq_dec c (s_nc s)) as [->|N]; [rewrite upd_same|rewrite upd_other by exact N].
    + intros E. split; [exact (H _ E)|lia].
    + intros E. destruct (K4 _ _ E). split; [assumption|lia].
  - intros t I. eapply okt_le; [|exact (K5 _ I)]. lia.
  - intros t I. eapply oku_le; [|exact (K6 _ I)]. lia.
Qed.

(** No undefined behaviour of kind w. *)
Definition nub (w : why) (o : list obs) : Prop := ~ In (OUb w) o.
Lemma nub_nil w : nub w []. Proof. intros []. Qed.
Lemma nub_app w a b : nub w a -> nub w b -> nub w (a ++ b).
Proof. unfold nub. rewrite in_app_iff. tauto. Qed.

(** Well-formed, and no undefined behaviour of the kinds in [ws]. *)
Definition good (ws : list why) (s : st) (o : list obs) : Prop := WF s /\ forall w, In w ws -> nub w o.
Definition all := [Null; Freed; Uninit].

Lemma good_seq ws x f (P : st -> Prop) : post x (fun s o => good ws s o /\ P s) ->
  (forall s, WF s -> P s -> s_halt s = false -> post (f s) (good ws)) -> post (seq x f) (good ws).
Proof.
  intros H K. eapply post_seq; [exact H| |].
  - intros s o (G & _) _. exact G.
  - intros s o ((W & G) & Q) E. eapply post_weak; [exact (K s W Q E)|]. intros s' o' (W' & G'). split; [exact W'|].
    intros w I. apply nub_app; auto.
Qed.

Lemma good_say ws l s : WF s -> (forall w, ~ In (OUb w) l) -> post (say l s) (good ws).
Proof. intros W H. split; [exact W|]. intros w _. apply H. Qed.

Ltac nou := let w := fresh "w" in intros w; cbn [In out_kill app]; intuition discriminate.

Lemma check_post b s : post (check b s) (fun s' o => s' = s /\ forall w, ~ In (OUb w) o).
Proof. unfold check, post. cbn. split; [reflexivity|]. destruct b; nou. Qed.

Lemma good_check ws b s f : WF s -> (s_halt s = false -> post (f s) (good ws)) -> post (seq (check b s) f) (good ws).
Proof.
  intros W H. apply good_seq with (P := fun x => x = s).
  - eapply post_weak; [apply check_post|]. intros s' o (-> & N). split; [|reflexivity]. split; [exact W|]. intros w _. apply N.
  - intros s' _ -> E. auto.
Qed.

(** After get_nonce only the nonce of p may differ. *)
Lemma get_nonce_spec g p s s' n : get_nonce g p s = Some (s', n) ->
  s' = (if (p_nonce (s_peer s p) =? 0)%N then onp p (p_setnonce n) s else s)
  /\ p_nonce (s_peer s' p) = n /\ n = (if (p_nonce (s_peer s p) =? 0)%N then n else p_nonce (s_peer s p)).
Proof.
  unfold get_nonce. destruct (p_nonce (s_peer s p) =? 0)%N eqn:E.
  - destruct (g_rnd g); [|discriminate]. intros H. injection H as <- <-. split; [reflexivity|]. split; [|reflexivity]. unfold onp. cbn. rewrite upd_same. reflexivity.
  - intros H. injection H as <- <-. auto.
Qed.

Lemma okp_nonce nc n x : okp nc x -> okp nc (p_setnonce n x).
Proof. intros []. constructor; auto. Qed.

Lemma get_nonce_wf g p s s' n : WF s -> p_live (s_peer s p) = true -> get_nonce g p s = Some (s', n) ->
  WF s' /\ s_nc s' = s_nc s /\ s_peer s' p = p_setnonce n (s_peer s p) /\ s_halt s' = s_halt s /\ s_conn s' = s_conn s /\ s_known s' = s_known s /\ s_np s' = s_np s.
Proof.
  intros W L E. apply get_nonce_spec in E. destruct E as (-> & H & H2). destruct (p_nonce (s_peer s p) =? 0)%N.
  - split. { apply wf_onp; auto. intros _. split; [exact L|]. split; [reflexivity|]. apply okp_nonce. apply (w_live s W). exact L. }
    unfold onp. cbn. rewrite upd_same. auto 10.
  - split; [exact W|]. split; [reflexivity|]. split; [|auto 10]. rewrite <- H. destruct (s_peer s p); reflexivity.
Qed.

(** ** What finish_handshake does, in one piece *)

Definition fin_peer (c : nat) (x : peer) : peer :=
  mkPeer (p_live x) (p_id x) (p_addr x) (p_nonce x) (Some c) (p_ntry x) (p_ntry x) (p_timer x) false (p_chosen x) None None true (Some false) (Some false) (p_pre x) Connected.

Record finished (p c o : nat) (s s' : st) : Prop := mkFin {
  f_conn : forall d, s_conn s' d = k_setpeer (if d =? c then Some p else if (d =? o) || oeq (p_out (s_peer s p)) (Some d) then None else k_peer (s_conn s d)) (s_conn s d);
  f_peer : forall q, s_peer s' q = if q =? p then fin_peer c (s_peer s p) else s_peer s q;
  f_nc : s_nc s' = s_nc s; f_np : s_np s' = s_np s; f_known : s_known s' = s_known s; f_q : s_q s' = s_q s; f_halt : s_halt s' = s_halt s;
  f_pend : s_pend s' = drop_by (k_addr (s_conn s c)) (s_pend s);
  f_uq : s_uq s' = s_uq s ++ [UCb p c true] }.

Lemma k_setpeer_id k : k_setpeer (k_peer k) k = k.
Proof. destruct k; reflexivity. Qed.
Lemma k_setpeer_2 v w k : k_setpeer v (k_setpeer w k) = k_setpeer v k.
Proof. destruct k; reflexivity. Qed.

Ltac eqs := repeat (match goal with |- context [?a =? ?b] => destruct (Nat.eqb_spec a b); subst end; rewrite ?Nat.eqb_refl; cbn [orb]); rewrite ?k_setpeer_2, ?k_setpeer_id; try reflexivity; try congruence.

Lemma finish_spec p c o s : p_chosen (s_peer s p) = Some c -> p_conn (s_peer s p) = Some o -> s_halt s = false ->
  post (finish_handshake p s) (fun s' ob => finished p c o s s' /\
    ob = (match p_state (s_peer s p) with Disconnected => [] | _ => [OAssert] end) ++ OPing c None :: (if k_term (s_conn s o) then [] else [OAssert]) ++ [OMove o c]).
Proof.
  intros EC EO EH. unfold finish_handshake, check, seq, send_ping, reset_ping_timer, clear_peer_of, post, say.
  destruct s as [cn nc pr np kn pd q uq hl]. cbn in EC, EO, EH. subst hl.
  assert (EX : exists x, pr p = x) by eauto. destruct EX as (x & EX). rewrite EX in *.
  repeat (cbn [s_halt s_peer onp onc w_peer w_conn s_conn p_out p_sethb]; rewrite ?upd_same, ?EX).
  destruct (p_out x) as [u|] eqn:EU.
  all: repeat (cbn [s_halt s_peer onp onc w_peer w_conn s_conn p_chosen p_conn p_setstate p_setlinks p_sethb p_settry p_settimer]; rewrite ?upd_same, ?EX, ?EC, ?EO).
  all: cbn [s_halt s_peer onp onc w_peer w_conn s_conn upost w_uq w_pend fst snd].
  all: split; [|rewrite ?app_nil_r; unfold upd; repeat match goal with |- context [?a =? ?b] => destruct (Nat.eqb_spec a b); subst end; cbn [k_term k_setpeer p_state p_sethb];
                repeat match goal with |- context [match ?a with _ => _ end] => lazymatch a with context [match _ with _ => _ end] => fail | _ => destruct a end end; reflexivity].
  all: constructor; cbn [s_conn s_peer s_nc s_np s_known s_q s_halt s_pend s_uq upost w_uq w_pend onp onc w_peer w_conn]; try reflexivity.
  all: try (intros d; unfold upd; rewrite EX, EU; cbn [oeq orb]; eqs).
  all: try (intros q0; unfold upd; destruct (q0 =? p) eqn:E; [|reflexivity]; rewrite ?Nat.eqb_refl, EX; destruct x; reflexivity).
  all: f_equal; unfold upd; eqs.
Qed.

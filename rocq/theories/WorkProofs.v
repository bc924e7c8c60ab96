(** Invariants of the worker's side of a connection (WorkModel). *)
From Coq Require Import Arith List Bool Lia.
From Coq.Init Require Import Byte.
From Verif Require Import Base WorkModel.
Import ListNotations.

Definition outq (s : wst) : bytes := concat (map snd (w_q s)).
Definition inq (s : wst) : bytes := w_got s ++ concat (w_rbuf s) ++ w_plain s ++ concat (w_sock s).

(** ** What each half leaves alone *)
Definition in_same (s t : wst) : Prop :=
  w_sf t = w_sf s /\ w_rf t = w_rf s /\ w_rr t = w_rr s /\ w_got t = w_got s /\ w_rbuf t = w_rbuf s /\
  w_plain t = w_plain s /\ w_sock t = w_sock s /\ w_want t = w_want s /\ w_reg t = w_reg s /\
  w_ok t = w_ok s /\ w_up t = w_up s.
Lemma in_same_trans a b d : in_same a b -> in_same b d -> in_same a d.
Proof. unfold in_same. intuition congruence. Qed.
Lemma in_same_intro a b :
  w_sf b = w_sf a -> w_rf b = w_rf a -> w_rr b = w_rr a -> w_got b = w_got a -> w_rbuf b = w_rbuf a ->
  w_plain b = w_plain a -> w_sock b = w_sock a -> w_want b = w_want a -> w_reg b = w_reg a ->
  w_ok b = w_ok a -> w_up b = w_up a -> in_same a b.
Proof. unfold in_same. tauto. Qed.

Lemma send_in_same c q : forall ws s, in_same s (send_loop c q ws s).
Proof.
  induction q as [|[a d] q IH]; intros ws s; cbn [send_loop].
  - apply in_same_intro; reflexivity.
  - destruct d as [|x d]; [apply in_same_intro; reflexivity|].
    destruct (negb _); [apply in_same_intro; reflexivity|].
    destruct (hd _ ws) as [n| | |]; try (apply in_same_intro; reflexivity).
    destruct (Nat.eqb n 0); [apply in_same_intro; reflexivity|].
    destruct (Nat.leb _ n); [|apply in_same_intro; reflexivity].
    eapply in_same_trans; [|apply IH]. apply in_same_intro; reflexivity.
Qed.

Definition out_same (s t : wst) : Prop :=
  w_sf t = w_sf s /\ w_rf t = w_rf s /\ w_rs t = w_rs s /\ w_q t = w_q s /\ w_next t = w_next s /\
  w_pend t = w_pend s /\ w_sent t = w_sent s /\ w_want t = w_want s /\ w_reg t = w_reg s /\
  w_ok t = w_ok s /\ w_up t = w_up s /\ w_bad t = w_bad s.
Lemma out_same_trans a b d : out_same a b -> out_same b d -> out_same a d.
Proof. unfold out_same. intuition congruence. Qed.
Lemma out_same_intro a b :
  w_sf b = w_sf a -> w_rf b = w_rf a -> w_rs b = w_rs a -> w_q b = w_q a -> w_next b = w_next a ->
  w_pend b = w_pend a -> w_sent b = w_sent a -> w_want b = w_want a -> w_reg b = w_reg a ->
  w_ok b = w_ok a -> w_up b = w_up a -> w_bad b = w_bad a -> out_same a b.
Proof. unfold out_same. tauto. Qed.

(** ** One call of recv or SSL_read *)
Lemma next_rec_concat k : forall d k', next_rec k = (d, k') -> d ++ concat k' = concat k.
Proof.
  induction k as [|r k IH]; cbn [next_rec concat]; intros d k' H; [inversion H; reflexivity|].
  destruct r as [|x r]; [exact (IH _ _ H)|]. inversion H; subst. reflexivity.
Qed.

Record read_ok (c : wcfg) (n : nat) (s : wst) (d : bytes) (t : wst) : Prop := {
  ro_out : out_same s t;
  ro_rbuf : w_rbuf t = w_rbuf s; ro_got : w_got t = w_got s;
  ro_rr : w_rr t = w_rr s; ro_rd : w_rd t = w_rd s; ro_wr : w_wr t = w_wr s; ro_term : w_term t = w_term s;
  ro_mode : w_tls c = false -> w_plain t = [];
  ro_len : length d <= n;
  ro_left : length d < n -> w_plain t = [];
  ro_bytes : d ++ w_plain t ++ concat (w_sock t) = w_plain s ++ concat (w_sock s);
  ro_none : 0 < n -> d = [] -> w_plain s ++ concat (w_sock s) = [] }.

Lemma short_skip {A} n (l : list A) : length (firstn n l) < n -> skipn n l = [].
Proof.
  intros H. rewrite firstn_length in H. apply skipn_all2. lia.
Qed.
Lemma firstn_nil_inv {A} n (l : list A) : 0 < n -> firstn n l = [] -> l = [].
Proof. destruct n; [lia|]. destruct l; [reflexivity|discriminate]. Qed.

Lemma read_spec c n s d t :
  (w_tls c = false -> w_plain s = []) -> read c n s = (d, t) -> read_ok c n s d t.
Proof.
  unfold read. intros P H. destruct (w_tls c) eqn:W.
  - destruct (w_plain s) as [|x p] eqn:E.
    + destruct (next_rec (w_sock s)) as [r k] eqn:N. inversion H; subst d t. clear H.
      pose proof (next_rec_concat _ _ _ N) as B.
      constructor; cbn [set_in w_rbuf w_got w_rr w_rd w_wr w_term w_plain w_sock]; try reflexivity.
      * apply out_same_intro; reflexivity.
      * congruence.
      * apply firstn_le_length.
      * apply short_skip.
      * rewrite E, app_assoc, firstn_skipn. exact B.
      * intros L F. rewrite E. apply firstn_nil_inv in F; [|exact L]. subst r. cbn.
        clear -N. revert N. induction (w_sock s) as [|y l IH]; cbn [next_rec concat]; intros N; [reflexivity|].
        destruct y as [|z y]; [exact (IH N)|discriminate].
    + inversion H; subst d t. clear H.
      constructor; cbn [set_in w_rbuf w_got w_rr w_rd w_wr w_term w_plain w_sock]; try reflexivity.
      * apply out_same_intro; reflexivity.
      * congruence.
      * apply firstn_le_length.
      * apply short_skip.
      * rewrite E, app_assoc, firstn_skipn. reflexivity.
      * intros L F. apply firstn_nil_inv in F; [discriminate|exact L].
  - specialize (P eq_refl). inversion H; subst d t. clear H.
    assert (B : concat (match skipn n (concat (w_sock s)) with [] => [] | x => [x] end) = skipn n (concat (w_sock s))).
    { destruct (skipn n _); [reflexivity|]. cbn [concat]. apply app_nil_r. }
    constructor; cbn [set_in w_rbuf w_got w_rr w_rd w_wr w_term w_plain w_sock]; try reflexivity.
    + apply out_same_intro; reflexivity.
    + apply firstn_le_length.
    + rewrite P. cbn [app]. etransitivity; [apply f_equal; exact B|]. apply firstn_skipn.
    + intros L F. rewrite P. apply firstn_nil_inv in F; assumption.
Qed.

(** ** The whole reading callback *)
Record recv_ok (c : wcfg) (f : rres) (s t : wst) : Prop := {
  rk_out : out_same s t;
  rk_bytes : inq t = inq s;
  rk_mode : w_tls c = false -> w_plain t = [];
  rk_term : w_term s = true -> w_term t = true;
  rk_fault : w_term s = false -> w_term t = true -> f <> RBlock;
  rk_state : w_term t = true \/
             (w_rr t = false /\ w_plain t = [] /\ w_rd t = w_rd s /\ w_wr t = w_wr s) \/
             (w_rr t = true /\ w_rd t = false /\ w_wr t = negb (w_rs s) /\ w_max c <= length (w_rbuf t)) }.

Lemma eat_inq n s : inq (eat n (set_rr false s)) = inq s.
Proof.
  unfold inq, eat, set_rr. cbn [w_got w_rbuf w_plain w_sock]. rewrite <- !app_assoc. f_equal.
  rewrite !app_assoc, <- concat_app, firstn_skipn. reflexivity.
Qed.

Lemma recv_loop_ok c f take : 0 < w_chunk c -> forall fuel s t,
  (w_tls c = false -> w_plain s = []) -> recv_loop c fuel f take s = Some t -> recv_ok c f s t.
Proof.
  intros C. induction fuel as [|fuel IH]; intros s t P H; [discriminate|]. cbn [recv_loop] in H.
  destruct (Nat.leb (w_max c) (length (w_rbuf s))) eqn:F.
  - inversion H; subst t. constructor; cbn.
    + apply out_same_intro; reflexivity.
    + reflexivity.
    + exact P.
    + tauto.
    + congruence.
    + right; right. apply Nat.leb_le in F. auto.
  - destruct (read c (w_chunk c) s) as [d s1] eqn:R. apply read_spec in R; [|exact P]. destruct R.
    destruct d as [|x d].
    + assert (L : w_plain s1 = []) by (apply ro_left0; cbn; lia).
      assert (B : inq s1 = inq s) by (unfold inq; rewrite ro_rbuf0, ro_got0, <- ro_bytes0; reflexivity).
      destruct f.
      { inversion H; subst t. constructor.
        - apply (out_same_trans _ _ _ ro_out0). apply out_same_intro; reflexivity.
        - rewrite <- B. apply eat_inq.
        - intros _. exact L.
        - change (w_term s = true -> w_term s1 = true). rewrite ro_term0. tauto.
        - change (w_term s = false -> w_term s1 = true -> RBlock <> RBlock). rewrite ro_term0. congruence.
        - right; left. auto. }
      all: inversion H; subst t; constructor;
        [ apply (out_same_trans _ _ _ ro_out0); apply out_same_intro; reflexivity
        | exact B | intros _; exact L | reflexivity | intros _ _; discriminate | left; reflexivity ].
    + set (s2 := set_in (w_rbuf s1 ++ [x :: d]) (w_plain s1) (w_sock s1) s1) in *.
      assert (B : inq s2 = inq s).
      { unfold inq, s2. cbn [set_in w_got w_rbuf w_plain w_sock]. rewrite ro_rbuf0, ro_got0, concat_app, <- !app_assoc.
        cbn [concat]. rewrite app_nil_r, ro_bytes0. reflexivity. }
      assert (O : out_same s s2) by (apply (out_same_trans _ _ _ ro_out0); apply out_same_intro; reflexivity).
      assert (T : w_term s2 = w_term s) by exact ro_term0.
      destruct (Nat.eqb (length (x :: d)) (w_chunk c)) eqn:Q.
      * assert (P2 : w_tls c = false -> w_plain s2 = []).
        { exact ro_mode0. }
        apply IH in H; [|exact P2]. destruct H. constructor.
        -- exact (out_same_trans _ _ _ O rk_out0).
        -- rewrite rk_bytes0; exact B.
        -- assumption.
        -- rewrite <- T. assumption.
        -- rewrite <- T. assumption.
        -- assert (w_rs s2 = w_rs s) by apply O. change (w_rd s2) with (w_rd s1) in *. change (w_wr s2) with (w_wr s1) in *.
           rewrite <- ro_rd0, <- ro_wr0, <- H. assumption.
      * apply Nat.eqb_neq in Q. assert (L : w_plain s1 = []) by (apply ro_left0; lia).
        inversion H; subst t. constructor.
        -- apply (out_same_trans _ _ _ O). apply out_same_intro; reflexivity.
        -- rewrite <- B. apply eat_inq.
        -- intros _. exact L.
        -- change (w_term s = true -> w_term s2 = true). rewrite T. tauto.
        -- change (w_term s = false -> w_term s2 = true -> f <> RBlock). rewrite T. congruence.
        -- right; left. auto.
Qed.

(** The fuel suffices. *)
Lemma recv_loop_some c f take : 0 < w_chunk c -> forall fuel s,
  (w_tls c = false -> w_plain s = []) ->
  length (w_plain s ++ concat (w_sock s)) < fuel -> exists t, recv_loop c fuel f take s = Some t.
Proof.
  intros C. induction fuel as [|fuel IH]; intros s P L; [lia|]. cbn [recv_loop].
  destruct (Nat.leb _ _); [eexists; reflexivity|].
  destruct (read c (w_chunk c) s) as [d s1] eqn:R. apply read_spec in R; [|exact P]. destruct R.
  destruct d as [|x d]; [destruct f; eexists; reflexivity|].
  destruct (Nat.eqb _ _); [|eexists; reflexivity].
  apply IH; [exact ro_mode0|]. cbn [set_in w_plain w_sock].
  rewrite <- ro_bytes0 in L. cbn [app length] in L. rewrite app_length in L. lia.
Qed.
Lemma recv_data_some c f take s : 0 < w_chunk c -> (w_tls c = false -> w_plain s = []) ->
  exists t, recv_data c f take s = Some t.
Proof.
  intros C P. apply recv_loop_some; [exact C|exact P|]. unfold fuel_of. rewrite app_length. lia.
Qed.

(** ** The whole writing callback *)
Definition pend_inv (c : wcfg) (q : list (nat * bytes)) (s : wst) : Prop :=
  match w_pend s with
  | None => True
  | Some (a, _) => w_tls c = true /\ a < w_next s /\ exists b d q', q = (b, d) :: q' /\ d <> []
  end.

Record send_ok (c : wcfg) (q : list (nat * bytes)) (ws : list wres) (s t : wst) : Prop := {
  so_in : in_same s t;
  so_bytes : w_sent t ++ outq t = w_sent s ++ concat (map snd q);
  so_pend : pend_inv c (w_q t) t;
  so_stuck : w_pend s <> None -> w_term t = true /\ w_sent t = w_sent s;
  so_term : w_term s = true -> w_term t = true;
  so_bad : w_bad t = true -> w_bad s = true \/ w_pend s <> None /\ w_term t = true;
  so_fault : w_term t = true -> w_term s = true \/ w_pend s <> None \/ In WErr ws \/ In WWantRead ws;
  so_block : w_pend t <> None -> w_pend s <> None \/ w_tls c = true /\ In WBlock ws;
  so_state : w_term t = true \/
             (w_rs t = false /\ w_rd t = w_rd s /\ w_wr t = w_wr s) \/
             (w_rs t = true /\ w_rd t = negb (w_rr s) /\ w_wr t = false) }.

Lemma hd_in {A} (x y : A) l : hd x l = y -> y <> x -> In y l.
Proof. destruct l; cbn; intros H N; [congruence|left; exact H]. Qed.

Lemma send_loop_ok c q : forall ws s, pend_inv c q s -> send_ok c q ws s (send_loop c q ws s).
Proof.
  induction q as [|[a d] q IH]; intros ws s P.
  - unfold pend_inv in P. destruct (w_pend s) as [[p n]|] eqn:E.
    { destruct P as [_ [_ [b [d [q' [H _]]]]]]. discriminate. }
    constructor; cbn [send_loop].
    + apply (send_in_same c [] ws).
    + reflexivity.
    + unfold pend_inv. cbn. rewrite E. exact I.
    + congruence.
    + tauto.
    + cbn. tauto.
    + cbn. tauto.
    + cbn. rewrite E. tauto.
    + right; right. auto.
  - destruct d as [|x d].
    { unfold pend_inv in P. destruct (w_pend s) as [[p n]|] eqn:E.
      { destruct P as [_ [_ [b [d [q' [H N]]]]]]. inversion H; subst. congruence. }
      constructor; cbn [send_loop].
      + apply (send_in_same c ((a, []) :: q) ws).
      + reflexivity.
      + unfold pend_inv. cbn. rewrite E. exact I.
      + congruence.
      + tauto.
      + cbn. tauto.
      + cbn. tauto.
      + cbn. rewrite E. tauto.
      + right; right. auto. }
    destruct (w_pend s) as [[p n]|] eqn:E.
    { (* a repetition is due, and the buffer is another one *)
      unfold pend_inv in P. rewrite E in P. destruct P as [T [L _]].
      assert (B : retry_ok c (w_next s) (length (x :: d)) (set_q q (S (w_next s)) s) = false).
      { unfold retry_ok. rewrite T. cbn [set_q w_pend]. rewrite E.
        destruct (Nat.eqb p (w_next s)) eqn:Q; [apply Nat.eqb_eq in Q; lia|reflexivity]. }
      assert (F : in_same s (send_loop c ((a, x :: d) :: q) ws s)) by apply send_in_same.
      revert F. cbn [send_loop]. rewrite B. cbn [negb]. intros F.
      constructor.
      + exact F.
      + reflexivity.
      + unfold pend_inv. cbn. rewrite E. split; [exact T|]. split; [lia|].
        exists (w_next s), (x :: d), q. split; [reflexivity|discriminate].
      + intros _. split; reflexivity.
      + reflexivity.
      + intros _. right. split; [congruence|reflexivity].
      + intros _. right; left. congruence.
      + intros _. left. congruence.
      + left. reflexivity. }
    assert (F : in_same s (send_loop c ((a, x :: d) :: q) ws s)) by apply send_in_same.
    assert (B : retry_ok c (w_next s) (length (x :: d)) (set_q q (S (w_next s)) s) = true).
    { unfold retry_ok. cbn [set_q w_pend]. rewrite E. destruct (w_tls c); reflexivity. }
    revert F. cbn [send_loop]. rewrite B. cbn [negb].
    destruct (hd (WN (length (x :: d))) ws) as [m| | |] eqn:W.
    + destruct (Nat.eqb m 0) eqn:Z.
      { intros F. constructor; try exact F; try reflexivity.
        + unfold pend_inv. cbn. rewrite E. exact I.
        + congruence.
        + cbn. tauto.
        + cbn. tauto.
        + cbn. tauto.
        + cbn. rewrite E. tauto.
        + right; left. auto. }
      destruct (Nat.leb (length (x :: d)) m) eqn:M.
      * intros F. set (s1 := add_sent (x :: d) (set_pend None (set_q q (S (w_next s)) s))) in *.
        destruct (IH (tl ws) s1) as [A1 A2 A3 A4 A5 A6 A7 A8 A9]; [exact I|].
        constructor; try exact F; try exact A3; try exact A5.
        -- rewrite A2. unfold s1. cbn [add_sent w_sent set_pend set_q map snd concat]. rewrite <- app_assoc. reflexivity.
        -- congruence.
        -- intros H. destruct (A6 H) as [H1|[H1 _]]; [left; exact H1|exfalso; apply H1; reflexivity].
        -- intros H. destruct (A7 H) as [H1|[H1|[H1|H1]]];
             [left; exact H1|exfalso; apply H1; reflexivity|right; right; left|right; right; right];
             destruct ws; try exact H1; right; exact H1.
        -- intros H. destruct (A8 H) as [H1|[H1 H2]]; [exfalso; apply H1; reflexivity|right].
           split; [exact H1|]. destruct ws; [exact H2|right; exact H2].
        -- exact A9.
      * apply Nat.leb_gt in M. apply Nat.eqb_neq in Z. intros F. constructor.
        -- exact F.
        -- unfold outq. cbn [set_rs set_q add_sent set_pend w_sent w_q map snd concat].
           rewrite <- app_assoc. f_equal. rewrite app_assoc, firstn_skipn. reflexivity.
        -- exact I.
        -- congruence.
        -- tauto.
        -- cbn. tauto.
        -- cbn. tauto.
        -- cbn. congruence.
        -- right; left. auto.
    + intros F. constructor; try exact F; try reflexivity.
      * unfold pend_inv. cbn. destruct (w_tls c) eqn:T; [|exact I]. split; [reflexivity|]. split; [lia|].
        exists (w_next s), (x :: d), q. split; [reflexivity|discriminate].
      * congruence.
      * cbn. tauto.
      * cbn. tauto.
      * cbn. tauto.
      * cbn. destruct (w_tls c); [|congruence]. intros _. right. split; [reflexivity|].
        apply (hd_in _ _ _ W). discriminate.
      * right; left. auto.
    + intros F. constructor; try exact F; try reflexivity.
      * unfold pend_inv. cbn. rewrite E. exact I.
      * congruence.
      * cbn. tauto.
      * intros _. right; right; right. apply (hd_in _ _ _ W). discriminate.
      * cbn. rewrite E. tauto.
      * left. reflexivity.
    + intros F. constructor; try exact F; try reflexivity.
      * unfold pend_inv. cbn. rewrite E. exact I.
      * congruence.
      * cbn. tauto.
      * intros _. right; right; left. apply (hd_in _ _ _ W). discriminate.
      * cbn. rewrite E. tauto.
      * left. reflexivity.
Qed.

(** ** The invariant *)
Record inv (c : wcfg) (s : wst) : Prop := {
  i_mode : w_tls c = false -> w_plain s = [];
  i_plain : w_plain s <> [] -> w_rr s = true \/ w_term s = true;
  i_fun0 : w_tls c = false -> w_sf s = SfPlain /\ w_rf s = RfPlain;
  i_fun1 : w_tls c = true ->
           (w_sf s = SfHs /\ w_rf s = RfHs /\ w_reg s = false /\ w_ok s = false) \/
           (w_sf s = SfTls /\ ((w_rf s = RfDummy /\ (w_ok s = true -> w_term s = true)) \/ (w_rf s = RfTls /\ w_ok s = true)));
  i_pre0 : w_tls c = false -> w_ok s = false -> w_rd s = false /\ w_wr s = false /\ w_rs s = false;
  i_pre : w_ok s = false -> w_rr s = false;
  i_hs : w_sf s = SfHs -> w_up s = true -> w_term s = false -> (w_rd s, w_wr s) = w_want s;
  i_dir : w_ok s = true -> w_up s = true -> w_term s = false ->
          w_rd s = negb (w_rr s) /\ (w_rs s = false -> w_wr s = true);
  i_pend : pend_inv c (w_q s) s;
  i_bad : w_bad s = true -> w_term s = true }.

Lemma inv_init c : inv c (winit c).
Proof.
  unfold winit. destruct (w_tls c) eqn:T; constructor; rewrite ?T; cbn; intros; try congruence; auto.
Qed.

Lemma inv_term c s : inv c s -> inv c (term s).
Proof.
  intros []. constructor; cbn; auto; try discriminate.
  intros T. destruct (i_fun3 T) as [H|[H [[H1 H2]|H1]]]; auto.
Qed.
Lemma inv_mask_term c a b s : (w_tls c = false -> w_ok s = true) -> inv c s -> inv c (term (set_mask a b s)).
Proof.
  intros K []. constructor; cbn; auto; try discriminate.
  - intros T. destruct (i_fun3 T) as [H|[H [[H1 H2]|H1]]]; auto.
  - intros T O. rewrite (K T) in O. discriminate.
Qed.

(** What a call of recv_data keeps. *)
Lemma inv_recv c f s t :
  w_ok s = true -> inv c s -> w_term s = false \/ w_up s = true ->
  (w_rd s = true /\ (w_rs s = false -> w_wr s = true) \/ w_up s = false \/ w_term s = true) ->
  recv_ok c f s t -> inv c t.
Proof.
  intros K [] _ D [].
  destruct rk_out0 as (O1 & O2 & O3 & O4 & O5 & O6 & O7 & O8 & O9 & O10 & O11 & O12).
  assert (M : w_term t = false -> w_term s = false).
  { intros H. destruct (w_term s) eqn:E; [|reflexivity]. rewrite (rk_term0 eq_refl) in H. discriminate. }
  constructor.
  - assumption.
  - intros H. destruct rk_state0 as [H1|[[_ [H1 _]]|[H1 _]]]; auto.
  - rewrite O1, O2. assumption.
  - rewrite O1, O2, O9, O10. intros T. destruct (i_fun3 T) as [H|[H [[H1 H2]|H1]]]; auto.
    right. split; [exact H|]. left. split; [exact H1|]. auto.
  - intros _ H. congruence.
  - intros H. congruence.
  - intros H U R. rewrite O1 in H. destruct (w_tls c) eqn:T.
    + destruct (i_fun3 eq_refl) as [[_ [_ [_ H1]]]|[H1 _]]; congruence.
    + destruct (i_fun2 eq_refl). congruence.
  - intros _ U R. rewrite O11 in U. specialize (M R).
    destruct D as [[D1 D2]|[D1|D1]]; [|congruence|congruence].
    destruct rk_state0 as [H|[[H1 [_ [H2 H3]]]|[H1 [H2 [H3 _]]]]]; [congruence| |].
    + rewrite H1, H2, H3, O3. auto.
    + rewrite H1, H2, H3, O3. split; [reflexivity|]. intros ->. reflexivity.
  - unfold pend_inv in *. rewrite O4, O5, O6. assumption.
  - rewrite O12. auto.
Qed.

(** What a call of send_data keeps. *)
Lemma inv_send c ws s t :
  (w_tls c = false -> w_ok s = true) -> w_sf s <> SfHs -> inv c s ->
  (w_ok s = true -> w_up s = true -> w_term s = false -> w_rd s = negb (w_rr s) /\ w_wr s = true) ->
  send_ok c (w_q s) ws s t -> inv c t.
Proof.
  intros K N [] D [].
  destruct so_in0 as (O1 & O2 & O3 & O4 & O5 & O6 & O7 & O8 & O9 & O10 & O11).
  assert (M : w_term t = false -> w_term s = false).
  { intros H. destruct (w_term s) eqn:E; [|reflexivity]. rewrite (so_term0 eq_refl) in H. discriminate. }
  constructor.
  - rewrite O6. assumption.
  - rewrite O6, O3. intros H. destruct (i_plain0 H); auto.
  - rewrite O1, O2. assumption.
  - rewrite O1, O2, O9, O10. intros T. destruct (i_fun3 T) as [H|[H [[H1 H2]|H1]]]; auto.
    right. split; [exact H|]. left. split; [exact H1|]. auto.
  - rewrite O10. intros T H. rewrite (K T) in H. discriminate.
  - rewrite O10, O3. assumption.
  - rewrite O1. contradiction.
  - rewrite O10, O11, O3. intros H U R. destruct (D H U (M R)) as [D1 D2].
    destruct so_state0 as [X|[[X1 [X2 X3]]|[X1 [X2 X3]]]]; [congruence| |].
    + rewrite X1, X2, X3. auto.
    + rewrite X1, X2. split; [reflexivity|discriminate].
  - assumption.
  - intros H. destruct (so_bad0 H) as [H1|[_ H1]]; auto.
Qed.

Lemma guard_some b x t : guard b x = Some t -> b = true /\ x = Some t.
Proof. destruct b; [auto|discriminate]. Qed.

Lemma inv_handshake c h s : inv c s -> w_sf s = SfHs -> inv c (handshake h s).
Proof.
  intros I E. pose proof I as [].
  destruct (w_tls c) eqn:T; [|destruct (i_fun2 eq_refl); congruence].
  destruct (i_fun3 eq_refl) as [[_ [R [G O]]]|[X _]]; [|congruence].
  assert (P : forall x, pend_inv c (w_q s) s -> w_q x = w_q s -> w_next x = w_next s -> w_pend x = w_pend s -> pend_inv c (w_q x) x).
  { intros x H A B C. unfold pend_inv in *. rewrite A, B, C. exact H. }
  destruct h as [[|]| | |]; cbn [handshake]; [| | | |apply inv_term; exact I].
  all: constructor; cbn.
  all: try (intros; congruence).
  all: try (apply (P s); assumption).
  all: try assumption.
  all: try (intros _; right; split; [reflexivity|]; left; split; [reflexivity|]; auto; congruence).
  all: try (intros H; destruct (i_plain0 H); auto; fail).
  all: try (intros _; left; auto; fail).
  all: auto.
Qed.

Lemma inv_rs c s : (w_tls c = false -> w_ok s = true) -> inv c s -> inv c (set_rs true s).
Proof.
  intros K []. constructor; cbn; try assumption.
  - intros T O. rewrite (K T) in O. discriminate.
  - intros O A B. destruct (i_dir0 O A B). split; [assumption|discriminate].
Qed.

(** ** Every step *)
Lemma pend_push c q s x n : pend_inv c q s -> w_next s <= n -> pend_inv c (q ++ x) (set_q (q ++ x) n s).
Proof.
  unfold pend_inv. cbn [set_q w_pend w_next]. destruct (w_pend s) as [[a m]|]; [|auto].
  intros [T [L [b [d [q' [-> N]]]]]] H. split; [exact T|]. split; [lia|].
  exists b, d, (q' ++ x). split; [reflexivity|exact N].
Qed.

Lemma inv_step c e s t : 0 < w_chunk c -> inv c s -> wstep c e s = Some t -> inv c t.
Proof.
  intros C I H. pose proof I as []. destruct e; cbn [wstep] in H.
  - (* WPush *) inversion H; subst t. constructor; cbn; try assumption.
    apply (pend_push c _ s _ (S (w_next s))); [exact i_pend0|lia].
  - (* WArrive *) inversion H; subst t. constructor; cbn; assumption.
  - (* WQueue *) apply guard_some in H. destruct H as [G H]. apply andb_prop in G. destruct G as [U G].
    destruct (w_rs s) eqn:R; [|inversion H; subst t; exact I].
    assert (K : w_tls c = false -> w_ok s = true).
    { intros T. destruct (w_ok s) eqn:O; [reflexivity|]. destruct (i_pre1 T eq_refl) as [_ [_ X]]. congruence. }
    assert (N : w_sf s <> SfHs).
    { intros X. destruct (w_tls c) eqn:T.
      - destruct (i_fun3 eq_refl) as [[_ [_ [Y _]]]|[Y _]]; congruence.
      - destruct (i_fun2 eq_refl). congruence. }
    set (s1 := set_mask (negb (w_rr s)) true s) in *.
    assert (I1 : inv c s1).
    { constructor; cbn; try assumption.
      - intros T O. rewrite (K T) in O. discriminate.
      - contradiction.
      - intros _ _ _. auto. }
    assert (E : t = send_loop c (w_q s1) ws s1).
    { inversion H. unfold call_send. change (w_sf s1) with (w_sf s). destruct (w_sf s); congruence. }
    rewrite E. apply (inv_send c ws s1); try assumption.
    + cbn. auto.
    + apply send_loop_ok. apply I1.
  - (* WIo *) apply guard_some in H. destruct H as [G H].
    apply andb_prop in G. destruct G as [G GW]. apply andb_prop in G. destruct G as [G GR].
    apply andb_prop in G. destruct G as [U G].
    assert (K : w_tls c = false -> w_ok s = true).
    { intros T. destruct (w_ok s) eqn:O; [reflexivity|]. destruct (i_pre1 T eq_refl) as [X [Y _]].
      rewrite X in GR. rewrite Y in GW. destruct r, w; discriminate. }
    destruct r.
    + cbn [implb] in GR. unfold call_recv in H. destruct (w_rf s) eqn:F.
      * inversion H. apply inv_handshake; [exact I|].
        destruct (w_tls c) eqn:T.
        -- destruct (i_fun3 eq_refl) as [[Y _]|[_ [[Y _]|[Y _]]]]; congruence.
        -- destruct (i_fun2 eq_refl). congruence.
      * assert (O : w_ok s = true).
        { apply K. destruct (w_tls c) eqn:T; [|reflexivity].
          destruct (i_fun3 eq_refl) as [[_ [Y _]]|[_ [[Y _]|[Y _]]]]; congruence. }
        apply recv_loop_ok in H; [|exact C|exact i_mode0].
        apply (inv_recv c f s t); try assumption; [auto|].
        destruct (w_term s) eqn:X; [auto|]. destruct (i_dir0 O U eq_refl). auto.
      * assert (O : w_ok s = true).
        { destruct (w_tls c) eqn:T; [|apply K; reflexivity].
          destruct (i_fun3 eq_refl) as [[_ [Y _]]|[_ [[Y _]|[_ Y]]]]; congruence. }
        apply recv_loop_ok in H; [|exact C|exact i_mode0].
        apply (inv_recv c f s t); try assumption; [auto|].
        destruct (w_term s) eqn:X; [auto|]. destruct (i_dir0 O U eq_refl). auto.
      * inversion H; subst t. exact I.
    + destruct w; [|discriminate]. cbn [implb] in GW. inversion H. unfold call_send.
      destruct (w_sf s) eqn:F.
      * apply inv_handshake; [apply inv_rs; assumption|exact F].
      * apply (inv_send c ws s); try assumption; [congruence| |apply send_loop_ok; exact i_pend0].
        intros O A B. destruct (i_dir0 O A B). auto.
      * apply (inv_send c ws s); try assumption; [congruence| |apply send_loop_ok; exact i_pend0].
        intros O A B. destruct (i_dir0 O A B). auto.
  - (* WFail *) apply guard_some in H. destruct H as [G H]. apply andb_prop in G. destruct G as [U G].
    assert (K : w_tls c = false -> w_ok s = true).
    { intros T. destruct (w_ok s) eqn:O; [reflexivity|]. destruct (i_pre1 T eq_refl) as [X [Y _]].
      rewrite X, Y in G. discriminate. }
    inversion H. cbn [set_mask w_sf]. destruct (w_sf s) eqn:F; [|apply inv_mask_term; assumption|apply inv_mask_term; assumption].
    assert (Z : inv c (handshake h (set_rs true s))).
    { apply inv_handshake; [apply inv_rs; assumption|exact F]. }
    destruct h as [[|]| | |]; try exact Z.
    apply (inv_mask_term c false false (set_rs true s)); [exact K|]. apply inv_rs; assumption.
  - (* WApprove *) apply guard_some in H. destruct H as [G H].
    apply andb_prop in G. destruct G as [G GD]. apply andb_prop in G. destruct G as [G GO].
    apply andb_prop in G. destruct G as [U G]. apply negb_true_iff in GO.
    destruct (w_tls c) eqn:T.
    + assert (D : w_rf s = RfDummy) by (destruct (w_rf s); try discriminate; reflexivity).
      assert (F : w_sf s = SfTls) by (destruct (i_fun3 eq_refl) as [[_ [Y _]]|[Y _]]; congruence).
      destruct ok; inversion H; constructor; cbn; rewrite ?T.
      all: try assumption.
      all: try (intros; congruence).
      all: try (intros Z; destruct (i_plain0 Z); auto; fail).
      all: try (intros _; right; split; [exact F|]; auto; fail).
      all: try (intros _ _ _; rewrite (i_pre2 GO); auto; fail).
    + inversion H. constructor; cbn; rewrite ?T; try assumption; try congruence.
      * intros X. destruct (i_fun2 eq_refl). congruence.
      * intros _ _ _. rewrite (i_pre2 GO). auto.
  - (* WTimer *) apply guard_some in H. destruct H as [G H]. apply andb_prop in G. destruct G as [U O].
    assert (I1 : inv c (eat take s)) by (constructor; cbn; assumption).
    destruct (w_rr (eat take s) && _) eqn:R; [|inversion H; subst t; exact I1].
    apply andb_prop in R. destruct R as [R _]. cbn [eat w_rr] in R.
    set (s1 := set_mask true (negb (w_rs (eat take s))) (eat take s)) in *.
    assert (D : w_rf s = RfHs -> False).
    { intros X. destruct (w_tls c) eqn:T.
      - destruct (i_fun3 eq_refl) as [[_ [_ [_ Y]]]|[_ [[Y _]|[Y _]]]]; congruence.
      - destruct (i_fun2 eq_refl). congruence. }
    assert (Q : w_rf s = RfDummy -> w_term s = true).
    { intros X. destruct (w_tls c) eqn:T.
      - destruct (i_fun3 eq_refl) as [[_ [Y _]]|[_ [[_ Y]|[Y _]]]]; try congruence. auto.
      - destruct (i_fun2 eq_refl). congruence. }
    assert (Z : recv_data c f more s1 = Some t -> inv c t).
    { intros W. assert (W' := W). apply recv_loop_ok in W; [|exact C|exact i_mode0].
      destruct W. destruct rk_out0 as (O1 & O2 & O3 & O4 & O5 & O6 & O7 & O8 & O9 & O10 & O11 & O12).
      assert (V : w_term t = false -> w_term s = false).
      { intros X. destruct (w_term s) eqn:Y; [|reflexivity]. rewrite (rk_term0 Y) in X. discriminate. }
      constructor.
      - assumption.
      - intros X. destruct rk_state0 as [Y|[[_ [Y _]]|[Y _]]]; auto.
      - rewrite O1, O2. assumption.
      - rewrite O1, O2, O9, O10. intros T. destruct (i_fun3 T) as [X|[X [[Y1 Y2]|Y]]]; auto.
        right. split; [exact X|]. left. split; [exact Y1|]. auto.
      - rewrite O10. cbn. congruence.
      - rewrite O10. cbn. congruence.
      - rewrite O1. cbn. intros X. exfalso. destruct (w_tls c) eqn:T.
        + destruct (i_fun3 eq_refl) as [[_ [Y _]]|[Y _]]; [exact (D Y)|congruence].
        + destruct (i_fun2 eq_refl). congruence.
      - intros _ _ X. destruct rk_state0 as [Y|[[Y1 [_ [Y2 Y3]]]|[Y1 [Y2 [Y3 _]]]]]; [congruence| |];
          rewrite Y1, Y2, Y3, O3; cbn; (split; [reflexivity|]); intros ->; reflexivity.
      - unfold pend_inv in *. rewrite O4, O5, O6. exact i_pend0.
      - rewrite O12. cbn. auto. }
    assert (J : w_term s = true -> inv c s1).
    { intros X. constructor; cbn; try assumption; congruence. }
    unfold call_recv in H. change (w_rf s1) with (w_rf s) in H.
    destruct (w_rf s); [destruct (D eq_refl)|exact (Z H)|exact (Z H)|].
    inversion H. subst t. exact (J (Q eq_refl)).
  - (* WKill *) inversion H. apply inv_term. exact I.
  - (* WDown *) apply guard_some in H. destruct H as [G H]. apply andb_prop in G. destruct G as [U G].
    inversion H. constructor; cbn; try assumption; try discriminate; auto.
    + intros T. destruct (i_fun3 T) as [X|[X [[Y1 Y2]|Y]]]; auto. left. tauto.
    + intros T O. destruct (i_pre1 T O) as [_ [_ X]]. auto.
Qed.

Lemma inv_run c es : 0 < w_chunk c -> forall s t, inv c s -> wrun c es s = Some t -> inv c t.
Proof.
  intros C. induction es as [|e es IH]; cbn [wrun]; intros s t I H; [inversion H; subst; exact I|].
  destruct (wstep c e s) as [s1|] eqn:E; [|discriminate].
  exact (IH _ _ (inv_step c e s s1 C I E) H).
Qed.

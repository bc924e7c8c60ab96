(** C44, C48 and C49: single-threaded smart pointers. *)
From Coq Require Import Arith List Bool Lia Permutation.
From Verif Require Import RefModel.
Import ListNotations.

(** ** Specification *)

(** The variables that keep object [o] alive. *)
Definition owns (o : nat) (v : var) : bool :=
  match v with
  | VRc (Some o') (Some _) | VBox (Some o') => o' =? o
  | _ => false
  end.
Definition owners (o : nat) (m : mem) : nat := length (filter (owns o) (m_vars m)).

(** The variables sharing control block [c]. *)
Definition is_strong (c : nat) (v : var) : bool := match v with VRc _ (Some c') => c' =? c | _ => false end.
Definition is_weak (c : nat) (v : var) : bool := match v with VWk _ (Some c') => c' =? c | _ => false end.
Definition strongs (c : nat) (vs : list var) : nat := length (filter (is_strong c) vs).
Definition weaks (c : nat) (vs : list var) : nat := length (filter (is_weak c) vs).
Definition is_box (o : nat) (v : var) : bool := match v with VBox (Some o') => o' =? o | _ => false end.
Definition boxes (o : nat) (vs : list var) : nat := length (filter (is_box o) vs).

Definition no_cast (os : list op) : Prop :=
  Forall (fun o => match o with OpCastBox _ _ => False | _ => True end) os.

(** ** Lists *)

Lemma repl_perm {A} (d : A) n l : n < length l ->
  exists r, Permutation l (nth n l d :: r) /\ forall v, Permutation (repl n v l) (v :: r).
Proof.
  revert l. induction n as [|n IH]; intros [|x l] H; cbn in H; try lia.
  - exists l. split; [reflexivity|]. intros v. reflexivity.
  - destruct (IH l) as (r & P1 & P2); [lia|]. exists (x :: r). cbn [nth repl]. split.
    + rewrite P1 at 1. apply perm_swap.
    + intros v. rewrite (P2 v). apply perm_swap.
Qed.

Lemma repl_length {A} n (v : A) l : length (repl n v l) = length l.
Proof. revert n. induction l as [|x l IH]; intros [|n]; cbn; auto. Qed.

Lemma nth_repl {A} (d : A) n v l : forall k, n < length l -> nth k (repl n v l) d = if k =? n then v else nth k l d.
Proof.
  revert n. induction l as [|x l IH]; intros [|n] k H; cbn in H; try lia.
  - destruct k; reflexivity.
  - destruct k as [|k]; [reflexivity|]. cbn [repl nth]. rewrite IH by lia. reflexivity.
Qed.

Lemma nth_error_repl {A} n (v : A) l : forall k, n < length l -> nth_error (repl n v l) k = if k =? n then Some v else nth_error l k.
Proof.
  revert n. induction l as [|x l IH]; intros [|n] k H; cbn in H; try lia.
  - destruct k; reflexivity.
  - destruct k as [|k]; [reflexivity|]. cbn [repl nth_error]. rewrite IH by lia. reflexivity.
Qed.

Lemma repl_same {A} (d : A) n l : repl n (nth n l d) l = l.
Proof. revert n. induction l as [|x l IH]; intros [|n]; cbn; auto. f_equal. apply IH. Qed.

Lemma filter_perm {A} (p : A -> bool) l l' : Permutation l l' -> length (filter p l) = length (filter p l').
Proof.
  induction 1 as [|x l l' _ IH|x y l|l l' l'' _ IH1 _ IH2]; cbn; auto.
  - destruct (p x); cbn; auto.
  - destruct (p x), (p y); reflexivity.
  - congruence.
Qed.

Lemma swap_perm {A} (d : A) x y l : x < length l -> y < length l ->
  Permutation (repl x (nth y l d) (repl y (nth x l d) l)) l.
Proof.
  intros Hx Hy. destruct (Nat.eq_dec x y) as [->|N].
  - destruct (repl_perm d y l Hy) as (r & P1 & P2). rewrite repl_same, repl_same. reflexivity.
  - destruct (repl_perm d y l Hy) as (r & P1 & P2).
    destruct (repl_perm d x (repl y (nth x l d) l)) as (r' & Q1 & Q2); [rewrite repl_length; exact Hx|].
    rewrite nth_repl in Q1 by exact Hy. replace (x =? y) with false in Q1 by (symmetry; apply Nat.eqb_neq; exact N).
    assert (E : Permutation (nth x l d :: r) (nth x l d :: r')) by (eapply perm_trans; [symmetry; apply P2|exact Q1]).
    apply Permutation_cons_inv in E. eapply perm_trans; [apply Q2|]. eapply perm_trans; [apply perm_skip; symmetry; exact E|]. symmetry. exact P1.
Qed.

(** ** The invariant *)

Definition b01 (b : bool) : nat := if b then 1 else 0.

Definition obj_state (home : nat -> option nat) (vs : list var) (raw : list nat) (o d : nat) : Prop :=
  match home o with
  | Some c => d = b01 (strongs c vs =? 0) /\ boxes o vs = 0
  | None => (In o raw /\ d = 0 /\ boxes o vs = 0) \/ (~ In o raw /\ d + boxes o vs = 1)
  end.

Record RInv (cobj home : nat -> option nat) (objs : list nat) (ctls : list ctl) (vs : list var) (raw : list nat) : Prop := mkRInv {
  i_rc : forall o c, In (VRc o (Some c)) vs -> c < length ctls /\ cobj c = o;
  i_wk : forall o c, In (VWk o (Some c)) vs -> c < length ctls /\ cobj c = o;
  i_bx : forall o, In (VBox (Some o)) vs -> o < length objs;
  i_ctl : forall c k, nth_error ctls c = Some k ->
     k = mkCtl (strongs c vs) (weaks c vs) (b01 ((strongs c vs =? 0) && (weaks c vs =? 0)));
  i_home : forall c o, c < length ctls -> cobj c = Some o -> o < length objs /\ home o = Some c;
  i_hc : forall o c, o < length objs -> home o = Some c -> c < length ctls /\ cobj c = Some o;
  i_obj : forall o d, nth_error objs o = Some d -> obj_state home vs raw o d;
  i_raw : forall o, In o raw -> o < length objs /\ home o = None }.

Definition MInv (m : mem) : Prop := exists cobj home, RInv cobj home (m_objs m) (m_ctls m) (m_vars m) (m_raw m).

Lemma rinv_perm cobj home objs ctls vs vs' raw : Permutation vs vs' ->
  RInv cobj home objs ctls vs raw -> RInv cobj home objs ctls vs' raw.
Proof.
  intros P [I1 I2 I3 I4 I5 I6 I7 I8].
  assert (S : forall c, strongs c vs' = strongs c vs) by (intros c; unfold strongs; symmetry; apply filter_perm; exact P).
  assert (W : forall c, weaks c vs' = weaks c vs) by (intros c; unfold weaks; symmetry; apply filter_perm; exact P).
  assert (B : forall o, boxes o vs' = boxes o vs) by (intros o; unfold boxes; symmetry; apply filter_perm; exact P).
  assert (IN : forall v, In v vs' -> In v vs) by (intros v; apply Permutation_in; symmetry; exact P).
  constructor; auto.
  - intros c k E. rewrite S, W. auto.
  - intros o d E. specialize (I7 o d E). unfold obj_state in *. destruct (home o); rewrite ?S, ?B; auto.
Qed.

(** A variable without any share in an object or control block. *)
Definition plain (v : var) : bool :=
  match v with VNone | VRc _ None | VWk _ None | VBox None => true | _ => false end.

Lemma plain_cnt v : plain v = true -> (forall c, is_strong c v = false) /\ (forall c, is_weak c v = false) /\ (forall o, is_box o v = false).
Proof. destruct v as [|o [c|]|o [c|]|[o|]]; cbn; try discriminate; auto. Qed.

Lemma rinv_plain cobj home objs ctls v w vs raw : plain v = true -> plain w = true ->
  RInv cobj home objs ctls (v :: vs) raw -> RInv cobj home objs ctls (w :: vs) raw.
Proof.
  intros Pv Pw [I1 I2 I3 I4 I5 I6 I7 I8].
  destruct (plain_cnt v Pv) as (A1 & A2 & A3). destruct (plain_cnt w Pw) as (B1 & B2 & B3).
  assert (S : forall c, strongs c (w :: vs) = strongs c (v :: vs)) by (intros c; unfold strongs; cbn; rewrite A1, B1; reflexivity).
  assert (W : forall c, weaks c (w :: vs) = weaks c (v :: vs)) by (intros c; unfold weaks; cbn; rewrite A2, B2; reflexivity).
  assert (B : forall o, boxes o (w :: vs) = boxes o (v :: vs)) by (intros c; unfold boxes; cbn; rewrite A3, B3; reflexivity).
  constructor; auto.
  - intros o c [X|X]; [subst w; discriminate|]. apply I1. right. exact X.
  - intros o c [X|X]; [subst w; discriminate|]. apply I2. right. exact X.
  - intros o [X|X]; [subst w; discriminate|]. apply I3. right. exact X.
  - intros c k E. rewrite S, W. auto.
  - intros o d E. specialize (I7 o d E). unfold obj_state in *. destruct (home o); rewrite ?S, ?B; auto.
Qed.

Lemma set_var_inv x v m : x < length (m_vars m) -> plain (get_var x m) = true -> plain v = true -> MInv m -> MInv (set_var x v m).
Proof.
  intros L P Pv (cobj & home & I). exists cobj, home. cbn.
  destruct (repl_perm VNone x (m_vars m) L) as (r & P1 & P2).
  apply (rinv_perm _ _ _ _ (v :: r)); [symmetry; apply P2|].
  apply (rinv_plain _ _ _ _ (get_var x m) v); auto. apply (rinv_perm _ _ _ _ (m_vars m)); auto.
Qed.

Lemma swap_inv x y m : x < length (m_vars m) -> y < length (m_vars m) -> MInv m ->
  MInv (set_var x (get_var y m) (set_var y (get_var x m) m)).
Proof.
  intros Hx Hy (cobj & home & I). exists cobj, home. cbn.
  apply (rinv_perm _ _ _ _ (m_vars m)); auto. symmetry. apply swap_perm; auto.
Qed.

Lemma fresh_spec x m : fresh x m = true -> x < length (m_vars m) /\ get_var x m = VNone.
Proof.
  unfold fresh. intros H. apply andb_prop in H. destruct H as (A & B). apply Nat.ltb_lt in A. split; [exact A|].
  destruct (get_var x m); try discriminate. reflexivity.
Qed.

Lemma get_in x m : get_var x m <> VNone -> In (get_var x m) (m_vars m) /\ x < length (m_vars m).
Proof.
  unfold get_var. intros H. destruct (Nat.lt_ge_cases x (length (m_vars m))) as [L|L].
  - split; [apply nth_In; exact L|exact L].
  - rewrite nth_overflow in H by exact L. contradiction.
Qed.

Lemma in_pos (p : var -> bool) v vs : In v vs -> p v = true -> 0 < length (filter p vs).
Proof.
  intros I P. assert (H : In v (filter p vs)) by (apply filter_In; auto).
  destruct (filter p vs); [contradiction|cbn; lia].
Qed.

(** A control block in use is not freed. *)
Lemma ctl_live cobj home objs ctls vs raw c : RInv cobj home objs ctls vs raw -> c < length ctls -> 0 < strongs c vs + weaks c vs ->
  nth_error ctls c = Some (mkCtl (strongs c vs) (weaks c vs) 0).
Proof.
  intros I L P. destruct (nth_error ctls c) as [k|] eqn:E; [|apply nth_error_None in E; lia].
  rewrite (i_ctl _ _ _ _ _ _ I c k E). f_equal. f_equal.
  destruct (strongs c vs) eqn:S, (weaks c vs) eqn:W; try reflexivity. cbn in P. lia.
Qed.

Lemma add_strong cobj home objs ctls vs raw c o k : RInv cobj home objs ctls (VNone :: vs) raw ->
  c < length ctls -> cobj c = o -> 0 < strongs c vs -> nth_error ctls c = Some k ->
  RInv cobj home objs (repl c (mkCtl (S (c_ref k)) (c_weak k) 0) ctls) (VRc o (Some c) :: vs) raw.
Proof.
  intros I L EO SP Ek. destruct I as [I1 I2 I3 I4 I5 I6 I7 I8].
  assert (S : forall c', strongs c' (VRc o (Some c) :: vs) = b01 (c =? c') + strongs c' vs).
  { intros c'. unfold strongs. cbn. destruct (c =? c'); reflexivity. }
  constructor.
  - rewrite repl_length. intros o' c' [X|X]; [injection X as <- <-; auto|]. apply I1. right. exact X.
  - rewrite repl_length. intros o' c' [X|X]; [discriminate|]. apply I2. right. exact X.
  - intros o' [X|X]; [discriminate|]. apply I3. right. exact X.
  - intros c' k' E. rewrite nth_error_repl in E by exact L. rewrite S. destruct (Nat.eqb_spec c' c) as [->|N].
    + injection E as <-. specialize (I4 c k Ek). subst k. cbn [c_ref c_weak]. rewrite Nat.eqb_refl. cbn [b01]. f_equal.
    + specialize (I4 c' k' E). replace (c =? c') with false by (symmetry; apply Nat.eqb_neq; auto). exact I4.
  - rewrite repl_length. auto.
  - rewrite repl_length. auto.
  - intros o' d E. specialize (I7 o' d E). unfold obj_state in *. destruct (home o') as [c'|]; [|exact I7].
    rewrite S. destruct (Nat.eqb_spec c c') as [<-|N]; [|exact I7]. cbn [b01 Nat.add Nat.eqb].
    destruct I7 as (I7 & B). change (strongs c (VNone :: vs)) with (strongs c vs) in I7. split; [|exact B].
    rewrite I7. destruct (strongs c vs); [lia|reflexivity].
  - exact I8.
Qed.

Lemma add_weak_inv cobj home objs ctls vs raw c o k : RInv cobj home objs ctls (VNone :: vs) raw ->
  c < length ctls -> cobj c = o -> nth_error ctls c = Some k ->
  RInv cobj home objs (repl c (mkCtl (c_ref k) (S (c_weak k)) 0) ctls) (VWk o (Some c) :: vs) raw.
Proof.
  intros I L EO Ek. destruct I as [I1 I2 I3 I4 I5 I6 I7 I8].
  assert (W : forall c', weaks c' (VWk o (Some c) :: vs) = b01 (c =? c') + weaks c' vs).
  { intros c'. unfold weaks. cbn. destruct (c =? c'); reflexivity. }
  constructor.
  - rewrite repl_length. intros o' c' [X|X]; [discriminate|]. apply I1. right. exact X.
  - rewrite repl_length. intros o' c' [X|X]; [injection X as <- <-; auto|]. apply I2. right. exact X.
  - intros o' [X|X]; [discriminate|]. apply I3. right. exact X.
  - intros c' k' E. rewrite nth_error_repl in E by exact L. rewrite W. change (strongs c' (VWk o (Some c) :: vs)) with (strongs c' vs).
    destruct (Nat.eqb_spec c' c) as [->|N].
    + injection E as <-. specialize (I4 c k Ek). subst k. cbn [c_ref c_weak]. rewrite Nat.eqb_refl. cbn [b01].
      rewrite andb_comm. reflexivity.
    + specialize (I4 c' k' E). replace (c =? c') with false by (symmetry; apply Nat.eqb_neq; auto). exact I4.
  - rewrite repl_length. auto.
  - rewrite repl_length. auto.
  - exact I7.
  - exact I8.
Qed.

(** Results of an operation. *)
Definition good (n : nat) (r : ares) : Prop :=
  match r with AOk m => MInv m /\ length (m_vars m) = n | ABad => True | AUndef => False end.

Lemma split_var x m : fresh x m = true -> exists r, Permutation (m_vars m) (VNone :: r) /\ forall v, Permutation (repl x v (m_vars m)) (v :: r).
Proof.
  intros F. apply fresh_spec in F. destruct F as (L & E). destruct (repl_perm VNone x _ L) as (r & P1 & P2).
  unfold get_var in E. rewrite E in P1. exists r. auto.
Qed.

Lemma copy_strong_good x o c m : fresh x m = true -> c < length (m_ctls m) ->
  (exists cobj home, RInv cobj home (m_objs m) (m_ctls m) (m_vars m) (m_raw m) /\ cobj c = o) ->
  0 < strongs c (m_vars m) ->
  good (length (m_vars m)) (abind (add_ref c m) (fun m => AOk (set_var x (VRc o (Some c)) m))).
Proof.
  intros F L (cobj & home & I & EO) SP. destruct (split_var x m F) as (r & P1 & P2).
  assert (SP' : 0 < strongs c r) by (unfold strongs in *; rewrite (filter_perm _ _ _ P1) in SP; exact SP).
  pose proof (ctl_live _ _ _ _ _ _ _ I L ltac:(lia)) as Ek.
  unfold add_ref, with_ctl. rewrite Ek. cbn [c_freed Nat.eqb abind good c_ref c_weak]. split; [|cbn; apply repl_length].
  exists cobj, home. cbn. apply (rinv_perm _ _ _ _ (VRc o (Some c) :: r)); [symmetry; apply P2|].
  apply (rinv_perm _ _ _ _ _ _ _ P1) in I.
  pose proof (add_strong cobj home _ _ r _ c o _ I L EO SP' Ek) as X. cbn [c_ref c_weak] in X. exact X.
Qed.

Lemma copy_weak_good x o c m : fresh x m = true -> c < length (m_ctls m) ->
  (exists cobj home, RInv cobj home (m_objs m) (m_ctls m) (m_vars m) (m_raw m) /\ cobj c = o) ->
  0 < strongs c (m_vars m) + weaks c (m_vars m) ->
  good (length (m_vars m)) (abind (add_weak c m) (fun m => AOk (set_var x (VWk o (Some c)) m))).
Proof.
  intros F L (cobj & home & I & EO) SP. destruct (split_var x m F) as (r & P1 & P2).
  pose proof (ctl_live _ _ _ _ _ _ _ I L SP) as Ek.
  unfold add_weak, with_ctl. rewrite Ek. cbn [c_freed Nat.eqb abind good c_ref c_weak]. split; [|cbn; apply repl_length].
  exists cobj, home. cbn. apply (rinv_perm _ _ _ _ (VWk o (Some c) :: r)); [symmetry; apply P2|].
  apply (rinv_perm _ _ _ _ _ _ _ P1) in I.
  pose proof (add_weak_inv cobj home _ _ r _ c o _ I L EO Ek) as X. cbn [c_ref c_weak] in X. exact X.
Qed.

Lemma plain_set x v m : MInv m -> fresh x m = true -> plain v = true -> good (length (m_vars m)) (AOk (set_var x v m)).
Proof.
  intros I F P. destruct (fresh_spec _ _ F) as (L & E). split; [|cbn; apply repl_length].
  apply set_var_inv; auto. rewrite E. reflexivity.
Qed.

Lemma copy_good x y m : MInv m -> good (length (m_vars m)) (op_copy x y m).
Proof.
  intros I. unfold op_copy. destruct (fresh x m) eqn:F; [|exact Logic.I].
  destruct (get_var y m) as [|o [c|]|o [c|]|o] eqn:Y; try exact Logic.I.
  - destruct (get_in y m) as (IN & _); [congruence|]. rewrite Y in IN. destruct I as (cobj & home & I).
    destruct (i_rc _ _ _ _ _ _ I _ _ IN) as (L & EO).
    apply copy_strong_good; auto; [exists cobj, home; auto|].
    apply (in_pos _ _ _ IN). cbn. apply Nat.eqb_refl.
  - apply plain_set; auto.
  - destruct (get_in y m) as (IN & _); [congruence|]. rewrite Y in IN. destruct I as (cobj & home & I).
    destruct (i_wk _ _ _ _ _ _ I _ _ IN) as (L & EO).
    apply copy_weak_good; auto; [exists cobj, home; auto|].
    assert (0 < weaks c (m_vars m)); [|lia]. apply (in_pos _ _ _ IN). cbn. apply Nat.eqb_refl.
  - apply plain_set; auto.
Qed.

Definition emptied (v : var) : var := match v with VRc o _ => VRc o None | VWk o _ => VWk o None | VBox _ => VBox None | VNone => VNone end.

Lemma repl_comm {A} (l : list A) : forall x y v w, x <> y -> repl x v (repl y w l) = repl y w (repl x v l).
Proof. induction l as [|a l IH]; intros [|x] [|y] v w N; cbn; auto; try contradiction. f_equal. apply IH. lia. Qed.

Lemma move_good x y m : MInv m -> good (length (m_vars m)) (op_move x y m).
Proof.
  intros I. unfold op_move. destruct (fresh x m) eqn:F; [|exact Logic.I]. destruct (fresh_spec _ _ F) as (L & E).
  assert (G : get_var y m <> VNone -> good (length (m_vars m)) (AOk (set_var y (emptied (get_var y m)) (set_var x (get_var y m) m)))).
  { intros NN. destruct (get_in y m NN) as (_ & Ly).
    assert (N : x <> y) by (intros ->; congruence).
    pose proof (swap_inv x y m L Ly I) as S. rewrite E in S. split; [|cbn; rewrite !repl_length; reflexivity].
    replace (set_var y (emptied (get_var y m)) (set_var x (get_var y m) m))
      with (set_var y (emptied (get_var y m)) (set_var x (get_var y m) (set_var y VNone m))).
    - apply set_var_inv; auto.
      + cbn. rewrite !repl_length. exact Ly.
      + unfold get_var, set_var. cbn [m_vars]. rewrite nth_repl by (rewrite repl_length; exact L).
        replace (y =? x) with false by (symmetry; apply Nat.eqb_neq; auto). rewrite nth_repl by exact Ly. rewrite Nat.eqb_refl. reflexivity.
      + destruct (get_var y m); reflexivity.
    - unfold set_var. cbn. f_equal. rewrite (repl_comm _ x y) by exact N.
      generalize (repl x (get_var y m) (m_vars m)). clear. intros l. generalize (emptied (get_var y m)). revert y.
      induction l as [|a l IH]; intros [|y] v; cbn; auto. f_equal. apply IH. }
  destruct (get_var y m) as [|o c|o c|o] eqn:Y; [exact Logic.I| | |]; apply G; discriminate.
Qed.

(** Dropping a variable's value. *)
Lemma drop_good x m : MInv m -> good (length (m_vars m)) (op_drop x m).
Proof.
  intros I. unfold op_drop.
  destruct (Nat.lt_ge_cases x (length (m_vars m))) as [L|L].
  2: { assert (E : get_var x m = VNone) by (apply nth_overflow; exact L). rewrite E. cbn.
       replace (repl x VNone (m_vars m)) with (m_vars m); [split; [|reflexivity]|].
       - replace (set_var x VNone m) with m; [exact I|]. unfold set_var. destruct m; cbn in *. f_equal.
         revert L. clear. revert x. induction m_vars as [|a l IH]; intros [|x] L; cbn in *; auto; try lia. f_equal. apply IH. lia.
       - revert L. clear. generalize (m_vars m). intros l. revert x. induction l as [|a l IH]; intros [|x] L; cbn in *; auto; try lia. f_equal. apply IH. lia. }
  destruct (repl_perm VNone x (m_vars m) L) as (r & P1 & P2). fold (get_var x m) in P1.
  destruct (get_var x m) as [|o [c|]|o [c|]|[o|]] eqn:E; cbn [destruct_value abind];
    try (split; [apply set_var_inv; auto; rewrite E; reflexivity|cbn; apply repl_length]).
  - (* strong *)
    destruct I as (cobj & home & I). pose proof I as I0. apply (rinv_perm _ _ _ _ _ _ _ P1) in I.
    destruct (i_rc _ _ _ _ _ _ I o c) as (Lc & EO); [left; reflexivity|].
    assert (S : forall c', strongs c' (VRc o (Some c) :: r) = b01 (c =? c') + strongs c' r).
    { intros c'. unfold strongs. cbn. destruct (c =? c'); reflexivity. }
    assert (Ek : nth_error (m_ctls m) c = Some (mkCtl (1 + strongs c r) (weaks c r) 0)).
    { rewrite (ctl_live _ _ _ _ _ _ _ I Lc); rewrite S, Nat.eqb_refl; [reflexivity|cbn; lia]. }
    unfold release_ref, with_ctl. rewrite Ek. cbn [c_freed Nat.eqb c_ref Nat.add c_weak].
    set (m1 := set_ctl c _ m).
    assert (C1 : forall c' k, nth_error (m_ctls m1) c' = Some k ->
       k = mkCtl (strongs c' (VNone :: r)) (weaks c' (VNone :: r)) (b01 ((strongs c' (VNone :: r) =? 0) && (weaks c' (VNone :: r) =? 0)))).
    { intros c' k Ec. unfold m1, set_ctl in Ec. cbn [m_ctls] in Ec. rewrite nth_error_repl in Ec by exact Lc.
      destruct (Nat.eqb_spec c' c) as [->|N].
      - injection Ec as <-. reflexivity.
      - rewrite (i_ctl _ _ _ _ _ _ I c' k Ec), S. replace (c =? c') with false by (symmetry; apply Nat.eqb_neq; auto). reflexivity. }
    assert (FIN : forall objs', length objs' = length (m_objs m) ->
        (forall o' d, nth_error objs' o' = Some d -> obj_state home (VNone :: r) (m_raw m) o' d) ->
        good (length (m_vars m)) (AOk (set_var x VNone (mkMem objs' (m_ctls m1) (m_vars m) (m_raw m))))).
    { intros objs' Lo Ho. split; [|cbn; apply repl_length]. exists cobj, home. cbn.
      apply (rinv_perm _ _ _ _ (VNone :: r)); [symmetry; apply P2|].
      destruct I as [I1 I2 I3 I4 I5 I6 I7 I8]. constructor; rewrite ?Lo, ?repl_length; auto.
      - intros o' c' [X|X]; [discriminate|]. apply I1. right. exact X.
      - intros o' c' [X|X]; [discriminate|]. apply I2. right. exact X.
      - intros o' [X|X]; [discriminate|]. apply I3. right. exact X. }
    assert (OS : forall o' d, nth_error (m_objs m) o' = Some d -> home o' <> Some c -> obj_state home (VNone :: r) (m_raw m) o' d).
    { intros o' d Ed NH. pose proof (i_obj _ _ _ _ _ _ I o' d Ed) as X. unfold obj_state in *. destruct (home o') as [c'|]; [|exact X].
      rewrite S in X. replace (c =? c') with false in X by (symmetry; apply Nat.eqb_neq; congruence). exact X. }
    assert (OC : forall o' d, nth_error (m_objs m) o' = Some d -> home o' = Some c -> d = 0 /\ boxes o' r = 0 /\ o = Some o').
    { intros o' d Ed H. pose proof (i_obj _ _ _ _ _ _ I o' d Ed) as X. unfold obj_state in X. rewrite H in X.
      rewrite S, Nat.eqb_refl in X. destruct X as (X & B). split; [exact X|]. split; [exact B|].
      assert (o' < length (m_objs m)) by (apply nth_error_Some; congruence).
      destruct (i_hc _ _ _ _ _ _ I o' c H0 H) as (_ & Q). congruence. }
    destruct (Nat.eqb_spec (strongs c r) 0) as [Z|NZ].
    + destruct o as [o|].
      * destruct (i_home _ _ _ _ _ _ I c o Lc EO) as (Lo & Ho). cbn [destroy]. unfold m1 at 1. cbn [m_objs set_ctl].
        destruct (nth_error (m_objs m) o) as [d|] eqn:Ed; [|apply nth_error_None in Ed; lia].
        cbn [abind]. unfold m1 at 1 2. cbn [m_vars m_raw set_ctl]. unfold m1 in FIN. cbn [m_ctls set_ctl] in FIN.
        apply FIN; [apply repl_length|]. intros o' d' E'. rewrite nth_error_repl in E' by exact Lo.
        destruct (Nat.eqb_spec o' o) as [->|N].
        -- injection E' as <-. destruct (OC o d Ed Ho) as (-> & B & _). unfold obj_state. rewrite Ho.
           change (strongs c (VNone :: r)) with (strongs c r). rewrite Z. split; [reflexivity|exact B].
        -- apply OS; auto. intros Hc. destruct (OC o' d' E' Hc) as (_ & _ & X). congruence.
      * cbn [destroy abind]. change m1 with (mkMem (m_objs m) (m_ctls m1) (m_vars m) (m_raw m)). apply FIN; [reflexivity|].
        intros o' d Ed. apply OS; auto. intros Hc. destruct (OC o' d Ed Hc) as (_ & _ & X). discriminate.
    + cbn [abind]. change m1 with (mkMem (m_objs m) (m_ctls m1) (m_vars m) (m_raw m)). apply FIN; [reflexivity|].
      intros o' d Ed. destruct (home o') as [c'|] eqn:Hc.
      * destruct (Nat.eq_dec c' c) as [->|N]; [|apply OS; auto; congruence].
        destruct (OC o' d Ed Hc) as (-> & B & _). unfold obj_state. rewrite Hc. change (strongs c (VNone :: r)) with (strongs c r).
        split; [|exact B]. destruct (strongs c r); [lia|reflexivity].
      * apply OS; auto. congruence.
  - (* weak *)
    destruct I as (cobj & home & I). apply (rinv_perm _ _ _ _ _ _ _ P1) in I.
    destruct (i_wk _ _ _ _ _ _ I o c) as (Lc & EO); [left; reflexivity|].
    assert (W : forall c', weaks c' (VWk o (Some c) :: r) = b01 (c =? c') + weaks c' r).
    { intros c'. unfold weaks. cbn. destruct (c =? c'); reflexivity. }
    assert (Ek : nth_error (m_ctls m) c = Some (mkCtl (strongs c r) (1 + weaks c r) 0)).
    { rewrite (ctl_live _ _ _ _ _ _ _ I Lc); rewrite W, Nat.eqb_refl; [reflexivity|cbn; lia]. }
    unfold release_weak, with_ctl. rewrite Ek. cbn [c_freed Nat.eqb c_ref Nat.add c_weak abind good].
    split; [|cbn; apply repl_length]. exists cobj, home. cbn. apply (rinv_perm _ _ _ _ (VNone :: r)); [symmetry; apply P2|].
    destruct I as [I1 I2 I3 I4 I5 I6 I7 I8]. constructor; rewrite ?repl_length; auto.
    + intros o' c' [X|X]; [discriminate|]. apply I1. right. exact X.
    + intros o' c' [X|X]; [discriminate|]. apply I2. right. exact X.
    + intros o' [X|X]; [discriminate|]. apply I3. right. exact X.
    + intros c' k Ec. rewrite nth_error_repl in Ec by exact Lc. destruct (Nat.eqb_spec c' c) as [->|N].
      * injection Ec as <-. unfold b01. change (strongs c (VNone :: r)) with (strongs c r). change (weaks c (VNone :: r)) with (weaks c r).
        rewrite andb_comm. reflexivity.
      * specialize (I4 c' k Ec). rewrite W in I4. replace (c =? c') with false in I4 by (symmetry; apply Nat.eqb_neq; auto). exact I4.
  - (* box *)
    destruct I as (cobj & home & I). apply (rinv_perm _ _ _ _ _ _ _ P1) in I.
    pose proof (i_bx _ _ _ _ _ _ I o (or_introl eq_refl)) as Lo.
    assert (B : forall o', boxes o' (VBox (Some o) :: r) = b01 (o =? o') + boxes o' r).
    { intros o'. unfold boxes. cbn. destruct (o =? o'); reflexivity. }
    cbn [destroy]. destruct (nth_error (m_objs m) o) as [d|] eqn:Ed; [|apply nth_error_None in Ed; lia].
    cbn [abind good]. split; [|cbn; apply repl_length]. exists cobj, home. cbn.
    apply (rinv_perm _ _ _ _ (VNone :: r)); [symmetry; apply P2|].
    destruct I as [I1 I2 I3 I4 I5 I6 I7 I8]. constructor; rewrite ?repl_length; auto.
    + intros o' c' [X|X]; [discriminate|]. apply I1. right. exact X.
    + intros o' c' [X|X]; [discriminate|]. apply I2. right. exact X.
    + intros o' [X|X]; [discriminate|]. apply I3. right. exact X.
    + intros o' d' E'. rewrite nth_error_repl in E' by exact Lo. destruct (Nat.eqb_spec o' o) as [->|N].
      * injection E' as <-. specialize (I7 o d Ed). unfold obj_state in *. rewrite B, Nat.eqb_refl in I7. cbn [b01] in I7.
        change (boxes o (VNone :: r)) with (boxes o r).
        destruct (home o); [destruct I7; discriminate|]. destruct I7 as [(_ & _ & X)|(X & Y)]; [discriminate|]. right. split; [exact X|lia].
      * specialize (I7 o' d' E'). unfold obj_state in *. rewrite B in I7. replace (o =? o') with false in I7 by (symmetry; apply Nat.eqb_neq; auto). exact I7.
Qed.

Lemma push_inv m : MInv m -> MInv (push_slot m).
Proof.
  intros (cobj & home & I). exists cobj, home. cbn. apply (rinv_perm _ _ _ _ (VNone :: m_vars m)); [apply Permutation_cons_append|].
  destruct I as [I1 I2 I3 I4 I5 I6 I7 I8]. constructor; auto.
  - intros o c [X|X]; [discriminate|auto].
  - intros o c [X|X]; [discriminate|auto].
  - intros o [X|X]; [discriminate|auto].
Qed.

Lemma pop_inv m vs : MInv m -> m_vars m = vs ++ [VNone] -> MInv (pop_slot m) /\ m_vars (pop_slot m) = vs.
Proof.
  intros (cobj & home & I) E. assert (R : removelast (m_vars m) = vs) by (rewrite E, removelast_app by discriminate; cbn; apply app_nil_r).
  split; [|cbn; exact R]. exists cobj, home. cbn. rewrite R. rewrite E in I.
  apply (rinv_perm _ _ _ _ _ (VNone :: vs)) in I; [|symmetry; apply Permutation_cons_append].
  destruct I as [I1 I2 I3 I4 I5 I6 I7 I8]. constructor; auto.
  - intros o c X. apply I1. right. exact X.
  - intros o c X. apply I2. right. exact X.
  - intros o X. apply I3. right. exact X.
Qed.

Lemma last_none (l : list var) n : length l = S n -> nth n l VNone = VNone -> exists vs, l = vs ++ [VNone] /\ length vs = n.
Proof.
  intros L E. destruct (exists_last (l := l)) as (vs & v & ->); [intros ->; discriminate|].
  rewrite app_length in L. cbn in L. assert (length vs = n) by lia. subst n. rewrite app_nth2, Nat.sub_diag in E by lia. cbn in E. subst v.
  exists vs. auto.
Qed.

Lemma assign_good mk x y m : (forall x y m, MInv m -> good (length (m_vars m)) (mk x y m)) ->
  MInv m -> good (length (m_vars m)) (op_assign mk x y m).
Proof.
  intros M I. unfold op_assign. destruct (same_kind (get_var x m) (get_var y m)) eqn:K; [|exact Logic.I].
  destruct (x =? y); [cbn; auto|].
  assert (Lx : x < length (m_vars m)).
  { apply get_in. intros X. rewrite X in K. destruct (get_var y m); discriminate. }
  specialize (M (length (m_vars m)) y (push_slot m) (push_inv m I)).
  cbn [push_slot m_vars] in M. rewrite app_length in M. cbn [length] in M.
  destruct (mk (length (m_vars m)) y (push_slot m)) as [m1| |]; cbn [abind good] in *; [|exact Logic.I|contradiction].
  destruct M as (I1 & L1).
  assert (I2 : MInv (set_var (length (m_vars m)) (get_var x m1) (set_var x (get_var (length (m_vars m)) m1) m1))) by (apply swap_inv; auto; lia).
  set (m2 := set_var _ _ _) in *. assert (L2 : length (m_vars m2) = S (length (m_vars m))) by (unfold m2; cbn; rewrite !repl_length; lia).
  cbn [op_swap abind]. change (set_var (length (m_vars m)) (get_var x m1) (set_var x (get_var (length (m_vars m)) m1) m1)) with m2.
  pose proof (drop_good (length (m_vars m)) m2 I2) as D. unfold op_drop in *.
  destruct (destruct_value _ m2) as [m3| |]; cbn [abind good] in *; [|exact Logic.I|contradiction].
  destruct D as (I4 & L4). cbn [m_vars set_var] in L4. rewrite repl_length in L4.
  destruct (last_none (m_vars (set_var (length (m_vars m)) VNone m3)) (length (m_vars m))) as (vs & Ev & Lv).
  { cbn. rewrite repl_length. lia. }
  { cbn. rewrite nth_repl by lia. rewrite Nat.eqb_refl. reflexivity. }
  destruct (pop_inv _ vs I4 Ev) as (I5 & E5). split; [exact I5|]. rewrite E5. exact Lv.
Qed.

Lemma exec_good o m : (match o with OpCastBox _ _ => False | _ => True end) -> MInv m -> good (length (m_vars m)) (exec o m).
Proof.
  intros NC I. destruct o as [x|x|x v|x y|x y|x y|x y|x|x y|x y|x y|x|x y]; cbn [exec].
  - (* new rc *)
    destruct (fresh x m) eqn:F; [|exact Logic.I]. destruct (split_var x m F) as (r & P1 & P2).
    split; [|cbn; apply repl_length]. destruct I as (cobj & home & I). apply (rinv_perm _ _ _ _ _ _ _ P1) in I.
    destruct I as [I1 I2 I3 I4 I5 I6 I7 I8].
    set (n := length (m_objs m)) in *. set (q := length (m_ctls m)) in *.
    exists (fun c => if c =? q then Some n else cobj c), (fun o => if o =? n then Some q else home o). cbn.
    apply (rinv_perm _ _ _ _ (VRc (Some n) (Some q) :: r)); [symmetry; apply P2|].
    assert (SQ : strongs q r = 0).
    { unfold strongs. destruct (filter (is_strong q) r) as [|v l] eqn:E; [reflexivity|]. exfalso.
      assert (X : In v (filter (is_strong q) r)) by (rewrite E; left; reflexivity). apply filter_In in X. destruct X as (X & Y).
      destruct v as [|o [c|]|o [c|]|o]; try discriminate. cbn in Y. apply Nat.eqb_eq in Y. subst c.
      destruct (I1 o q (or_intror X)). unfold q in *. lia. }
    assert (WQ : weaks q r = 0).
    { unfold weaks. destruct (filter (is_weak q) r) as [|v l] eqn:E; [reflexivity|]. exfalso.
      assert (X : In v (filter (is_weak q) r)) by (rewrite E; left; reflexivity). apply filter_In in X. destruct X as (X & Y).
      destruct v as [|o [c|]|o [c|]|o]; try discriminate. cbn in Y. apply Nat.eqb_eq in Y. subst c.
      destruct (I2 o q (or_intror X)). unfold q in *. lia. }
    assert (BN : boxes n r = 0).
    { unfold boxes. destruct (filter (is_box n) r) as [|v l] eqn:E; [reflexivity|]. exfalso.
      assert (X : In v (filter (is_box n) r)) by (rewrite E; left; reflexivity). apply filter_In in X. destruct X as (X & Y).
      destruct v as [|o [c|]|o [c|]|[o|]]; try discriminate. cbn in Y. apply Nat.eqb_eq in Y. subst o.
      pose proof (I3 n (or_intror X)). unfold n in *. lia. }
    assert (S : forall c', strongs c' (VRc (Some n) (Some q) :: r) = b01 (q =? c') + strongs c' r).
    { intros c'. unfold strongs. cbn. destruct (q =? c'); reflexivity. }
    constructor.
    + rewrite app_length. cbn [length]. intros o c [X|X].
      * injection X as <- <-. rewrite Nat.eqb_refl. split; [unfold q; lia|reflexivity].
      * destruct (I1 o c (or_intror X)) as (A & B). fold q in A. split; [lia|]. replace (c =? q) with false by (symmetry; apply Nat.eqb_neq; lia). exact B.
    + rewrite app_length. cbn [length]. intros o c [X|X]; [discriminate|].
      destruct (I2 o c (or_intror X)) as (A & B). fold q in A. split; [lia|]. replace (c =? q) with false by (symmetry; apply Nat.eqb_neq; lia). exact B.
    + rewrite app_length. cbn [length]. intros o [X|X]; [discriminate|]. pose proof (I3 o (or_intror X)). lia.
    + intros c k E. rewrite S. change (weaks c (VRc (Some n) (Some q) :: r)) with (weaks c r).
      destruct (Nat.lt_ge_cases c q) as [Lc|Lc].
      * rewrite nth_error_app1 in E by exact Lc. specialize (I4 c k E). replace (q =? c) with false by (symmetry; apply Nat.eqb_neq; lia). exact I4.
      * rewrite nth_error_app2 in E by exact Lc. fold q in E. destruct (c - q) as [|z] eqn:Z; [|destruct z; discriminate].
        injection E as <-. assert (c = q) by lia. subst c. rewrite Nat.eqb_refl, SQ, WQ. reflexivity.
    + rewrite !app_length. cbn [length]. intros c o Lc E. destruct (Nat.eqb_spec c q) as [->|N].
      * injection E as <-. rewrite Nat.eqb_refl. split; [unfold n; lia|reflexivity].
      * destruct (I5 c o) as (A & B); [fold q; fold q in Lc; lia|exact E|]. fold n in A. split; [lia|].
        replace (o =? n) with false by (symmetry; apply Nat.eqb_neq; lia). exact B.
    + rewrite !app_length. cbn [length]. intros o c Lo E. destruct (Nat.eqb_spec o n) as [->|N].
      * injection E as <-. rewrite Nat.eqb_refl. split; [unfold q; lia|reflexivity].
      * destruct (I6 o c) as (A & B); [fold n; fold n in Lo; lia|exact E|]. fold q in A. split; [lia|].
        replace (c =? q) with false by (symmetry; apply Nat.eqb_neq; lia). exact B.
    + intros o d E. unfold obj_state. destruct (Nat.lt_ge_cases o n) as [Lo|Lo].
      * rewrite nth_error_app1 in E by exact Lo. specialize (I7 o d E). unfold obj_state in I7.
        replace (o =? n) with false by (symmetry; apply Nat.eqb_neq; lia).
        destruct (home o) as [c|] eqn:H; [|exact I7]. destruct (I6 o c) as (A & _); [exact Lo|exact H|]. fold q in A.
        rewrite S. replace (q =? c) with false by (symmetry; apply Nat.eqb_neq; lia). exact I7.
      * rewrite nth_error_app2 in E by exact Lo. fold n in E. destruct (o - n) as [|z] eqn:Z; [|destruct z; discriminate].
        injection E as <-. assert (o = n) by lia. subst o. rewrite Nat.eqb_refl, S, Nat.eqb_refl. split; [reflexivity|exact BN].
    + rewrite app_length. cbn [length]. intros o X. destruct (I8 o X) as (A & B). fold n in A. split; [lia|].
      replace (o =? n) with false by (symmetry; apply Nat.eqb_neq; lia). exact B.
  - (* new box *)
    destruct (fresh x m) eqn:F; [|exact Logic.I]. destruct (split_var x m F) as (r & P1 & P2).
    split; [|cbn; apply repl_length]. destruct I as (cobj & home & I). apply (rinv_perm _ _ _ _ _ _ _ P1) in I.
    destruct I as [I1 I2 I3 I4 I5 I6 I7 I8].
    set (n := length (m_objs m)) in *.
    exists cobj, (fun o => if o =? n then None else home o). cbn.
    apply (rinv_perm _ _ _ _ (VBox (Some n) :: r)); [symmetry; apply P2|].
    assert (BN : boxes n r = 0).
    { unfold boxes. destruct (filter (is_box n) r) as [|v l] eqn:E; [reflexivity|]. exfalso.
      assert (X : In v (filter (is_box n) r)) by (rewrite E; left; reflexivity). apply filter_In in X. destruct X as (X & Y).
      destruct v as [|o [c|]|o [c|]|[o|]]; try discriminate. cbn in Y. apply Nat.eqb_eq in Y. subst o.
      pose proof (I3 n (or_intror X)). unfold n in *. lia. }
    assert (B : forall o', boxes o' (VBox (Some n) :: r) = b01 (n =? o') + boxes o' r).
    { intros o'. unfold boxes. cbn. destruct (n =? o'); reflexivity. }
    constructor.
    + intros o c [X|X]; [discriminate|]. apply I1. right. exact X.
    + intros o c [X|X]; [discriminate|]. apply I2. right. exact X.
    + rewrite app_length. cbn [length]. intros o [X|X]; [injection X as <-; unfold n; lia|]. pose proof (I3 o (or_intror X)). lia.
    + intros c k E. apply (I4 c k E).
    + rewrite !app_length. cbn [length]. intros c o Lc E. destruct (I5 c o Lc E) as (A & H). fold n in A. split; [lia|].
      replace (o =? n) with false by (symmetry; apply Nat.eqb_neq; lia). exact H.
    + rewrite !app_length. cbn [length]. intros o c Lo E. destruct (Nat.eqb_spec o n) as [->|N]; [discriminate|].
      apply I6; [fold n; fold n in Lo; lia|exact E].
    + intros o d E. unfold obj_state. destruct (Nat.lt_ge_cases o n) as [Lo|Lo].
      * rewrite nth_error_app1 in E by exact Lo. specialize (I7 o d E). unfold obj_state in I7.
        replace (o =? n) with false by (symmetry; apply Nat.eqb_neq; lia).
        rewrite B. replace (n =? o) with false by (symmetry; apply Nat.eqb_neq; lia). exact I7.
      * rewrite nth_error_app2 in E by exact Lo. fold n in E. destruct (o - n) as [|z] eqn:Z; [|destruct z; discriminate].
        injection E as <-. assert (o = n) by lia. subst o. rewrite Nat.eqb_refl, B, Nat.eqb_refl, BN. right. split; [|reflexivity].
        intros X. destruct (I8 n X). unfold n in *. lia.
    + rewrite app_length. cbn [length]. intros o X. destruct (I8 o X) as (A & H). fold n in A. split; [lia|].
      replace (o =? n) with false by (symmetry; apply Nat.eqb_neq; lia). exact H.
  - destruct (fresh x m) eqn:F; [|exact Logic.I].
    destruct v as [|[o|] [c|]|[o|] [c|]|[o|]]; try exact Logic.I; apply plain_set; auto.
  - apply copy_good; exact I.
  - apply move_good; exact I.
  - apply assign_good; [exact copy_good|exact I].
  - apply assign_good; [exact move_good|exact I].
  - apply drop_good; exact I.
  - (* weak *)
    destruct (fresh x m) eqn:F; [|exact Logic.I]. destruct (get_var y m) as [|o [c|]|o [c|]|o] eqn:Y; try exact Logic.I.
    + destruct (get_in y m) as (IN & _); [congruence|]. rewrite Y in IN. destruct I as (cobj & home & I).
      destruct (i_rc _ _ _ _ _ _ I _ _ IN) as (L & EO). apply copy_weak_good; auto; [exists cobj, home; auto|].
      assert (0 < strongs c (m_vars m)); [|lia]. apply (in_pos _ _ _ IN). cbn. apply Nat.eqb_refl.
    + apply plain_set; auto.
  - (* upgrade *)
    destruct (fresh x m) eqn:F; [|exact Logic.I]. destruct (get_var y m) as [|o [c|]|o [c|]|o] eqn:Y; try exact Logic.I.
    + destruct (get_in y m) as (IN & _); [congruence|]. rewrite Y in IN. pose proof I as MI. destruct I as (cobj & home & I).
      destruct (i_wk _ _ _ _ _ _ I _ _ IN) as (L & EO).
      assert (WP : 0 < weaks c (m_vars m)) by (apply (in_pos _ _ _ IN); cbn; apply Nat.eqb_refl).
      unfold with_ctl at 1. rewrite (ctl_live _ _ _ _ _ _ _ I L) by lia. cbn [c_freed Nat.eqb c_ref].
      destruct (Nat.eqb_spec (strongs c (m_vars m)) 0) as [Z|NZ]; [apply plain_set; auto|].
      apply copy_strong_good; auto; [exists cobj, home; auto|lia].
    + apply plain_set; auto.
  - (* from box *)
    destruct (fresh x m) eqn:F; [|exact Logic.I]. destruct (get_var y m) as [|o c|o c|o] eqn:Y; try exact Logic.I.
    destruct (get_in y m) as (INy & Ly); [congruence|]. destruct (fresh_spec _ _ F) as (Lx & Ex).
    assert (N : x <> y) by (intros ->; congruence).
    split; [|cbn; rewrite !repl_length; reflexivity].
    destruct I as (cobj & home & I).
    (* contents: VNone :: VBox o :: r *)
    destruct (repl_perm VNone x (m_vars m) Lx) as (r1 & P1 & P2). fold (get_var x m) in P1. rewrite Ex in P1.
    destruct (repl_perm VNone y (repl x VNone (m_vars m))) as (r & Q1 & Q2); [rewrite repl_length; exact Ly|].
    rewrite nth_repl in Q1 by exact Lx. replace (y =? x) with false in Q1 by (symmetry; apply Nat.eqb_neq; auto). fold (get_var y m) in Q1. rewrite Y in Q1.
    set (q := length (m_ctls m)) in *. set (v := VRc o (Some q)).
    assert (PM : Permutation (m_vars m) (VBox o :: r)) by (rewrite P1, <- (P2 VNone); exact Q1).
    assert (PN : exists r', Permutation r (VNone :: r') /\ Permutation (repl y (VBox None) (repl x v (m_vars m))) (VBox None :: v :: r')).
    { destruct (repl_perm VNone x (repl y (VBox None) (m_vars m))) as (r2 & R1 & R2); [rewrite repl_length; exact Lx|].
      rewrite nth_repl in R1 by exact Ly. replace (x =? y) with false in R1 by (symmetry; apply Nat.eqb_neq; auto). fold (get_var x m) in R1. rewrite Ex in R1.
      rewrite (repl_comm _ y x) by auto. 
      destruct (repl_perm VNone y (m_vars m) Ly) as (r3 & T1 & T2). fold (get_var y m) in T1. rewrite Y in T1.
      assert (X : Permutation r r3) by (apply (Permutation_cons_inv (a := VBox o)); rewrite <- PM; exact T1).
      assert (Z : Permutation (VBox None :: r3) (VNone :: r2)) by (rewrite <- T2; exact R1).
      assert (IN2 : In VNone r3). { assert (K : In VNone (VBox None :: r3)) by (apply (Permutation_in _ (Permutation_sym Z)); left; reflexivity). destruct K as [K|K]; [discriminate|exact K]. }
      destruct (in_split _ _ IN2) as (a & b & Eab).
      exists (a ++ b). split.
      - rewrite X, Eab. symmetry. apply Permutation_middle.
      - rewrite R2. rewrite perm_swap. apply perm_skip. 
        assert (K : Permutation (VNone :: r2) (VNone :: VBox None :: a ++ b)).
        { rewrite <- Z, Eab. rewrite <- Permutation_middle. apply perm_swap. }
        apply Permutation_cons_inv in K. exact K. }
    destruct PN as (r' & PR & PF).
    apply (rinv_perm _ _ _ _ _ _ _ PM) in I.
    assert (PR' : Permutation (VBox o :: r) (VNone :: VBox o :: r')) by (rewrite PR; apply perm_swap).
    apply (rinv_perm _ _ _ _ _ _ _ PR') in I.
    destruct I as [I1 I2 I3 I4 I5 I6 I7 I8].
    assert (SQ : strongs q r' = 0).
    { unfold strongs. destruct (filter (is_strong q) r') as [|w l] eqn:E; [reflexivity|]. exfalso.
      assert (X : In w (filter (is_strong q) r')) by (rewrite E; left; reflexivity). apply filter_In in X. destruct X as (X & Z).
      destruct w as [|o' [c|]|o' [c|]|o']; try discriminate. cbn in Z. apply Nat.eqb_eq in Z. subst c.
      destruct (I1 o' q (or_intror (or_intror X))). unfold q in *. lia. }
    assert (WQ : weaks q r' = 0).
    { unfold weaks. destruct (filter (is_weak q) r') as [|w l] eqn:E; [reflexivity|]. exfalso.
      assert (X : In w (filter (is_weak q) r')) by (rewrite E; left; reflexivity). apply filter_In in X. destruct X as (X & Z).
      destruct w as [|o' [c|]|o' [c|]|o']; try discriminate. cbn in Z. apply Nat.eqb_eq in Z. subst c.
      destruct (I2 o' q (or_intror (or_intror X))). unfold q in *. lia. }
    assert (S : forall c', strongs c' (VBox None :: v :: r') = b01 (q =? c') + strongs c' r').
    { intros c'. unfold strongs, v. cbn. destruct (q =? c'); reflexivity. }
    assert (HO : forall n, o = Some n -> n < length (m_objs m) /\ home n = None /\ ~ In n (m_raw m) /\ boxes n r' = 0 /\ nth_error (m_objs m) n = Some 0).
    { intros n ->. assert (Ln : n < length (m_objs m)) by (apply I3; right; left; reflexivity). split; [exact Ln|].
      destruct (nth_error (m_objs m) n) as [d|] eqn:Ed; [|apply nth_error_None in Ed; lia].
      specialize (I7 n d Ed). unfold obj_state in I7.
      assert (B : boxes n (VNone :: VBox (Some n) :: r') = 1 + boxes n r') by (unfold boxes; cbn; rewrite Nat.eqb_refl; reflexivity). rewrite B in I7.
      destruct (home n); [destruct I7; discriminate|]. destruct I7 as [(_ & _ & X)|(X & Z)]; [discriminate|].
      split; [reflexivity|]. split; [exact X|]. split; [lia|]. f_equal. lia. }
    exists (fun c => if c =? q then o else cobj c), (fun n => match o with Some n' => if n =? n' then Some q else home n | None => home n end). cbn [set_var m_objs m_ctls m_vars m_raw].
    apply (rinv_perm _ _ _ _ (VBox None :: v :: r')); [symmetry; exact PF|].
    constructor.
    + rewrite app_length. cbn [length]. intros o' c [X|[X|X]]; [discriminate| |].
      * injection X as <- <-. rewrite Nat.eqb_refl. split; [unfold q; lia|reflexivity].
      * destruct (I1 o' c (or_intror (or_intror X))) as (A & B). fold q in A. split; [lia|]. replace (c =? q) with false by (symmetry; apply Nat.eqb_neq; lia). exact B.
    + rewrite app_length. cbn [length]. intros o' c [X|[X|X]]; [discriminate|discriminate|].
      destruct (I2 o' c (or_intror (or_intror X))) as (A & B). fold q in A. split; [lia|]. replace (c =? q) with false by (symmetry; apply Nat.eqb_neq; lia). exact B.
    + intros o' [X|[X|X]]; [discriminate|discriminate|]. apply I3. right. right. exact X.
    + intros c k E. rewrite S. change (weaks c (VBox None :: v :: r')) with (weaks c r').
      destruct (Nat.lt_ge_cases c q) as [Lc|Lc].
      * rewrite nth_error_app1 in E by exact Lc. specialize (I4 c k E). replace (q =? c) with false by (symmetry; apply Nat.eqb_neq; lia). exact I4.
      * rewrite nth_error_app2 in E by exact Lc. fold q in E. destruct (c - q) as [|z] eqn:Z; [|destruct z; discriminate].
        injection E as <-. assert (c = q) by lia. subst c. rewrite Nat.eqb_refl, SQ, WQ. reflexivity.
    + rewrite app_length. cbn [length]. intros c n Lc E. destruct (Nat.eqb_spec c q) as [->|NQ].
      * rewrite E. destruct (HO n E) as (A & _). rewrite Nat.eqb_refl. auto.
      * destruct (I5 c n) as (A & B); [fold q; fold q in Lc; lia|exact E|]. split; [exact A|].
        destruct o as [n'|]; [|exact B]. destruct (Nat.eqb_spec n n') as [->|]; [|exact B].
        destruct (HO n' eq_refl) as (_ & H & _). congruence.
    + rewrite app_length. cbn [length]. intros n c Ln E. destruct o as [n'|].
      * destruct (Nat.eqb_spec n n') as [->|NN].
        -- injection E as <-. rewrite Nat.eqb_refl. split; [unfold q; lia|reflexivity].
        -- destruct (I6 n c Ln E) as (A & B). fold q in A. split; [lia|]. replace (c =? q) with false by (symmetry; apply Nat.eqb_neq; lia). exact B.
      * destruct (I6 n c Ln E) as (A & B). fold q in A. split; [lia|]. replace (c =? q) with false by (symmetry; apply Nat.eqb_neq; lia). exact B.
    + intros n d E. pose proof (I7 n d E) as X. unfold obj_state in *.
      assert (BB : o <> Some n -> boxes n (VNone :: VBox o :: r') = boxes n r').
      { intros NO. unfold boxes. cbn. destruct o as [n'|]; [|reflexivity]. cbn. replace (n' =? n) with false by (symmetry; apply Nat.eqb_neq; congruence). reflexivity. }
      assert (OTHER : o <> Some n -> match home n with
          | Some c => d = b01 (strongs c (VBox None :: v :: r') =? 0) /\ boxes n (VBox None :: v :: r') = 0
          | None => In n (m_raw m) /\ d = 0 /\ boxes n (VBox None :: v :: r') = 0 \/ ~ In n (m_raw m) /\ d + boxes n (VBox None :: v :: r') = 1 end).
      { intros NO. rewrite BB in X by exact NO. change (boxes n (VBox None :: v :: r')) with (boxes n r').
        destruct (home n) as [c|] eqn:H; [|exact X].
        assert (Ln : n < length (m_objs m)) by (apply nth_error_Some; congruence).
        destruct (I6 n c Ln H) as (A & _). fold q in A. rewrite S. replace (q =? c) with false by (symmetry; apply Nat.eqb_neq; lia). exact X. }
      destruct o as [n'|]; [|apply OTHER; discriminate].
      destruct (Nat.eqb_spec n n') as [->|NN]; [|apply OTHER; congruence].
      destruct (HO n' eq_refl) as (_ & _ & _ & B0 & E0). rewrite E in E0. injection E0 as ->.
      rewrite S, Nat.eqb_refl. split; [reflexivity|exact B0].
    + intros n X. destruct (I8 n X) as (A & B). split; [exact A|]. destruct o as [n'|]; [|exact B].
      destruct (Nat.eqb_spec n n') as [->|]; [|exact B]. destruct (HO n' eq_refl) as (_ & _ & H & _). contradiction.
  - (* unwrap *)
    destruct (get_var x m) as [|o c|o c|[o|]] eqn:X; try exact Logic.I; [|cbn; auto].
    destruct (get_in x m) as (_ & Lx); [congruence|]. split; [|cbn; apply repl_length].
    destruct I as (cobj & home & I). exists cobj, home. cbn.
    destruct (repl_perm VNone x (m_vars m) Lx) as (r & P1 & P2). fold (get_var x m) in P1. rewrite X in P1.
    apply (rinv_perm _ _ _ _ (VBox None :: r)); [symmetry; apply P2|]. apply (rinv_perm _ _ _ _ _ _ _ P1) in I.
    destruct I as [I1 I2 I3 I4 I5 I6 I7 I8].
    assert (B : forall o', boxes o' (VBox (Some o) :: r) = b01 (o =? o') + boxes o' r).
    { intros o'. unfold boxes. cbn. destruct (o =? o'); reflexivity. }
    constructor; auto.
    + intros o' c [Y|Y]; [discriminate|]. apply I1. right. exact Y.
    + intros o' c [Y|Y]; [discriminate|]. apply I2. right. exact Y.
    + intros o' [Y|Y]; [discriminate|]. apply I3. right. exact Y.
    + intros o' d E. specialize (I7 o' d E). unfold obj_state in *. change (boxes o' (VBox None :: r)) with (boxes o' r).
      rewrite B in I7. destruct (Nat.eqb_spec o o') as [<-|N].
      * cbn [b01] in I7. destruct (home o); [destruct I7; discriminate|]. destruct I7 as [(_ & _ & Y)|(Y & Z)]; [discriminate|].
        left. split; [apply in_or_app; right; left; reflexivity|]. lia.
      * destruct (home o') as [c|]; [exact I7|]. cbn [b01 Nat.add] in I7. destruct I7 as [(Y & Z)|(Y & Z)].
        -- left. split; [apply in_or_app; left; exact Y|exact Z].
        -- right. split; [|exact Z]. intros W. apply in_app_or in W. destruct W as [W|[W|[]]]; [contradiction|congruence].
    + intros o' Y. apply in_app_or in Y. destruct Y as [Y|[<-|[]]]; [auto|].
      assert (Lo : o < length (m_objs m)) by (apply I3; left; reflexivity). split; [exact Lo|].
      destruct (nth_error (m_objs m) o) as [d|] eqn:Ed; [|apply nth_error_None in Ed; lia].
      specialize (I7 o d Ed). unfold obj_state in I7. rewrite B, Nat.eqb_refl in I7. destruct (home o); [destruct I7; discriminate|reflexivity].
  - contradiction.
Qed.

Lemma minit_inv n : MInv (minit n).
Proof.
  assert (N : forall v, In v (repeat VNone n) -> v = VNone) by (intros v; apply repeat_spec).
  exists (fun _ => None), (fun _ => None). constructor; cbn.
  - intros o c X. apply N in X. discriminate.
  - intros o c X. apply N in X. discriminate.
  - intros o X. apply N in X. discriminate.
  - intros [|c] k E; discriminate.
  - intros c o L. lia.
  - intros o c L. lia.
  - intros [|o] d E; discriminate.
  - contradiction.
Qed.

Lemma execs_good os : no_cast os -> forall m, MInv m -> good (length (m_vars m)) (execs os m).
Proof.
  induction 1 as [|o os NC F IH]; intros m I; cbn [execs]; [cbn; auto|].
  pose proof (exec_good o m NC I) as X. destruct (exec o m) as [m1| |]; cbn [abind good] in *; [|exact Logic.I|contradiction].
  destruct X as (I1 & <-). apply IH. exact I1.
Qed.

(** ** C44 *)

Lemma owners_split cobj home objs ctls vs raw o c : RInv cobj home objs ctls vs raw -> home o = Some c -> o < length objs ->
  length (filter (owns o) vs) = strongs c vs + boxes o vs.
Proof.
  intros I H L.
  assert (A : forall o' c', In (VRc o' (Some c')) vs -> o' = Some o <-> c' = c).
  { intros o' c' X. destruct (i_rc _ _ _ _ _ _ I o' c' X) as (Lc & E). destruct (i_hc _ _ _ _ _ _ I o c L H) as (_ & E2). split.
    - intros ->. destruct (i_home _ _ _ _ _ _ I c' o Lc E) as (_ & Y). congruence.
    - intros ->. congruence. }
  clear I. unfold strongs, boxes. induction vs as [|v vs IH]; [reflexivity|]. cbn.
  specialize (IH ltac:(intros o' c' X; apply A; right; exact X)).
  destruct v as [|o' [c'|]|o' [c'|]|[o'|]]; cbn; try (destruct o'; exact IH); try exact IH.
  - pose proof (A o' c' (or_introl eq_refl)) as Q. destruct o' as [o'|].
    + destruct (Nat.eqb_spec o' o) as [->|N], (Nat.eqb_spec c' c) as [->|N']; cbn; try lia; exfalso.
      * destruct Q as (Q & _). specialize (Q eq_refl). contradiction.
      * destruct Q as (_ & Q). specialize (Q eq_refl). congruence.
    + destruct (Nat.eqb_spec c' c) as [->|N']; cbn; [|exact IH]. exfalso. destruct Q as (_ & Q). specialize (Q eq_refl). discriminate.
  - destruct (o' =? o); cbn; lia.
Qed.

Lemma owners_box cobj home objs ctls vs raw o : RInv cobj home objs ctls vs raw -> home o = None ->
  length (filter (owns o) vs) = boxes o vs.
Proof.
  intros I H.
  assert (A : forall c', ~ In (VRc (Some o) (Some c')) vs).
  { intros c' X. destruct (i_rc _ _ _ _ _ _ I _ c' X) as (Lc & E). destruct (i_home _ _ _ _ _ _ I c' o Lc E) as (_ & Y). congruence. }
  clear I. unfold boxes. induction vs as [|v vs IH]; [reflexivity|]. cbn.
  specialize (IH ltac:(intros c' X; apply (A c'); right; exact X)).
  destruct v as [|o' [c'|]|o' [c'|]|[o'|]]; cbn; try (destruct o'; exact IH); try exact IH.
  - destruct o' as [o'|]; [|exact IH]. destruct (Nat.eqb_spec o' o) as [->|N]; [|exact IH]. exfalso. apply (A c'). left. reflexivity.
  - destruct (o' =? o); cbn; lia.
Qed.

(** In every history (Box, Rc and Weak mixed, without the Box cast) nothing
    undefined happens; an object has been destroyed once if no variable owns
    it and it was not unwrapped, and not at all otherwise; a control block has
    been freed once if no handle refers to it, and not at all otherwise; the
    strong count is the number of strong handles. *)
Theorem C44_rc_exact : forall n os, no_cast os ->
  execs os (minit n) <> AUndef
  /\ forall m, execs os (minit n) = AOk m ->
     (forall o d, nth_error (m_objs m) o = Some d ->
        d <= 1 /\ (d = 1 <-> owners o m = 0 /\ ~ In o (m_raw m)))
     /\ (forall c k, nth_error (m_ctls m) c = Some k ->
          c_ref k = strongs c (m_vars m) /\ c_freed k <= 1
          /\ (c_freed k = 1 <-> strongs c (m_vars m) = 0 /\ weaks c (m_vars m) = 0)).
Proof.
  intros n os NC. pose proof (execs_good os NC (minit n) (minit_inv n)) as G.
  split; [intros E; rewrite E in G; exact G|]. intros m E. rewrite E in G. destruct G as ((cobj & home & I) & _). split.
  - intros o d Ed. pose proof (i_obj _ _ _ _ _ _ I o d Ed) as X. unfold obj_state in X. unfold owners.
    assert (L : o < length (m_objs m)) by (apply nth_error_Some; congruence).
    destruct (home o) as [c|] eqn:H.
    + rewrite (owners_split _ _ _ _ _ _ _ _ I H L). destruct X as (-> & ->). rewrite Nat.add_0_r.
      split; [destruct (_ =? 0); cbn; lia|]. destruct (Nat.eqb_spec (strongs c (m_vars m)) 0) as [Z|Z]; cbn; split; intros Q; try lia.
      * split; [exact Z|]. intros R. destruct (i_raw _ _ _ _ _ _ I o R). congruence.
    + rewrite (owners_box _ _ _ _ _ _ _ I H). destruct X as [(R & -> & B)|(R & B)].
      * split; [lia|]. split; [lia|]. tauto.
      * split; [lia|]. split; [intros ->; split; [lia|exact R]|intros (Q & _); lia].
  - intros c k Ek. rewrite (i_ctl _ _ _ _ _ _ I c k Ek). cbn [c_ref c_freed]. split; [reflexivity|].
    destruct (Nat.eqb_spec (strongs c (m_vars m)) 0) as [A|A], (Nat.eqb_spec (weaks c (m_vars m)) 0) as [B|B]; cbn; (split; [lia|]); split; intros Q; try lia; auto.
Qed.
Print Assumptions C44_rc_exact.

(** Upgrading a weak handle of an object yields null iff the object was
    destroyed, and otherwise an owner of it. *)
Theorem C44_upgrade : forall n os m x y o c m', no_cast os -> execs os (minit n) = AOk m ->
  get_var y m = VWk (Some o) (Some c) -> exec (OpUpgrade x y) m = AOk m' ->
  exists d, nth_error (m_objs m) o = Some d
    /\ ((d = 1 /\ get_var x m' = VRc None None) \/ (d = 0 /\ get_var x m' = VRc (Some o) (Some c))).
Proof.
  intros n os m x y o c m' NC R Y E. pose proof (execs_good os NC (minit n) (minit_inv n)) as G. rewrite R in G. destruct G as ((cobj & home & I) & _).
  destruct (get_in y m) as (IN & _); [congruence|]. rewrite Y in IN.
  destruct (i_wk _ _ _ _ _ _ I _ _ IN) as (L & EO). destruct (i_home _ _ _ _ _ _ I c o L EO) as (Lo & H).
  assert (WP : 0 < weaks c (m_vars m)) by (apply (in_pos _ _ _ IN); cbn; apply Nat.eqb_refl).
  destruct (nth_error (m_objs m) o) as [d|] eqn:Ed; [|apply nth_error_None in Ed; lia]. exists d. split; [reflexivity|].
  pose proof (i_obj _ _ _ _ _ _ I o d Ed) as X. unfold obj_state in X. rewrite H in X. destruct X as (X & _).
  cbn [exec] in E. destruct (fresh x m) eqn:F; [|discriminate]. destruct (fresh_spec _ _ F) as (Lx & _). rewrite Y in E.
  unfold add_ref, with_ctl in E. rewrite (ctl_live _ _ _ _ _ _ _ I L) in E by lia. cbn [c_freed Nat.eqb c_ref] in E.
  destruct (Nat.eqb_spec (strongs c (m_vars m)) 0) as [Z|Z]; cbn [abind] in E; injection E as <-; unfold get_var; cbn; rewrite nth_repl by exact Lx; rewrite Nat.eqb_refl.
  - left. auto.
  - right. auto.
Qed.
Print Assumptions C44_upgrade.

(** The use count of an owning handle is the number of handles that own the object. *)
Theorem C44_count : forall n os m x o c, no_cast os -> execs os (minit n) = AOk m -> get_var x m = VRc (Some o) (Some c) -> get_cnt (get_var x m) m = Some (owners o m).
Proof.
  intros n os m x o c NC E Y. pose proof (execs_good os NC (minit n) (minit_inv n)) as G. rewrite E in G. destruct G as ((cobj & home & I) & _).
  destruct (get_in x m) as (IN & _); [congruence|]. rewrite Y in IN. destruct (i_rc _ _ _ _ _ _ I _ _ IN) as (L & EO). destruct (i_home _ _ _ _ _ _ I c o L EO) as (Lo & H).
  assert (SP : 0 < strongs c (m_vars m)) by (apply (in_pos _ _ _ IN); cbn; apply Nat.eqb_refl).
  rewrite Y. cbn [get_cnt]. rewrite (ctl_live _ _ _ _ _ _ _ I L) by lia. cbn [c_ref]. unfold owners. rewrite (owners_split _ _ _ _ _ _ _ _ I H Lo).
  destruct (nth_error (m_objs m) o) as [d|] eqn:Ed; [|apply nth_error_None in Ed; lia]. pose proof (i_obj _ _ _ _ _ _ I o d Ed) as X. unfold obj_state in X. rewrite H in X. destruct X as (_ & ->). rewrite Nat.add_0_r. reflexivity.
Qed.
Print Assumptions C44_count.

Example C44_nonvacuous :
  let os := [OpNewRc 0; OpCopy 1 0; OpWeak 2 1; OpMove 3 0; OpDrop 1; OpNewBox 4; OpFromBox 5 4; OpAssign 5 3; OpUpgrade 6 2; OpDrop 5; OpDrop 3; OpDrop 0] in
  no_cast os /\ exists m, execs os (minit 8) = AOk m
   /\ m_objs m = [0; 1] /\ get_var 6 m = VRc (Some 0) (Some 0)
   /\ exists m', execs [OpDrop 6; OpUpgrade 7 2] m = AOk m' /\ m_objs m' = [1; 1] /\ get_var 7 m' = VRc None None
   /\ m_ctls m' = [mkCtl 0 1 0; mkCtl 0 0 1].
Proof.
  cbv zeta. split; [repeat constructor|]. eexists. split; [vm_compute; reflexivity|]. split; [reflexivity|]. split; [reflexivity|].
  eexists. split; [vm_compute; reflexivity|]. repeat split.
Qed.

(** ** C48 *)

(** Without the cast every object of a box is destroyed exactly once, unless
    it was handed out by unwrap() or moved into an Rc handle that still
    exists. *)
Theorem C48_box_partial : forall n os m, no_cast os -> execs os (minit n) = AOk m ->
  (forall o, boxes o (m_vars m) <= 1)
  /\ ((forall v, In v (m_vars m) -> v = VNone) -> forall o d, nth_error (m_objs m) o = Some d -> d = if in_dec Nat.eq_dec o (m_raw m) then 0 else 1).
Proof.
  intros n os m NC E. pose proof (C44_rc_exact n os NC) as (_ & H). specialize (H m E). destruct H as (H & _).
  pose proof (execs_good os NC (minit n) (minit_inv n)) as G. rewrite E in G. destruct G as ((cobj & home & I) & _).
  split.
  - intros o. destruct (nth_error (m_objs m) o) as [d|] eqn:Ed.
    + pose proof (i_obj _ _ _ _ _ _ I o d Ed) as X. unfold obj_state in X.
      destruct (home o); [destruct X; lia|]. destruct X as [(_ & _ & X)|(_ & X)]; lia.
    + unfold boxes. destruct (filter (is_box o) (m_vars m)) as [|v l] eqn:F; [cbn; lia|]. exfalso.
      assert (X : In v (filter (is_box o) (m_vars m))) by (rewrite F; left; reflexivity). apply filter_In in X. destruct X as (X & Y).
      destruct v as [|a [b|]|a [b|]|[a|]]; try discriminate. cbn in Y. apply Nat.eqb_eq in Y. subst a.
      pose proof (i_bx _ _ _ _ _ _ I o X). apply nth_error_None in Ed. lia.
  - intros N o d Ed. destruct (H o d Ed) as (L & Q).
    assert (Z : owners o m = 0).
    { unfold owners. destruct (filter (owns o) (m_vars m)) as [|v l] eqn:F; [reflexivity|]. exfalso.
      assert (X : In v (filter (owns o) (m_vars m))) by (rewrite F; left; reflexivity). apply filter_In in X. destruct X as (X & Y).
      rewrite (N v X) in Y. discriminate. }
    destruct (in_dec Nat.eq_dec o (m_raw m)) as [R|R].
    + destruct d as [|[|d]]; [reflexivity| |lia]. destruct Q as (Q & _). destruct (Q eq_refl). contradiction.
    + apply Q. auto.
Qed.
Print Assumptions C48_box_partial.

Example C48_nonvacuous : exists m,
  execs [OpNewBox 0; OpMove 1 0; OpNewBox 2; OpMoveAssign 2 1; OpDrop 0; OpDrop 1; OpDrop 2] (minit 3) = AOk m
  /\ m_objs m = [1; 1] /\ forall v, In v (m_vars m) -> v = VNone.
Proof. eexists. split; [vm_compute; reflexivity|]. split; [reflexivity|]. cbn. intuition. Qed.

(** The full claim fails: the cast leaves the source owning the object too. *)
Theorem C48_box_refuted : exists os m, execs os (minit 2) = AOk m /\ m_objs m = [2].
Proof. exists [OpNewBox 0; OpCastBox 1 0; OpDrop 0; OpDrop 1]. eexists. split; [vm_compute; reflexivity|reflexivity]. Qed.
Print Assumptions C48_box_refuted.

(** ** C49 *)

(** A moved-from Box is null; a moved-from Rc or Weak handle has no share any
    more (use count 0; dropping it changes nothing but the variable). *)
Theorem C49_moved_from_partial : forall x y m m', exec (OpMove x y) m = AOk m' ->
  get_var x m' = get_var y m
  /\ plain (get_var y m') = true
  /\ (forall o, get_var y m = VBox o -> is_null (get_var y m') = true)
  /\ (forall o c, get_var y m = VRc o c -> get_cnt (get_var y m') m' = Some 0)
  /\ exec (OpDrop y) m' = AOk (set_var y VNone m').
Proof.
  intros x y m m' E. cbn [exec] in E. unfold op_move in E. destruct (fresh x m) eqn:F; [|discriminate].
  destruct (fresh_spec _ _ F) as (Lx & Ex).
  assert (NN : get_var y m <> VNone) by (intros X; rewrite X in E; discriminate).
  destruct (get_in y m NN) as (_ & Ly). assert (N : x <> y) by (intros ->; congruence).
  assert (G : m' = set_var y (emptied (get_var y m)) (set_var x (get_var y m) m)) by (revert E; clear; destruct (get_var y m); cbn [emptied]; congruence).
  assert (Y : get_var y m' = emptied (get_var y m)).
  { rewrite G. unfold get_var at 1. cbn. rewrite nth_repl by (rewrite repl_length; exact Ly). rewrite Nat.eqb_refl. reflexivity. }
  split; [|split; [|split; [|split]]].
  - rewrite G. unfold get_var at 1. cbn. rewrite nth_repl by (rewrite repl_length; exact Ly).
    replace (x =? y) with false by (symmetry; apply Nat.eqb_neq; exact N). rewrite nth_repl by exact Lx. rewrite Nat.eqb_refl. reflexivity.
  - rewrite Y. destruct (get_var y m); reflexivity.
  - intros o H. rewrite Y, H. reflexivity.
  - intros o c H. rewrite Y, H. reflexivity.
  - cbn [exec]. unfold op_drop. rewrite Y. destruct (get_var y m); reflexivity.
Qed.
Print Assumptions C49_moved_from_partial.

(** The full claim fails: a moved-from Rc still compares unequal to null, and
    its pointer dangles once the new owner is gone. *)
Theorem C49_moved_from_refuted : exists os m, execs os (minit 2) = AOk m
  /\ In (OpMove 1 0) os /\ is_null (get_var 0 m) = false /\ get_var 0 m = VRc (Some 0) None /\ m_objs m = [1].
Proof. exists [OpNewRc 0; OpMove 1 0; OpDrop 1]. eexists. split; [vm_compute; reflexivity|]. repeat split. right. left. reflexivity. Qed.
Print Assumptions C49_moved_from_refuted.

(** C116, C117, C118: results of ThreadCall (ResultModel). *)
From Coq Require Import Arith List Bool Lia Permutation.
From Verif Require Import ResultModel.
Import ListNotations.

(** ** Specification *)

(** Every value is destroyed at most once, as what it is, after it was made. *)
Definition destroyed_once (l : list obs) : Prop :=
  ~ In OBad l /\ forall l1 a ty l2, l = l1 ++ ODel a ty :: l2 -> In (ONew a ty) l1 /\ forall ty', ~ In (ODel a ty') l1.
(** Nothing is left. *)
Definition all_destroyed (l : list obs) : Prop := forall a ty, In (ONew a ty) l -> In (ODel a ty) l.

(** What a caller should see: results are plain contents, moving empties the source. *)
Definition answer (stopped : bool) (t : task) : got :=
  if stopped then GExc not_avail else
  match t_throw t with
  | Some e => GExc e
  | None => match rev (t_sets t) with [] => GNull | (ty, v) :: _ => GVal ty v end
  end.
Record ast := mkA { a_slots : list (option got); a_q : list (bool * task); a_stop : bool; a_gone : bool }.
Definition ast0 : ast := mkA [] [] false false.
Definition aslot (i : nat) (l : list (option got)) : option got := match nth_error l i with Some (Some r) => Some r | _ => None end.
Definition astep (e : ev) (s : ast) : option (ast * list (nat * got)) :=
  let '(mkA l q sp gone) := s in
  match e with
  | VCall sync t => if gone then None else Some (mkA l (q ++ [(sync, t)]) sp gone, [])
  | VRun => match q with
            | [] => None
            | (true, t) :: q => Some (mkA (l ++ [Some (answer sp t)]) q sp gone, [])
            | (false, t) :: q => Some (mkA l q sp gone, [])
            end
  | VStop => if gone then None else Some (mkA l q true gone, [])
  | VGone => if gone then None else Some (mkA l [] sp true, [])
  | VMake => Some (mkA (l ++ [Some GNull]) q sp gone, [])
  | VMove i => match aslot i l with Some g => Some (mkA (put i (Some GNull) l ++ [Some g]) q sp gone, []) | None => None end
  | VAssign i j => match aslot i l, aslot j l with
                   | Some _, Some g => if i =? j then Some (s, []) else Some (mkA (put i (Some g) (put j (Some GNull) l)) q sp gone, [])
                   | _, _ => None
                   end
  | VDrop i => match aslot i l with Some _ => Some (mkA (put i None l) q sp gone, []) | None => None end
  | VGet i => match aslot i l with Some g => Some (s, [(i, g)]) | None => None end
  end.
Fixpoint arun (es : list ev) (s : ast) : option (ast * list (nat * got)) :=
  match es with
  | [] => Some (s, [])
  | e :: es => match astep e s with
               | Some (s1, o1) => match arun es s1 with Some (s2, o2) => Some (s2, o1 ++ o2) | None => None end
               | None => None
               end
  end.

(** ** Ownership *)
Definition datas (rs : list res) : list nat := flat_map (fun r => match r_data r with Some a => [a] | None => [] end) rs.
Lemma datas_in rs r a : In r rs -> r_data r = Some a -> In a (datas rs).
Proof. intros I E. apply in_flat_map. exists r. rewrite E. split; [exact I|left; reflexivity]. Qed.

Record Own (rs : list res) (w : world) : Prop := {
  o_nd : NoDup (datas rs);
  o_live : forall r a, In r rs -> r_data r = Some a -> exists ty v, look a (w_heap w) = Some (ty, v) /\ r_del r = Some ty;
  o_all : forall a x, look a (w_heap w) = Some x -> In a (datas rs);
  o_next : forall a x, look a (w_heap w) = Some x -> a < w_next w;
  o_bad : ~ In OBad (w_log w);
  o_del : forall l1 a ty l2, w_log w = l1 ++ ODel a ty :: l2 -> In (ONew a ty) l1 /\ forall ty', ~ In (ODel a ty') l1;
  o_new : forall a ty, In (ONew a ty) (w_log w) -> a < w_next w /\ ((exists v, look a (w_heap w) = Some (ty, v)) \/ In (ODel a ty) (w_log w));
  o_heap : forall a ty v, look a (w_heap w) = Some (ty, v) -> In (ONew a ty) (w_log w) /\ forall ty', ~ In (ODel a ty') (w_log w) }.

Definition Same (rs : list res) (w w' : world) : Prop := forall r, In r rs -> res_get r w' = res_get r w.

Lemma datas_perm rs rs' : Permutation rs rs' -> Permutation (datas rs) (datas rs').
Proof. intros P. unfold datas. apply Permutation_flat_map. exact P. Qed.
Lemma Own_perm rs rs' w : Permutation rs rs' -> Own rs w -> Own rs' w.
Proof.
  intros P [H1 H2 H3 H4 H5 H6 H7 H8]. constructor; auto.
  - exact (Permutation_NoDup (datas_perm _ _ P) H1).
  - intros r a I. apply H2. apply (Permutation_in r (Permutation_sym P) I).
  - intros a x E. apply (Permutation_in a (datas_perm _ _ P)). eauto.
Qed.

Lemma look_app a h b x : look a (h ++ [(b, x)]) = match look a h with Some y => Some y | None => if b =? a then Some x else None end.
Proof. induction h as [|(c & y) h IH]; cbn; [reflexivity|]. destruct (c =? a); [reflexivity|exact IH]. Qed.
Lemma look_filter a b h : look a (filter (fun x => negb (fst x =? b)) h) = if a =? b then None else look a h.
Proof.
  induction h as [|(c & y) h IH]; cbn [filter look fst]; [destruct (a =? b); reflexivity|].
  destruct (Nat.eqb_spec c b) as [->|N]; cbn [negb look].
  - rewrite IH. destruct (Nat.eqb_spec a b) as [->|N2]; [reflexivity|]. destruct (Nat.eqb_spec b a); [congruence|reflexivity].
  - rewrite IH. destruct (Nat.eqb_spec c a) as [->|N2]; [|reflexivity]. destruct (Nat.eqb_spec a b); [congruence|reflexivity].
Qed.
Lemma last_split {A} (l l1 : list A) x y l2 : l ++ [x] = l1 ++ y :: l2 -> (l = l1 /\ x = y /\ l2 = []) \/ exists l3, l2 = l3 ++ [x] /\ l = l1 ++ y :: l3.
Proof.
  destruct l2 as [|z l2] using rev_ind; intros E.
  - left. apply app_inj_tail in E as (-> & ->). auto.
  - right. clear IHl2. rewrite app_comm_cons, app_assoc in E. apply app_inj_tail in E as (-> & ->). eauto.
Qed.

Lemma Own_new rs ty v w r w' : Own rs w -> res_new ty v w = (r, w') -> Own (r :: rs) w' /\ Same rs w w' /\ res_get r w' = GVal ty v.
Proof.
  intros H E. injection E as <- <-. pose proof H as [H1 H2 H3 H4 H5 H6 H7 H8].
  assert (F : look (w_next w) (w_heap w) = None) by (destruct (look (w_next w) (w_heap w)) eqn:X; [apply H4 in X; lia|reflexivity]).
  assert (NI : ~ In (w_next w) (datas rs)).
  { intros I. apply in_flat_map in I as (r & I & D). destruct (r_data r) as [a|] eqn:E; [|destruct D]. destruct D as [->|[]]. destruct (H2 r _ I E) as (? & ? & X & _). congruence. }
  split; [constructor; cbn [w_heap w_next w_log]|split].
  - cbn. constructor; auto.
  - intros r a [<-|I] E; cbn in E.
    + injection E as <-. exists ty, v. rewrite look_app, F, Nat.eqb_refl. auto.
    + destruct (H2 r a I E) as (ty' & v' & X & Y). exists ty', v'. rewrite look_app, X. auto.
  - intros a x. rewrite look_app. cbn. destruct (look a (w_heap w)) eqn:X; [intros _; right; eauto|]. destruct (Nat.eqb_spec (w_next w) a); [auto|discriminate].
  - intros a x. rewrite look_app. destruct (look a (w_heap w)) eqn:X; [intros _; apply H4 in X; lia|]. destruct (Nat.eqb_spec (w_next w) a); [lia|discriminate].
  - intros I. apply in_app_or in I as [I|[I|[]]]; [auto|discriminate].
  - intros l1 a ty' l2 E. apply last_split in E as [(_ & E & _)|(l3 & _ & E)]; [discriminate|exact (H6 _ _ _ _ E)].
  - intros a ty' I. rewrite look_app. apply in_app_or in I as [I|[I|[]]].
    + destruct (H7 a ty' I) as (L & [(v' & X)|X]); (split; [lia|]); [left; exists v'; rewrite X; reflexivity|right; apply in_or_app; auto].
    + injection I as <- <-. split; [lia|]. left. exists v. rewrite F, Nat.eqb_refl. reflexivity.
  - intros a ty' v' X. rewrite look_app in X. destruct (look a (w_heap w)) eqn:Y.
    + injection X as ->. destruct (H8 _ _ _ Y) as (Z1 & Z2). split; [apply in_or_app; auto|]. intros t I. apply in_app_or in I as [I|[I|[]]]; [exact (Z2 t I)|discriminate].
    + destruct (Nat.eqb_spec (w_next w) a) as [<-|]; [|discriminate]. injection X as <- <-. split; [apply in_or_app; right; left; reflexivity|].
      intros t I. apply in_app_or in I as [I|[I|[]]]; [|discriminate]. apply in_split in I as (l1 & l2 & I). destruct (H6 _ _ _ _ I) as (Z & _).
      assert (Z' : In (ONew (w_next w) t) (w_log w)) by (rewrite I; apply in_or_app; auto). apply H7 in Z' as (Z' & _). lia.
  - intros r I. unfold res_get. destruct (r_err r); [reflexivity|]. destruct (r_data r) as [a|] eqn:E; [|reflexivity]. cbn [w_heap]. rewrite look_app.
    destruct (H2 r a I E) as (? & ? & X & _). rewrite X. reflexivity.
  - unfold res_get. cbn. rewrite look_app, F, Nat.eqb_refl. reflexivity.
Qed.

Lemma Own_destroy r rs w : Own (r :: rs) w -> Own rs (res_destroy r w) /\ Same rs w (res_destroy r w).
Proof.
  intros H. pose proof H as [H1 H2 H3 H4 H5 H6 H7 H8]. unfold res_destroy. destruct (r_data r) as [a|] eqn:E.
  2: { split; [|intros ? ?; reflexivity]. cbn in H1, H3. rewrite E in H1, H3. constructor; auto. intros r' a I. apply H2. right. exact I. }
  destruct (H2 r a (or_introl eq_refl) E) as (ty & v & X & Y). rewrite Y, X, Nat.eqb_refl.
  cbn in H1, H3. rewrite E in H1, H3. cbn in H1, H3. inversion H1 as [|? ? N1 N2]; subst.
  assert (NE : forall r' a', In r' rs -> r_data r' = Some a' -> a' <> a) by (intros r' a' I D ->; apply N1; exact (datas_in _ _ _ I D)).
  split; [constructor; cbn [w_heap w_next w_log]|].
  - exact N2.
  - intros r' a' I D. destruct (H2 r' a' (or_intror I) D) as (ty' & v' & X' & Y'). exists ty', v'. rewrite look_filter. destruct (Nat.eqb_spec a' a); [destruct (NE _ _ I D); auto|auto].
  - intros a' x. rewrite look_filter. destruct (Nat.eqb_spec a' a); [discriminate|]. intros Z. destruct (H3 _ _ Z); [congruence|assumption].
  - intros a' x. rewrite look_filter. destruct (a' =? a); [discriminate|]. apply H4.
  - intros I. apply in_app_or in I as [I|[I|[]]]; [auto|discriminate].
  - intros l1 a' ty' l2 Z. apply last_split in Z as [(<- & Z & _)|(l3 & _ & Z)]; [|exact (H6 _ _ _ _ Z)]. injection Z as <- <-. exact (H8 _ _ _ X).
  - intros a' ty' I. apply in_app_or in I as [I|[I|[]]]; [|discriminate]. destruct (H7 _ _ I) as (L & Z). split; [exact L|]. rewrite look_filter. destruct (Nat.eqb_spec a' a) as [->|].
    + right. destruct Z as [(v' & Z)|Z]; [|apply in_or_app; auto]. apply in_or_app. right. left. congruence.
    + destruct Z as [Z|Z]; [left; exact Z|right; apply in_or_app; auto].
  - intros a' ty' v' Z. rewrite look_filter in Z. destruct (Nat.eqb_spec a' a); [discriminate|]. destruct (H8 _ _ _ Z) as (Z1 & Z2). split; [apply in_or_app; auto|].
    intros t I. apply in_app_or in I as [I|[I|[]]]; [exact (Z2 t I)|congruence].
  - intros r' I. unfold res_get. destruct (r_err r'); [reflexivity|]. destruct (r_data r') as [a'|] eqn:D; [|reflexivity]. cbn [w_heap]. rewrite look_filter.
    destruct (Nat.eqb_spec a' a); [destruct (NE _ _ I D); auto|reflexivity].
Qed.

(** Only data and deleter matter. *)
Lemma Own_null rs r w : r_data r = None -> Own rs w <-> Own (r :: rs) w.
Proof.
  intros E. split; intros [H1 H2 H3 H4 H5 H6 H7 H8]; constructor; auto; cbn in *; rewrite ?E in *; auto.
  intros r' a [<-|I]; [congruence|apply H2; exact I].
Qed.
Lemma Own_err r r' rs w : r_data r = r_data r' -> r_del r = r_del r' -> Own (r :: rs) w -> Own (r' :: rs) w.
Proof.
  intros E1 E2 [H1 H2 H3 H4 H5 H6 H7 H8]; constructor; auto; cbn in *; rewrite <- ?E1; auto.
  intros x a [<-|I]; [rewrite <- E1, <- E2; apply H2; left; reflexivity|apply H2; right; exact I].
Qed.

Section J.
Variable junk : nat -> option nat.
Notation res_move := (res_move junk). Notation res_assign := (res_assign junk). Notation set_result := (set_result junk).

Lemma Own_moved rs w : Own rs w -> Own rs (mkW (w_heap w) (w_next w) (S (w_moved w)) (w_log w)).
Proof. intros [H1 H2 H3 H4 H5 H6 H7 H8]; constructor; auto. Qed.
Lemma get_data r r' w w' : r_data r = r_data r' -> r_err r = r_err r' -> w_heap w = w_heap w' -> res_get r w = res_get r' w'.
Proof. intros E1 E2 E3. unfold res_get. rewrite E1, E2, E3. reflexivity. Qed.

Lemma Own_move o rs w n o' w' : Own (o :: rs) w -> res_move o w = (n, o', w') ->
  Own (n :: o' :: rs) w' /\ Same rs w w' /\ res_get n w' = res_get o w /\ res_get o' w' = GNull /\ r_data o' = None.
Proof.
  intros H E. injection E as <- <- <-. split; [|repeat split].
  apply (Own_perm (mkR None None (junk (w_moved w)) :: mkR (r_data o) (r_err o) (r_del o) :: rs)); [apply perm_swap|].
  apply Own_null; [reflexivity|]. apply Own_moved. apply (Own_err o); auto.
Qed.

Lemma Own_assign a b rs w a' b' w' : Own (a :: b :: rs) w -> res_assign a b w = (a', b', w') ->
  Own (a' :: b' :: rs) w' /\ Same rs w w' /\ res_get a' w' = res_get b w /\ res_get b' w' = GNull /\ r_data b' = None.
Proof.
  intros H E. unfold ResultModel.res_assign in E. destruct (ResultModel.res_move junk b w) as ((tmp & o) & w1) eqn:M. injection E as <- <- <-.
  assert (H' : Own (b :: a :: rs) w) by (apply (Own_perm (a :: b :: rs)); [apply perm_swap|exact H]).
  destruct (Own_move _ _ _ _ _ _ H' M) as (O1 & S1 & G1 & G2 & D1).
  assert (O2 : Own (a :: tmp :: o :: rs) w1) by (apply (Own_perm (tmp :: o :: a :: rs)); [change (Permutation ([tmp; o] ++ a :: rs) (a :: [tmp; o] ++ rs)); apply Permutation_sym, Permutation_middle|exact O1]).
  destruct (Own_destroy _ _ _ O2) as (O3 & S3). split; [exact O3|]. split; [|split; [|split]].
  - intros r I. rewrite S3 by (right; right; exact I). apply S1. right. exact I.
  - rewrite S3 by (left; reflexivity). exact G1.
  - rewrite S3 by (right; left; reflexivity). exact G2.
  - exact D1.
Qed.

Lemma Own_set ty v r rs w r' w' : Own (r :: rs) w -> set_result ty v r w = (r', w') -> Own (r' :: rs) w' /\ Same rs w w' /\ res_get r' w' = GVal ty v /\ r_err r' = None.
Proof.
  intros H E. unfold ResultModel.set_result in E. destruct (res_new ty v w) as (t & w1) eqn:N. destruct (ResultModel.res_assign junk r t w1) as ((r1 & t1) & w2) eqn:M. injection E as <- <-.
  destruct (Own_new _ _ _ _ _ _ H N) as (O1 & S1 & G1).
  assert (O1' : Own (r :: t :: rs) w1) by (apply (Own_perm (t :: r :: rs)); [apply perm_swap|exact O1]).
  destruct (Own_assign _ _ _ _ _ _ _ O1' M) as (O2 & S2 & G2 & G3 & D2).
  assert (O2' : Own (t1 :: r1 :: rs) w2) by (apply (Own_perm (r1 :: t1 :: rs)); [apply perm_swap|exact O2]).
  destruct (Own_destroy _ _ _ O2') as (O3 & S3). split; [exact O3|]. split; [|split].
  - intros x I. rewrite S3 by (right; exact I). rewrite S2 by exact I. apply S1. right. exact I.
  - rewrite S3 by (left; reflexivity). congruence.
  - injection N as <- <-. cbn in M. injection M as <- _ _. reflexivity.
Qed.

Lemma Own_callback sets : forall r rs w r' w', Own (r :: rs) w -> callback junk sets r w = (r', w') ->
  Own (r' :: rs) w' /\ Same rs w w' /\ res_get r' w' = match rev sets with [] => res_get r w | (ty, v) :: _ => GVal ty v end.
Proof.
  induction sets as [|(ty & v) sets IH]; intros r rs w r' w' H E; cbn [callback] in E.
  - injection E as <- <-. split; [exact H|]. split; [intros ? ?; reflexivity|reflexivity].
  - destruct (ResultModel.set_result junk ty v r w) as (r1 & w1) eqn:S. destruct (Own_set _ _ _ _ _ _ _ H S) as (O1 & S1 & G1 & _).
    destruct (IH _ _ _ _ _ O1 E) as (O2 & S2 & G2). split; [exact O2|]. split; [intros x I; rewrite S2 by exact I; apply S1; exact I|].
    rewrite G2. cbn [rev]. destruct (rev sets) as [|(ty' & v') l]; [exact G1|reflexivity].
Qed.

Lemma Own_exec sp sync t rs w r w' : Own rs w -> exec junk sp sync t w = (r, w') ->
  Same rs w w' /\ match r with Some r => sync = true /\ Own (r :: rs) w' /\ res_get r w' = answer sp t | None => sync = false /\ Own rs w' end.
Proof.
  intros H E. unfold exec in E.
  destruct (if sp then (res0, Some not_avail, w) else let '(r, w0) := callback junk (t_sets t) res0 w in (r, t_throw t, w0)) as ((r1 & exc) & w1) eqn:E1.
  assert (P1 : Own (r1 :: rs) w1 /\ Same rs w w1 /\ match exc with Some e => answer sp t = GExc e | None => res_get r1 w1 = answer sp t end).
  { destruct sp.
    - injection E1 as <- <- <-. split; [apply Own_null; auto|]. split; [intros ? ?; reflexivity|reflexivity].
    - destruct (callback junk (t_sets t) res0 w) as (r2 & w2) eqn:C. injection E1 as <- <- <-.
      destruct (Own_callback _ _ rs _ _ _ (proj1 (Own_null rs res0 w eq_refl) H) C) as (O2 & S2 & G2). split; [exact O2|]. split; [exact S2|]. unfold answer.
      destruct (t_throw t); [reflexivity|]. rewrite G2. destruct (rev (t_sets t)) as [|(? & ?) ?]; reflexivity. }
  clear E1. destruct P1 as (O1 & S1 & G1).
  destruct (match exc with Some e => let '(r, w0) := set_result t_int 0 r1 w1 in (mkR (r_data r) (Some e) (r_del r), w0) | None => (r1, w1) end) as (r2 & w2) eqn:E2.
  assert (P2 : Own (r2 :: rs) w2 /\ Same rs w w2 /\ res_get r2 w2 = answer sp t).
  { destruct exc as [e|].
    - destruct (ResultModel.set_result junk t_int 0 r1 w1) as (r3 & w3) eqn:C. injection E2 as <- <-. destruct (Own_set _ _ _ _ _ _ _ O1 C) as (O3 & S3 & _ & _).
      split; [apply (Own_err r3); auto|]. split; [intros x I; rewrite S3 by exact I; apply S1; exact I|]. rewrite G1. reflexivity.
    - injection E2 as <- <-. auto. }
  clear E2 O1 S1 G1. destruct P2 as (O2 & S2 & G2). destruct sync.
  - destruct (ResultModel.res_assign junk res0 r2 w2) as ((n & r3) & w3) eqn:A1. destruct (ResultModel.res_move junk n (res_destroy r3 w3)) as ((ret & n') & w4) eqn:M. injection E as <- <-.
    destruct (Own_assign _ _ _ _ _ _ _ (proj1 (Own_null _ res0 _ eq_refl) O2) A1) as (O3 & S3 & G3 & _ & _).
    assert (O3' : Own (r3 :: n :: rs) w3) by (apply (Own_perm (n :: r3 :: rs)); [apply perm_swap|exact O3]). destruct (Own_destroy _ _ _ O3') as (O4 & S4).
    destruct (Own_move _ _ _ _ _ _ O4 M) as (O5 & S5 & G5 & _ & _).
    assert (O5' : Own (n' :: ret :: rs) w4) by (apply (Own_perm (ret :: n' :: rs)); [apply perm_swap|exact O5]). destruct (Own_destroy _ _ _ O5') as (O6 & S6).
    split; [|split; [reflexivity|split; [exact O6|]]].
    + intros x I. rewrite S6 by (right; exact I). rewrite S5 by exact I. rewrite S4 by (right; exact I). rewrite S3 by exact I. apply S2. exact I.
    + rewrite S6 by (left; reflexivity). rewrite G5, S4 by (left; reflexivity). congruence.
  - injection E as <- <-. destruct (Own_destroy _ _ _ O2) as (O3 & S3). split; [|split; [reflexivity|exact O3]]. intros x I. rewrite S3 by exact I. apply S2. exact I.
Qed.

(** ** Slots *)
Definition held (l : list (option res)) : list res := flat_map (fun x => match x with Some r => [r] | None => [] end) l.
Definition view (w : world) (l : list (option res)) : list (option got) := map (option_map (fun r => res_get r w)) l.
Lemma held_app l m : held (l ++ m) = held l ++ held m.
Proof. unfold held. apply flat_map_app. Qed.
Lemma held_slot i l r : slot i l = Some r -> exists rest, Permutation (held l) (r :: rest) /\ (forall r', Permutation (held (put i (Some r') l)) (r' :: rest)) /\ Permutation (held (put i None l)) rest.
Proof.
  unfold slot. revert i. induction l as [|x l IH]; intros [|i] E; cbn in E; try discriminate.
  - destruct x as [x|]; [|discriminate]. injection E as ->. exists (held l). cbn. split; [apply Permutation_refl|]. split; [intros; apply Permutation_refl|apply Permutation_refl].
  - destruct (IH i E) as (rest & P1 & P2 & P3). exists (match x with Some y => [y] | None => [] end ++ rest). cbn [put]. change (held (x :: l)) with (match x with Some y => [y] | None => [] end ++ held l). split; [|split].
    + eapply perm_trans; [apply Permutation_app_head; exact P1|apply Permutation_sym, Permutation_middle].
    + intros r'. change (held (x :: put i (Some r') l)) with (match x with Some y => [y] | None => [] end ++ held (put i (Some r') l)). eapply perm_trans; [apply Permutation_app_head; apply P2|apply Permutation_sym, Permutation_middle].
    + change (held (x :: put i None l)) with (match x with Some y => [y] | None => [] end ++ held (put i None l)). apply Permutation_app_head. exact P3.
Qed.
Lemma slot_put_other {A} i j (x : A) l : i <> j -> nth_error (put i x l) j = nth_error l j.
Proof. revert i j. induction l as [|y l IH]; intros [|i] [|j] N; cbn; auto; try congruence. all: apply IH; congruence. Qed.
Lemma view_put w i x l : view w (put i x l) = put i (option_map (fun r => res_get r w) x) (view w l).
Proof. unfold view. revert i. induction l as [|y l IH]; intros [|i]; cbn; auto. f_equal. apply IH. Qed.
Lemma view_app w l m : view w (l ++ m) = view w l ++ view w m.
Proof. apply map_app. Qed.
Lemma view_slot w i l : aslot i (view w l) = option_map (fun r => res_get r w) (slot i l).
Proof. unfold aslot, slot, view. rewrite nth_error_map. destruct (nth_error l i) as [[r|]|]; reflexivity. Qed.
Lemma view_same w w' l : Same (held l) w w' -> view w' l = view w l.
Proof. unfold view. intros S. induction l as [|[x|] l IH]; cbn in *; auto; f_equal; try (f_equal; apply S; left; reflexivity); apply IH; intros r I; apply S; try right; exact I. Qed.
(** Slots outside [i] keep what they show. *)
Lemma view_upto w w' i y l r rest : slot i l = Some r -> Permutation (held (put i None l)) rest -> Same rest w w' -> put i y (view w' l) = put i y (view w l).
Proof.
  intros SL P S. assert (S' : Same (held (put i None l)) w w') by (intros x I; apply S; apply (Permutation_in _ P I)).
  pose proof (view_same _ _ _ S') as V. rewrite !view_put in V. cbn [option_map] in V.
  assert (PP : forall m : list (option got), put i y (put i None m) = put i y m) by (clear; intros m; revert i; induction m; destruct i; cbn; intros; auto; f_equal; auto).
  rewrite <- (PP (view w' l)), <- (PP (view w l)), V. reflexivity.
Qed.

Definition abs (s : st) : ast := mkA (view (s_w s) (s_slots s)) (s_q s) (s_stop s) (s_gone s).

Lemma step_sim e s s' o : Own (held (s_slots s)) (s_w s) -> step junk e s = Some (s', o) -> Own (held (s_slots s')) (s_w s') /\ astep e (abs s) = Some (abs s', o).
Proof.
  intros H X. destruct s as [l q sp gone w]. unfold abs. cbn [s_slots s_w s_q s_stop s_gone] in *. destruct e as [sync t| | | | |i|i j|i|i]; cbn [step astep] in X |- *.
  - destruct gone; [discriminate|]. injection X as <- <-. auto.
  - destruct q as [|(sync & t) q]; [discriminate|]. destruct (exec junk sp sync t w) as (r & w') eqn:E. injection X as <- <-. destruct (Own_exec _ _ _ _ _ _ _ H E) as (S1 & K). cbn [s_slots s_w s_q s_stop s_gone].
    destruct r as [r|]; destruct K as (-> & K).
    + destruct K as (K & G). split; [apply (Own_perm (r :: held l)); [rewrite held_app; apply Permutation_cons_append|exact K]|]. rewrite view_app, (view_same _ _ _ S1). cbn. rewrite G. reflexivity.
    + split; [exact K|]. rewrite (view_same _ _ _ S1). reflexivity.
  - destruct gone; [discriminate|]. injection X as <- <-. auto.
  - destruct gone; [discriminate|]. injection X as <- <-. auto.
  - injection X as <- <-. cbn [s_slots s_w s_q s_stop s_gone]. split; [|rewrite view_app; reflexivity]. apply (Own_perm (res0 :: held l)); [rewrite held_app; apply Permutation_cons_append|]. apply Own_null; auto.
  - rewrite view_slot. destruct (slot i l) as [r|] eqn:SL; [|discriminate]. cbn [option_map]. destruct (ResultModel.res_move junk r w) as ((n & r') & w') eqn:M. injection X as <- <-. cbn [s_slots s_w s_q s_stop s_gone].
    destruct (held_slot _ _ _ SL) as (rest & P1 & P2 & P3). destruct (Own_move _ _ _ _ _ _ (Own_perm _ _ _ P1 H) M) as (O1 & S1 & G1 & G2 & _). split.
    + apply (Own_perm (n :: r' :: rest)); [|exact O1]. rewrite held_app. cbn [held flat_map app]. eapply perm_trans; [|apply Permutation_cons_append]. apply perm_skip, Permutation_sym, P2.
    + rewrite view_app, view_put. cbn [view map option_map]. rewrite G1, G2, (view_upto w w' i _ l r rest SL P3 S1). reflexivity.
  - rewrite !view_slot. destruct (slot i l) as [a|] eqn:SI; [|discriminate]. destruct (slot j l) as [b|] eqn:SJ; [|discriminate]. cbn [option_map]. destruct (Nat.eqb_spec i j) as [->|N]; [injection X as <- <-; auto|].
    destruct (ResultModel.res_assign junk a b w) as ((a' & b') & w') eqn:M. injection X as <- <-. cbn [s_slots s_w s_q s_stop s_gone].
    destruct (held_slot _ _ _ SJ) as (rj & Q1 & Q2 & Q3).
    assert (SI' : forall y, slot i (put j y l) = Some a) by (intros y; unfold slot; rewrite slot_put_other by auto; exact SI).
    destruct (held_slot _ _ _ (SI' None)) as (rest & P1 & P2 & P3).
    assert (PR : Permutation rj (a :: rest)) by (eapply perm_trans; [apply Permutation_sym; exact Q3|exact P1]).
    assert (O0 : Own (a :: b :: rest) w) by (apply (Own_perm (held l)); [eapply perm_trans; [exact Q1|]; eapply perm_trans; [apply perm_skip; exact PR|apply perm_swap]|exact H]).
    destruct (Own_assign _ _ _ _ _ _ _ O0 M) as (O1 & S1 & G1 & G2 & _).
    assert (SJ' : forall y, slot j (put i y l) = Some b) by (intros y; unfold slot; rewrite slot_put_other by auto; exact SJ).
    assert (CM : forall (A : Type) (x y : A) m, put i x (put j y m) = put j y (put i x m)) by (clear -N; intros A x y m; revert i j N; induction m as [|z m IH]; intros [|i] [|j] N; cbn; auto; try congruence; f_equal; apply IH; congruence).
    assert (PF : Permutation (held (put i (Some a') (put j (Some b') l))) (a' :: b' :: rest)).
    { destruct (held_slot _ _ _ (SI' (Some b'))) as (r2 & R1 & R2 & R3). eapply perm_trans; [apply R2|]. apply perm_skip.
      apply (Permutation_cons_inv (a := a)). eapply perm_trans; [apply Permutation_sym; exact R1|]. eapply perm_trans; [apply Q2|]. eapply perm_trans; [apply perm_skip; exact PR|apply perm_swap]. }
    split; [apply (Own_perm (a' :: b' :: rest)); [apply Permutation_sym; exact PF|exact O1]|].
    rewrite !view_put. cbn [option_map]. rewrite G1, G2. do 2 f_equal. f_equal.
    assert (S' : Same (held (put i None (put j None l))) w w') by (intros x I; apply S1; apply (Permutation_in _ P3 I)).
    pose proof (view_same _ _ _ S') as V. rewrite !view_put in V. cbn [option_map] in V.
    assert (PP : forall k (y : option got) m, put k y (put k None m) = put k y m) by (clear; intros k y m; revert k; induction m; destruct k; cbn; auto; f_equal; auto).
    assert (EX : forall m, put i (Some (res_get b w)) (put j (Some GNull) m) = put i (Some (res_get b w)) (put j (Some GNull) (put i None (put j None m)))).
    { intros m. rewrite (CM _ None None m). rewrite (PP j (Some GNull) (put i None m)). rewrite <- (CM _ None (Some GNull) m). rewrite PP. reflexivity. }
    rewrite (EX (view w l)), (EX (view w' l)), V. reflexivity.
  - rewrite view_slot. destruct (slot i l) as [r|] eqn:SL; [|discriminate]. cbn [option_map]. injection X as <- <-. cbn [s_slots s_w s_q s_stop s_gone].
    destruct (held_slot _ _ _ SL) as (rest & P1 & P2 & P3). destruct (Own_destroy _ _ _ (Own_perm _ _ _ P1 H)) as (O1 & S1). split; [apply (Own_perm rest); [apply Permutation_sym; exact P3|exact O1]|].
    rewrite view_put. cbn [option_map]. rewrite (view_upto w _ i None l r rest SL P3 S1). reflexivity.
  - rewrite view_slot. destruct (slot i l) as [r|] eqn:SL; [|discriminate]. cbn [option_map]. injection X as <- <-. auto.
Qed.

Lemma run_sim es : forall s s' o, Own (held (s_slots s)) (s_w s) -> run junk es s = Some (s', o) -> Own (held (s_slots s')) (s_w s') /\ arun es (abs s) = Some (abs s', o).
Proof.
  induction es as [|e es IH]; intros s s' o H X; cbn [run arun] in *; [injection X as <- <-; auto|].
  destruct (step junk e s) as [(s1 & o1)|] eqn:E; [|discriminate]. destruct (run junk es s1) as [(s2 & o2)|] eqn:E2; [|discriminate]. injection X as <- <-.
  destruct (step_sim _ _ _ _ H E) as (H1 & A1). destruct (IH _ _ _ H1 E2) as (H2 & A2). rewrite A1, A2. auto.
Qed.
End J.

Lemma Own0 : Own (held (s_slots st0)) (s_w st0).
Proof. constructor; cbn; try (intros; discriminate); try (intros; contradiction); auto; [constructor|]. intros l1 a ty l2 E. destruct l1; discriminate. Qed.

(** ** C116 *)
Theorem C116_destroyed : forall junk es s o, run junk es st0 = Some (s, o) ->
  destroyed_once (w_log (s_w s)) /\ ((forall i, slot i (s_slots s) = None) -> all_destroyed (w_log (s_w s))).
Proof.
  intros junk es s o X. destruct (run_sim _ _ _ _ _ Own0 X) as (H & _). split; [split; [exact (o_bad _ _ H)|exact (o_del _ _ H)]|].
  intros N a ty I. destruct (o_new _ _ H a ty I) as (_ & [(v & L)|D]); [|exact D]. exfalso. apply (o_all _ _ H) in L.
  apply in_flat_map in L as (r & I1 & _). apply in_flat_map in I1 as (x & I1 & I2). destruct x as [x|]; [|destruct I2]. destruct (In_nth_error _ _ I1) as (i & E). specialize (N i). unfold slot in N. rewrite E in N. discriminate.
Qed.
Print Assumptions C116_destroyed.

(** ** C117 *)
Theorem C117_contents : forall junk es s o, run junk es st0 = Some (s, o) -> exists a, arun es ast0 = Some (a, o).
Proof. intros junk es s o X. destruct (run_sim _ _ _ _ _ Own0 X) as (_ & H). exists (abs s). exact H. Qed.
Print Assumptions C117_contents.

Definition demo : list ev :=
  [VCall true (mkTask [(1, 10); (2, 20)] None); VCall true (mkTask [(3, 30)] (Some 7)); VCall false (mkTask [(4, 40)] None); VRun; VRun; VRun;
   VGet 0; VGet 1; VMove 0; VGet 0; VGet 2; VAssign 2 1; VGet 2; VGet 1; VAssign 2 2; VStop; VCall true (mkTask [(5, 50)] None); VRun; VGet 3; VGone; VDrop 0; VDrop 1; VDrop 2; VDrop 3].
Example C116_nonvacuous : exists s, run (fun n => Some (n + 100)) demo st0 = Some (s, [(0, GVal 2 20); (1, GExc 7); (0, GNull); (2, GVal 2 20); (2, GExc 7); (1, GNull); (3, GExc not_avail)])
  /\ (forall i, slot i (s_slots s) = None) /\ length (w_log (s_w s)) = 12.
Proof. eexists. split; [vm_compute; reflexivity|]. split; [intros [|[|[|[|[|i]]]]]; reflexivity|reflexivity]. Qed.
Example C117_nonvacuous : exists s o, run (fun _ => None) demo st0 = Some (s, o) /\ length o = 7.
Proof. eexists. eexists. split; [vm_compute; reflexivity|reflexivity]. Qed.

(** ** C118: the handshake *)
Definition HI (v : nat) (s : hs) : Prop :=
  (w_has (h_w s) = true -> n_has (h_n s) = false) /\
  (h_ready s = true <-> match h_n s with NStart | NLocked => False | _ => True end) /\
  match h_w s with
  | WGone => h_n s = NOut /\ h_ret s = Some (Some v)
  | WSleep => h_ret s = None /\ match h_n s with NTold | NOut => False | _ => True end
  | _ => h_ret s = None
  end /\
  (h_w s <> WGone -> h_data s = match h_n s with NData | NTold | NOut => Some v | _ => None end) /\ h_bad s = false.
Lemma HI_step v e s s' : HI v s -> hstep v e s = Some s' -> HI v s'.
Proof.
  destruct s as [w n rd d ret bad]. unfold HI. cbn [h_w h_n h_ready h_data h_ret h_bad]. intros (H1 & H2 & H3 & H4 & H5) X.
  destruct e; cbn [hstep] in X; destruct w, n; cbn [w_has n_has] in *; try discriminate X; destruct rd; try discriminate X; try (injection X as <-); cbn [h_w h_n h_ready h_data h_ret h_bad w_has n_has].
  all: try (assert (HX : False) by (apply H2; reflexivity); contradiction).
  all: try (assert (HX : false = true) by (apply H2; exact I); discriminate HX).
  all: try (specialize (H1 eq_refl); discriminate H1).
  all: try (destruct H3 as (H3 & H3'); try contradiction; try discriminate).
  all: try (specialize (H4 ltac:(discriminate))); subst.
  all: intuition (try congruence; try discriminate).
Qed.
Lemma HI_run v es : forall s s', HI v s -> hrun v es s = Some s' -> HI v s'.
Proof. induction es as [|e es IH]; intros s s' H X; cbn in X; [injection X as <-; exact H|]. destruct (hstep v e s) eqn:E; [|discriminate]. eapply IH; [eapply HI_step; eauto|exact X]. Qed.
Lemma HI0 v : HI v hs0.
Proof. unfold HI. cbn. intuition (try discriminate). Qed.

(** What the caller returns with is what was given to notify, and notify does
    not touch the notifier once the caller has returned. *)
Theorem C118_returned : forall v es s, hrun v es hs0 = Some s -> h_bad s = false /\ forall r, h_ret s = Some r -> r = Some v.
Proof.
  intros v es s X. destruct (HI_run _ _ _ _ (HI0 v) X) as (_ & _ & H3 & _ & H5). split; [exact H5|]. intros r E. destruct (h_w s); try congruence; destruct H3; congruence.
Qed.
Print Assumptions C118_returned.

(** From every state the caller gets back: without spurious wake-ups, and
    without a step other than its own and notify's. *)
Theorem C118_wakes : forall v es s, hrun v es hs0 = Some s -> exists es' s', hrun v es' s = Some s' /\ h_ret s' = Some (Some v) /\ ~ In HWake es'.
Proof.
  intros v es s X. destruct (HI_run _ _ _ _ (HI0 v) X) as (H1 & H2 & H3 & H4 & H5). destruct s as [w n rd d ret bad]. cbn [h_w h_n h_ready h_data h_ret h_bad] in *.
  destruct w; cbn [w_has] in *.
  5: { exists [], (mkH WGone n rd d ret bad). split; [reflexivity|]. split; [exact (proj2 H3)|intros []]. }
  all: destruct n; cbn [n_has] in *; try (specialize (H1 eq_refl); discriminate H1); try (destruct H3 as (H3 & []); fail).
  all: destruct rd; try (exfalso; apply H2; reflexivity); try (assert (HX : false = true) by (apply H2; exact I); discriminate HX).
  all: rewrite H4 by discriminate.
  - exists [HWait; HNotify; HNotify; HNotify; HNotify; HNotify; HGetLock; HReturn]. eexists. split; [reflexivity|]. split; [reflexivity|cbn [In]; intuition discriminate].
  - exists [HReturn]. eexists. split; [reflexivity|]. split; [reflexivity|cbn [In]; intuition discriminate].
  - exists [HNotify; HNotify; HNotify; HNotify; HNotify; HGetLock; HReturn]. eexists. split; [reflexivity|]. split; [reflexivity|cbn [In]; intuition discriminate].
  - exists [HNotify; HNotify; HNotify; HNotify; HGetLock; HReturn]. eexists. split; [reflexivity|]. split; [reflexivity|cbn [In]; intuition discriminate].
  - exists [HNotify; HNotify; HNotify; HGetLock; HReturn]. eexists. split; [reflexivity|]. split; [reflexivity|cbn [In]; intuition discriminate].
  - exists [HNotify; HNotify; HGetLock; HReturn]. eexists. split; [reflexivity|]. split; [reflexivity|cbn [In]; intuition discriminate].
  - exists [HNotify; HNotify; HNotify; HNotify; HNotify; HGetLock; HReturn]. eexists. split; [reflexivity|]. split; [reflexivity|cbn [In]; intuition discriminate].
  - exists [HNotify; HNotify; HNotify; HNotify; HGetLock; HReturn]. eexists. split; [reflexivity|]. split; [reflexivity|cbn [In]; intuition discriminate].
  - exists [HNotify; HNotify; HNotify; HGetLock; HReturn]. eexists. split; [reflexivity|]. split; [reflexivity|cbn [In]; intuition discriminate].
  - exists [HNotify; HNotify; HGetLock; HReturn]. eexists. split; [reflexivity|]. split; [reflexivity|cbn [In]; intuition discriminate].
  - exists [HNotify; HGetLock; HReturn]. eexists. split; [reflexivity|]. split; [reflexivity|cbn [In]; intuition discriminate].
  - exists [HGetLock; HReturn]. eexists. split; [reflexivity|]. split; [reflexivity|cbn [In]; intuition discriminate].
  - exists [HWait; HNotify; HNotify; HNotify; HNotify; HNotify; HGetLock; HReturn]. eexists. split; [reflexivity|]. split; [reflexivity|cbn [In]; intuition discriminate].
  - exists [HReturn]. eexists. split; [reflexivity|]. split; [reflexivity|cbn [In]; intuition discriminate].
Qed.
Print Assumptions C118_wakes.

(** Woken for nothing twice, once while notify is at work. *)
Example C118_nonvacuous : exists s, hrun 9 [HWait; HWake; HGetLock; HWait; HNotify; HNotify; HWake; HNotify; HNotify; HNotify; HGetLock; HReturn] hs0 = Some s /\ h_ret s = Some (Some 9).
Proof. eexists. split; [vm_compute; reflexivity|reflexivity]. Qed.

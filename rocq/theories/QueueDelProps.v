(** C146: destroying the queue. *)
From Coq Require Import Arith List Bool Lia Permutation.
From Verif Require Import QueueModel FreeProps QueueSpec QueueProofs QueueProps QueueSeq QueueCap QueueDelModel.
Import ListNotations.

(** ** Traces *)

(** Nothing touches a block, or deletes it again, after it has been deleted. *)
Definition blk (e : dev) : nat := match e with ETouch u | EDel u => u end.
Definition safe (t : list dev) : Prop := forall t1 u t2, t = t1 ++ EDel u :: t2 -> forall e, In e t2 -> blk e <> u.

Lemma safe_nil : safe [].
Proof. intros [|? ?] u t2 H; discriminate. Qed.

Lemma dels_app t t' : dels (t ++ t') = dels t ++ dels t'.
Proof. unfold dels. apply flat_map_app. Qed.

Lemma safe_snoc t e : safe t -> ~ In (blk e) (dels t) -> safe (t ++ [e]).
Proof.
  intros S N t1 u t2 H x I.
  destruct (exists_last (l := EDel u :: t2) ltac:(discriminate)) as (t3 & y & E). rewrite E in H. rewrite app_assoc in H. apply app_inj_tail in H as (H & ->).
  destruct t3 as [|z t3]; cbn in E.
  - injection E as <- ->. contradiction.
  - injection E as <- ->. apply in_app_or in I as [I|[<-|[]]].
    + apply (S t1 u t3 H x I).
    + intros Q. apply N. rewrite Q, H, dels_app. apply in_or_app. right. left. reflexivity.
Qed.

Section Del.
Context {V : Type}.
Variable m : qmem V.

(** ** Invariant of the destructor: [D] deleted, [P] to be deleted, in order *)

Definition popok (f : fl) (L : list nat) (p : flpc) : Prop :=
  linked (f_next f) (f_top f) L /\
  match p with
  | PLoad | FRes None => forall u, In u L -> f_rc f u = 1
  | PRef u => (exists l, L = u :: l) /\ forall u, In u L -> f_rc f u = 1
  | PInc u c => (exists l, L = u :: l) /\ c = 1 /\ forall u, In u L -> f_rc f u = 1
  | PNext u => (exists l, L = u :: l) /\ f_rc f u = 2 /\ forall v, In v L -> v <> u -> f_rc f v = 1
  | PCas u nv => (exists l, L = u :: l) /\ nv = f_next f u /\ f_rc f u = 2 /\ forall v, In v L -> v <> u -> f_rc f v = 1
  | RSub u KLoop => (exists l, L = u :: l) /\ f_rc f u = 2 /\ forall v, In v L -> v <> u -> f_rc f v = 1
  | RSub u KGot => f_rc f u = 2 /\ ~ In u L /\ forall v, In v L -> f_rc f v = 1
  | FRes (Some u) => forall v, In v L -> f_rc f v = 1
  | _ => False
  end
  /\ (p = FRes None -> L = []).

Definition todo (p : flpc) (L : list nat) : list nat :=
  match p with RSub u KGot | FRes (Some u) => u :: L | _ => L end.

Definition DI (C : list nat) (pc : dpc) (f : fl) (P : list nat) : Prop :=
  match pc with
  | DPool p => exists L, popok f L p /\ P = todo p L ++ C /\ linked (q_bnext m) (Some (q_hd m)) C
  | DChain p => linked (q_bnext m) p P
  | DNext u n => exists l, P = u :: l /\ linked (q_bnext m) n l
  | DEnd => P = []
  end.

Lemma linked_top nx p L : linked nx p L -> match p with None => L = [] | Some u => exists l, L = u :: l /\ linked nx (nx u) l end.
Proof. intros []; eauto. Qed.

Ltac fs := rewrite ?fset_same, ?fset_other by congruence.

(** A step keeps the invariant; what it touches or deletes is still there. *)
Lemma dstep_inv C b pc f pc' f' t P : dstep m b pc f = Some (pc', f', t) -> NoDup P -> DI C pc f P ->
  (exists u, t = [EDel u] /\ exists l, P = u :: l /\ DI C pc' f' l) \/ ((t = [] \/ exists u, t = [ETouch u] /\ In u P) /\ DI C pc' f' P).
Proof.
  intros E ND H. destruct pc as [p|p|u n|]; cbn [dstep] in E.
  - destruct H as (L & (HL & HP & HN) & -> & HC). destruct f as [top nx rc]. cbn [f_next f_top f_rc] in *.
    destruct p as [|u k|u k|u t0 k|u t0 k|u k| |u|u c|u|u nv| |[u|]]; cbn [fstep] in E; try contradiction.
    + (* RSub *) destruct k; try contradiction.
      * destruct HP as ((l & ->) & R & O). rewrite R in E. cbn in E. injection E as <- <- <-. right. split; [right; exists u; split; [reflexivity|]; left; reflexivity|].
        exists (u :: l). split; [|split; [reflexivity|exact HC]]. split; [exact HL|]. split; [|discriminate]. cbn [f_rc]. intros v I. destruct (Nat.eq_dec v u) as [->|N]; fs; [reflexivity|auto].
      * destruct HP as (R & O & A). rewrite R in E. cbn in E. injection E as <- <- <-. right. split; [right; exists u; split; [reflexivity|]; left; reflexivity|].
        exists L. split; [|split; [reflexivity|exact HC]]. split; [exact HL|]. split; [|discriminate]. cbn [f_rc]. intros v I. rewrite fset_other; [auto|]. intros ->. contradiction.
    + (* PLoad *) apply linked_top in HL. destruct top as [u|]; injection E as <- <- <-; right; (split; [left; reflexivity|]).
      * destruct HL as (l & -> & HL). exists (u :: l). split; [|split; [reflexivity|exact HC]]. split; [constructor; exact HL|]. split; [split; [eauto|exact HP]|discriminate].
      * subst L. exists []. split; [|split; [reflexivity|exact HC]]. split; [constructor|]. split; [exact HP|reflexivity].
    + (* PRef *) destruct HP as ((l & ->) & A). rewrite (A u (or_introl eq_refl)) in E. cbn in E. injection E as <- <- <-. right. split; [right; exists u; split; [reflexivity|]; left; reflexivity|].
      exists (u :: l). split; [|split; [reflexivity|exact HC]]. split; [exact HL|]. split; [repeat split; eauto|discriminate].
    + (* PInc *) destruct HP as ((l & ->) & -> & A). rewrite (A u (or_introl eq_refl)) in E. cbn in E. right.
      assert (T : t = [ETouch u]) by (destruct b; cbn in E; injection E as <- <- <-; reflexivity). split; [right; exists u; split; [exact T|]; left; reflexivity|].
      destruct b; cbn in E; injection E as <- <- <-; exists (u :: l); (split; [|split; [reflexivity|exact HC]]); (split; [exact HL|]); (split; [|discriminate]).
      * exact A.
      * split; [eauto|]. cbn [f_rc]. fs. split; [reflexivity|]. intros v I N. fs. auto.
    + (* PNext *) destruct HP as ((l & ->) & R & A). injection E as <- <- <-. right. split; [right; exists u; split; [reflexivity|]; left; reflexivity|].
      exists (u :: l). split; [|split; [reflexivity|exact HC]]. split; [exact HL|]. split; [repeat split; eauto|discriminate].
    + (* PCas *) destruct HP as ((l & ->) & -> & R & A). inversion HL as [|v l' HL']; subst. cbn in E. rewrite Nat.eqb_refl in E. right.
      destruct b; cbn in E; injection E as <- <- <-; (split; [left; reflexivity|]).
      * exists (u :: l). split; [|split; [reflexivity|exact HC]]. split; [exact HL|]. split; [repeat split; eauto|discriminate].
      * exists l. split; [|split; [reflexivity|exact HC]]. split; [exact HL'|]. split; [|discriminate]. cbn [todo app] in ND. apply NoDup_cons_iff in ND as (ND & _).
        assert (NI : ~ In u l) by (intros I; apply ND, in_or_app; left; exact I).
        split; [exact R|]. split; [exact NI|]. intros v I. apply A; [right; exact I|]. intros ->. contradiction.
    + (* deliver *) injection E as <- <- <-. left. exists u. split; [reflexivity|]. exists (L ++ C). split; [reflexivity|]. exists L. split; [|split; [reflexivity|exact HC]]. split; [exact HL|]. split; [exact HP|discriminate].
    + injection E as <- <- <-. right. split; [left; reflexivity|]. rewrite (HN eq_refl). exact HC.
  - cbn [DI] in H. apply linked_top in H. destruct p as [u|]; injection E as <- <- <-; right.
    + destruct H as (l & -> & H). split; [right; exists u; split; [reflexivity|]; left; reflexivity|]. cbn [DI]. eauto.
    + split; [left; reflexivity|]. exact H.
  - destruct H as (l & -> & H). injection E as <- <- <-. left. exists u. split; [reflexivity|]. exists l. split; [reflexivity|]. exact H.
  - discriminate.
Qed.

Lemma drun_inv C sp : forall pc f pc' f' t P t0, drun m sp pc f = Some (pc', f', t) -> NoDup (dels t0 ++ P) -> DI C pc f P -> safe t0 ->
  exists P', dels t0 ++ P = dels (t0 ++ t) ++ P' /\ DI C pc' f' P' /\ safe (t0 ++ t).
Proof.
  induction sp as [|b sp IH]; cbn [drun]; intros pc f pc' f' t P t0 E ND H S.
  - injection E as <- <- <-. exists P. rewrite app_nil_r. auto.
  - destruct (dstep m b pc f) as [((pc1 & f1) & t1)|] eqn:D; [|discriminate]. destruct (drun m sp pc1 f1) as [((pc2 & f2) & t2)|] eqn:R; [|discriminate]. injection E as <- <- <-.
    rewrite app_assoc. assert (NP : NoDup P) by (clear - ND; induction (dels t0) as [|x l IH]; [exact ND|]; apply IH; apply NoDup_cons_iff in ND; tauto).
    destruct (dstep_inv C b pc f pc1 f1 t1 P D NP H) as [(u & -> & l & -> & H1)|(T & H1)].
    + assert (NU : ~ In u (dels t0)). { apply NoDup_remove_2 in ND. intros I. apply ND, in_or_app. left. exact I. }
      assert (Q : dels t0 ++ u :: l = dels (t0 ++ [EDel u]) ++ l) by (rewrite dels_app, <- app_assoc; reflexivity).
      rewrite Q in *. apply (IH pc1 f1 pc2 f2 t2 l (t0 ++ [EDel u]) R ND H1). apply safe_snoc; [exact S|exact NU].
    + assert (Q : dels (t0 ++ t1) = dels t0) by (rewrite dels_app; destruct T as [->|(u & -> & _)]; cbn; apply app_nil_r).
      rewrite <- Q. apply (IH pc1 f1 pc2 f2 t2 P (t0 ++ t1) R); [rewrite Q; exact ND|exact H1|].
      destruct T as [->|(u & -> & I)]; [rewrite app_nil_r; exact S|]. apply safe_snoc; [exact S|]. cbn [blk]. intros J.
      clear - ND I J. apply in_split in I as (a & b & ->). rewrite app_assoc in ND. apply NoDup_remove_2 in ND. apply ND. rewrite <- app_assoc. apply in_or_app. left. exact J.
Qed.

(** ** It ends *)

(** Steps left, when no compare-exchange fails. *)
Definition left_ (pc : dpc) (P C : list nat) : nat :=
  match pc with
  | DPool p => 10 * length P +
      match p with
      | PLoad => 6 | PRef _ => 5 | PInc _ _ => 4 | PNext _ => 3 | PCas _ _ => 2 | RSub _ KGot => 1 | RSub _ _ => 7 | FRes (Some _) => 0 | _ => 5 end
  | DChain _ => 2 * length P + 1
  | DNext _ _ => 2 * length P
  | DEnd => 0
  end.

Lemma dstep_ends C : forall n pc f P, left_ pc P C <= n -> NoDup P -> DI C pc f P -> exists k pc' f' t, drun m (repeat false k) pc f = Some (pc', f', t) /\ pc' = DEnd.
Proof.
  induction n as [|n IH]; intros pc f P M ND H.
  { destruct pc as [p|p|u x|]; cbn [left_] in M.
    - destruct p as [| | | | | | | | | | | |[u|]]; try lia; try (destruct k; lia). destruct H as (L & _ & -> & _). cbn in M. lia.
    - lia.
    - destruct H as (l & -> & _). cbn in M. lia.
    - exists 0, DEnd, f, []. split; reflexivity. }
  destruct (dstep m false pc f) as [((pc1 & f1) & t1)|] eqn:D.
  - assert (G : exists P1, NoDup P1 /\ DI C pc1 f1 P1 /\ left_ pc1 P1 C <= n).
    { destruct (dstep_inv C false pc f pc1 f1 t1 P D ND H) as [(u & -> & l & -> & H1)|(T & H1)].
      - exists l. split; [apply NoDup_cons_iff in ND; tauto|]. split; [exact H1|].
        destruct pc as [p|p|u0 x|]; cbn [dstep] in D.
        + destruct p as [| | | | | | | | | | | |[u0|]]; try (destruct (fstep _ _ _) as [(? & ?)|]; [|discriminate]; injection D as <- <- D; cbn in D; discriminate D).
          * injection D as <- <- <-. cbn [left_ length] in *. lia.
          * discriminate.
        + destruct p; discriminate.
        + injection D as <- <- <-. cbn [left_ length] in *. lia.
        + discriminate.
      - exists P. split; [exact ND|]. split; [exact H1|].
        destruct pc as [p|p|u0 x|]; cbn [dstep] in D.
        + destruct H as (L & (HL & HP & HN) & -> & HC). destruct f as [top nx rc]. cbn [f_next f_top f_rc] in *.
          destruct p as [|u k|u k|u t0 k|u t0 k|u k| |u|u c|u|u nv| |[u|]]; cbn [fstep] in D; try contradiction.
          * destruct k; try contradiction.
            -- destruct HP as (_ & R & _). rewrite R in D. cbn in D. injection D as <- <- <-. cbn [left_ todo] in *. lia.
            -- destruct HP as (R & _). rewrite R in D. cbn in D. injection D as <- <- <-. cbn [left_ todo] in *. lia.
          * destruct top; injection D as <- <- <-; cbn [left_ todo] in *; lia.
          * destruct HP as ((l & ->) & A). rewrite (A u (or_introl eq_refl)) in D. cbn in D. injection D as <- <- <-. cbn [left_ todo] in *. lia.
          * destruct HP as ((l & ->) & -> & A). rewrite (A u (or_introl eq_refl)) in D. cbn in D. injection D as <- <- <-. cbn [left_ todo] in *. lia.
          * injection D as <- <- <-. cbn [left_ todo] in *. lia.
          * destruct HP as ((l & ->) & -> & R & A). inversion HL as [|v l' HL']; subst. cbn in D. rewrite Nat.eqb_refl in D. cbn in D. injection D as <- <- <-. cbn [left_ todo] in *. lia.
          * destruct T as [T|(v & T & _)]; injection D as <- <- D; subst t1; discriminate.
          * injection D as <- <- <-. cbn [left_ todo] in *. rewrite (HN eq_refl) in *. cbn [app] in *. lia.
        + destruct p; injection D as <- <- <-; cbn [left_] in *; lia.
        + injection D as <- <- D. destruct T as [T|(v & T & _)]; subst t1; discriminate.
        + discriminate. }
    destruct G as (P1 & N1 & H1 & M1). destruct (IH pc1 f1 P1 M1 N1 H1) as (k & pc' & f' & t & R & E). exists (S k), pc', f', (t1 ++ t). cbn [repeat drun]. rewrite D, R. auto.
  - destruct pc as [p|p|u0 x|]; cbn [dstep] in D.
    + destruct H as (L & (HL & HP & HN) & -> & HC). destruct f as [top nx rc]. destruct p as [|u k|u k|u t0 k|u t0 k|u k| |u|u c|u|u nv| |[u|]]; cbn [fstep] in D; try contradiction; try discriminate;
      repeat match type of D with context [if ?b then _ else _] => destruct b | context [match ?b with Some _ => _ | None => _ end] => destruct b end; discriminate.
    + destruct p; discriminate.
    + discriminate.
    + exists 0, DEnd, f, []. split; reflexivity.
Qed.
End Del.

(** ** The queue at rest *)

Section Rest.
Context {V : Type}.
Variable B : nat.
Hypothesis HB : 0 < B.

Lemma filter_rng a b : forall n s, filter (fun k => (a <=? k) && (k <? b)) (seq s n) = seq (Nat.max s a) (Nat.min (s + n) b - Nat.max s a).
Proof.
  induction n as [|n IH]; intros s; cbn [seq filter].
  - replace (Nat.min (s + 0) b - Nat.max s a) with 0 by lia. reflexivity.
  - rewrite IH. destruct (Nat.leb_spec a s), (Nat.ltb_spec s b); cbn [andb].
    + replace (Nat.min (s + S n) b - Nat.max s a) with (S (Nat.min (S s + n) b - Nat.max (S s) a)) by lia. replace (Nat.max s a) with s by lia. cbn [seq]. f_equal. f_equal; lia.
    + replace (Nat.min (S s + n) b - Nat.max (S s) a) with 0 by lia. replace (Nat.min (s + S n) b - Nat.max s a) with 0 by lia. reflexivity.
    + f_equal; lia.
    + replace (Nat.min (S s + n) b - Nat.max (S s) a) with 0 by lia. replace (Nat.min (s + S n) b - Nat.max s a) with 0 by lia. reflexivity.
Qed.

Lemma rest (s : sys V) l : SI B s l -> quiet s -> exists C L, linked (q_bnext (s_m s)) (Some (q_hd (s_m s))) C /\ linked (f_next (q_fl (s_m s))) (f_top (q_fl (s_m s))) L
  /\ Permutation (L ++ C) (seq 0 (q_n (s_m s))) /\ (forall u, In u L -> f_rc (q_fl (s_m s)) u = 1) /\ flat_map (held B (s_m s)) (L ++ C) = l.
Proof.
  intros (C & L & val & H & HC) (QC & QP). destruct s as [m ps c]. cbn [s_m s_ps s_c] in *. subst c. exists C, L.
  pose proof (qi_fl _ _ _ _ _ _ _ H) as F.
  assert (Z : forall w : flpc -> nat, w FIdle = 0 -> wsum w (c_f (mkC FIdle (@CReady V)) :: map (@p_f V) ps) = 0).
  { intros w W. apply wsum_all0. intros p [<-|I]; [exact W|]. apply in_map_iff in I as (q & <- & I). destruct (QP q I) as (-> & _). exact W. }
  assert (O : forall u, ownf C ps (mkC FIdle CReady) u = cnt C u). { intros u. unfold ownf. rewrite (idle_w (ownp u) ps QP); [cbn; lia|]. intros p E. unfold ownp. rewrite E. reflexivity. }
  assert (HH : forall u, holdf ps u = 0). { intros u. unfold holdf. apply (idle_w _ ps QP). intros p E. unfold hold. rewrite E. reflexivity. }
  assert (ONE : forall u, u < q_n m -> cnt C u + cnt L u = 1).
  { intros u N. pose proof (fi_place _ _ _ _ _ _ F u) as P. pose proof (fi_live _ _ _ _ _ _ F u N) as Q. rewrite O in P, Q. rewrite HH in Q. rewrite !(Z (c_got u)), !(Z (c_psh u)) in P, Q by reflexivity. rewrite (Z (c_tmp u)) in Q by reflexivity. lia. }
  assert (OUT : forall u, q_n m <= u -> cnt C u = 0 /\ cnt L u = 0).
  { intros u N. split; [rewrite <- O; apply (fi_own _ _ _ _ _ _ F u N)|]. destruct (cnt L u) eqn:E; [reflexivity|]. assert (I : In u L) by (apply (count_occ_In Nat.eq_dec); unfold cnt in E; lia). pose proof (fi_ltn _ _ _ _ _ _ F u I). lia. }
  split; [apply (qi_chain _ _ _ _ _ _ _ H)|]. split; [apply (fi_link _ _ _ _ _ _ F)|]. split; [|split].
  - apply (Permutation_count_occ Nat.eq_dec). intros u. rewrite count_occ_app. fold (cnt L u) (cnt C u). destruct (le_lt_dec (q_n m) u) as [G|G].
    + destruct (OUT u G) as (-> & ->). symmetry. apply count_occ_not_In. rewrite in_seq. lia.
    + specialize (ONE u G). pose proof (proj1 (NoDup_count_occ' Nat.eq_dec (seq 0 (q_n m))) (seq_NoDup _ _) u) as K. rewrite K; [lia|]. apply in_seq. lia.
  - intros u I. pose proof (fi_ltn _ _ _ _ _ _ F u I) as N. pose proof (fi_rc _ _ _ _ _ _ F u N) as R. rewrite O, HH, !(Z (c_got u)), (Z (c_tmp u)), (Z (c_fix u)) in R by reflexivity.
    assert (0 < cnt L u) by (apply (count_occ_In Nat.eq_dec); exact I). specialize (ONE u N). lia.
  - assert (AV : forall u k, b2n (q_av m u k) = cnt C u * rng (q_bh m u) (q_bt m u) k).
    { intros u k. pose proof (qi_slot _ _ _ _ _ _ _ H u k) as X. cbn [cslot c_m] in X. rewrite (idle_w (slot u k) ps QP) in X; [lia|]. intros p E. unfold slot. rewrite E. reflexivity. }
    rewrite flat_map_app. replace (flat_map (held B m) L) with (@nil V).
    + cbn [app]. rewrite <- HC. unfold content. cbn [pre c_m app].
      assert (G : forall D, (forall u, In u D -> In u C) -> flat_map (held B m) D = flat_map (bvals m val) D); [|apply G; auto].
      induction D as [|u D IH]; intros S; [reflexivity|]. cbn [flat_map]. rewrite IH by (intros v I; apply S; right; exact I). f_equal.
      assert (IC : In u C) by (apply S; left; reflexivity). destruct (qi_bt _ _ _ _ _ _ _ H u IC) as (B1 & B2). pose proof (cnt_C1 B HB _ _ _ _ _ _ u H IC) as C1.
      unfold held, bvals. rewrite (filter_ext (q_av m u) (fun k => (q_bh m u <=? k) && (k <? q_bt m u))).
      * rewrite filter_rng. replace (Nat.max 0 (q_bh m u)) with (q_bh m u) by lia. replace (Nat.min (0 + B) (q_bt m u)) with (q_bt m u) by lia.
        apply map_ext_in. intros k I. apply in_seq in I. apply (qi_val _ _ _ _ _ _ _ H). specialize (AV u k). rewrite C1 in AV. unfold rng in AV. destruct (Nat.leb_spec (q_bh m u) k); [|lia]. destruct (Nat.ltb_spec k (q_bt m u)); [|lia]. cbn in AV. destruct (q_av m u k); [reflexivity|discriminate].
      * intros k. specialize (AV u k). rewrite C1 in AV. unfold rng in AV. destruct (q_av m u k), ((q_bh m u <=? k) && (k <? q_bt m u)); cbn in AV; try reflexivity; lia.
    + symmetry. assert (G : forall D, (forall u, In u D -> In u L) -> flat_map (held B m) D = []); [|apply G; auto].
      induction D as [|u D IH]; intros S; [reflexivity|]. cbn [flat_map]. rewrite IH by (intros v I; apply S; right; exact I). rewrite app_nil_r.
      assert (IL : In u L) by (apply S; left; reflexivity). pose proof (fi_ltn _ _ _ _ _ _ F u IL) as N. assert (C0 : cnt C u = 0) by (specialize (ONE u N); assert (0 < cnt L u) by (apply (count_occ_In Nat.eq_dec); exact IL); lia).
      unfold held. rewrite (filter_ext (q_av m u) (fun _ => false)).
      * clear. induction (seq 0 B); [reflexivity|]. cbn. assumption.
      * intros k. specialize (AV u k). rewrite C0 in AV. destruct (q_av m u k); [discriminate|reflexivity].
Qed.
End Rest.

(** ** C146 *)

(** What destroying the queue of state [s], reached with the effects [o], does:
    at any time the destructor can finish; it never touches or deletes a block
    it has deleted; when it has finished, each of the blocks ever allocated
    has been deleted once, and the values destroyed with them are those
    enqueued or put back and not dequeued, each once. *)
Definition given_back {V} (B : nat) (s : sys V) (o : list (obs V)) : Prop :=
  forall sp pc f t, destroy (s_m s) sp = Some (pc, f, t) ->
    safe t /\ (exists k f' t', drun (s_m s) (repeat false k) pc f = Some (DEnd, f', t'))
    /\ (pc = DEnd -> Permutation (dels t) (seq 0 (q_n (s_m s))) /\ Permutation (enqueued o ++ rewound o) (dequeued o ++ destroyed B (s_m s) t)).

(** Without a late last store (see [timely]); blocks may be allocated. *)
Theorem C146_given_back_partial : forall V B (dflt : V) k np evs s o, 0 < B -> qrun B evs (sys0 dflt k np) = Some (s, o) -> timely B evs (sys0 dflt k np) -> quiet s ->
  given_back B s o.
Proof.
  intros V B dflt k np evs s o HB E T Q sp pc f t D.
  destruct (qrun_inv B HB evs _ _ _ [] E (si_init B HB dflt k np) T) as (l & H & HI).
  destruct (rest B HB s l H Q) as (C & L & HC & HL & PM & RC & EL). set (m := s_m s) in *.
  assert (ND : NoDup (L ++ C)) by (apply (Permutation_NoDup (Permutation_sym PM)), seq_NoDup).
  assert (I0 : DI m C (DPool PLoad) (q_fl m) (L ++ C)). { exists L. split; [|split; [reflexivity|exact HC]]. split; [exact HL|]. split; [exact RC|discriminate]. }
  destruct (drun_inv m C sp _ _ _ _ _ (L ++ C) [] D ND I0 safe_nil) as (P & EP & IP & SF). cbn [app dels flat_map] in EP, SF. fold (dels t) in EP.
  split; [exact SF|]. split.
  - assert (NP : NoDup P) by (rewrite EP in ND; clear - ND; induction (dels t) as [|x q IH]; [exact ND|]; apply IH; apply NoDup_cons_iff in ND; tauto).
    destruct (dstep_ends m C _ pc f P (le_n _) NP IP) as (n & pc' & f' & t' & R & ->). eauto.
  - intros ->. cbn [DI] in IP. subst P. rewrite app_nil_r in EP. split; [rewrite <- EP; exact PM|]. unfold destroyed. rewrite <- EP, EL. apply (hist_multiset o [] l HI).
Qed.
Print Assumptions C146_given_back_partial.

(** In particular for calls that never allocate, under every interleaving. *)
Corollary C146_bounded_partial : forall V B (dflt : V) k np evs s o, 0 < B -> forallb bounded evs = true -> qrun B evs (sys0 dflt k np) = Some (s, o) -> quiet s ->
  given_back B s o.
Proof.
  intros V B dflt k np evs s o HB BD E Q. apply (C146_given_back_partial V B dflt k np evs s o HB E); [|exact Q].
  apply (bounded_timely B HB evs _ _ _ [] E); [apply (si_init B HB)|apply bi_init|exact BD].
Qed.
Print Assumptions C146_bounded_partial.

(** The values are destroyed front first. *)
Theorem C146_order_partial : forall V B (dflt : V) k np evs s o sp f t, 0 < B -> qrun B evs (sys0 dflt k np) = Some (s, o) -> timely B evs (sys0 dflt k np) -> quiet s ->
  destroy (s_m s) sp = Some (DEnd, f, t) -> hist [] o (destroyed B (s_m s) t).
Proof.
  intros V B dflt k np evs s o sp f t HB E T Q D.
  destruct (qrun_inv B HB evs _ _ _ [] E (si_init B HB dflt k np) T) as (l & H & HI).
  destruct (rest B HB s l H Q) as (C & L & HC & HL & PM & RC & EL). set (m := s_m s) in *.
  assert (ND : NoDup (L ++ C)) by (apply (Permutation_NoDup (Permutation_sym PM)), seq_NoDup).
  assert (I0 : DI m C (DPool PLoad) (q_fl m) (L ++ C)). { exists L. split; [|split; [reflexivity|exact HC]]. split; [exact HL|]. split; [exact RC|discriminate]. }
  destruct (drun_inv m C sp _ _ _ _ _ (L ++ C) [] D ND I0 safe_nil) as (P & EP & IP & SF). cbn [app dels flat_map DI] in EP, IP. fold (dels t) in EP. subst P. rewrite app_nil_r in EP.
  unfold destroyed. rewrite <- EP, EL. exact HI.
Qed.
Print Assumptions C146_order_partial.

(** The claim for all uses: false, since a value can get lost in the queue. *)
Definition C146_full : Prop := forall V B (dflt : V) k np evs s o, 0 < B -> qrun B evs (sys0 dflt k np) = Some (s, o) -> quiet s -> given_back B s o.

Lemma opt_dpc {A} (x : option (dpc * fl * A)) {Y} (g : A -> Y) pc y : option_map (fun z => (fst (fst z), g (snd z))) x = Some (pc, y) -> exists f t, x = Some (pc, f, t) /\ g t = y.
Proof. destruct x as [((a & f) & t)|]; [|discriminate]. cbn. intros E. injection E as <- <-. eauto. Qed.

(** The run of [C37_refuted]: the value 99 is enqueued, the call returns true,
    it is not dequeued, and no block holds it when the queue is destroyed: the
    slot has been overwritten (157, placement new) by another producer. *)
Theorem C146_lost_refuted : exists s o f t, qrun 1 C37_evs (sys0 0 0 5) = Some (s, o) /\ quiet s /\ In (ORetE 2 true) o /\ In (OEnq 2 99) o /\ ~ In 99 (dequeued o)
  /\ destroy (s_m s) (repeat false 26) = Some (DEnd, f, t) /\ destroyed 1 (s_m s) t = [] /\ forall u, u < q_n (s_m s) -> q_el (s_m s) u 0 <> 99.
Proof.
  destruct C37_refuted as (s & o & E & Q & I1 & I2 & N & _). exists s, o.
  assert (EX : option_map (fun x => (map (fun u => q_el (s_m (fst x)) u 0) (seq 0 (q_n (s_m (fst x)))),
     option_map (fun y => (fst (fst y), destroyed 1 (s_m (fst x)) (snd y))) (destroy (s_m (fst x)) (repeat false 26)))) (qrun 1 C37_evs (sys0 0 0 5))
     = Some ([11; 14; 13; 15], Some (DEnd, []))) by (vm_compute; reflexivity).
  rewrite E in EX. unfold option_map at 1 in EX. cbn [fst] in EX. injection EX as E2 E1. apply opt_dpc in E1 as (f & t & D & E3).
  exists f, t. split; [exact E|]. split; [exact Q|]. split; [exact I2|]. split; [exact I1|]. split; [exact N|]. split; [exact D|]. split; [exact E3|].
  intros u HU X. assert (I : In 99 (map (fun u => q_el (s_m s) u 0) (seq 0 (q_n (s_m s))))) by (apply in_map_iff; exists u; split; [exact X|apply in_seq; lia]).
  rewrite E2 in I. cbn in I. repeat destruct I as [I|I]; try discriminate I; exact I.
Qed.
Print Assumptions C146_lost_refuted.

Theorem C146_full_refuted : ~ C146_full.
Proof.
  intros F. destruct C146_lost_refuted as (s & o & f & t & E & Q & _ & I & N & D & L & _).
  destruct (F nat 1 0 0 5 C37_evs s o ltac:(lia) E Q _ _ _ _ D) as (_ & _ & X). destruct (X eq_refl) as (_ & P). rewrite L, app_nil_r in P. apply N.
  apply (Permutation_in _ P), in_or_app. left. unfold enqueued. apply in_flat_map. exists (OEnq 2 99). split; [exact I|left; reflexivity].
Qed.
Print Assumptions C146_full_refuted.

(** ** The queue cut in two *)

(** A late last store can do worse: the block a producer appends to is not
    part of the queue.  [away h s]: the head block [h] is used up, it is the
    last one, and nothing else refers to it. *)
Section Away.
Context {V : Type}.
Variable B h : nat.

Definition ff (f : flpc) : Prop :=
  match f with
  | RSub u _ | RLoad u _ | RFix u _ | PRef u | PInc u _ | PNext u | FRes (Some u) => u <> h
  | RSet u t _ | RCas u t _ => u <> h /\ t <> Some h
  | PCas u nv => u <> h /\ nv <> Some h
  | _ => True
  end.

Definition fm (pc : ppc) : Prop :=
  match pc with
  | P1 t | P2 t _ | P3 t | P4 t | P5 t | P6 t | P9 t _ | P10 t _ | P11 t _ | WPushed t => t <> h
  | P7a t nb | P7b t nb | P7c t nb | P7d t nb | PF t nb | P8a t nb | P8b t nb => t <> h /\ nb <> h
  | _ => True
  end.

Definition flaway (f : fl) : Prop := f_top f <> Some h /\ forall u, f_next f u <> Some h.
Definition maway (m : qmem V) : Prop := q_hd m = h /\ q_bnext m h = None /\ q_bt m h <= q_bh m h /\ h < q_n m /\ q_tl m <> h /\ flaway (q_fl m).
Definition away (s : sys V) : Prop := maway (s_m s) /\ (forall p, In p (s_ps s) -> ff (p_f p) /\ fm (p_m p))
  /\ c_f (s_c s) = FIdle /\ match c_m (s_c s) with CReady | D0 => True | D2 x => x = h | _ => False end.

Lemma ff_fin k u : u <> h -> ff (fin k u).
Proof. destruct k; cbn; auto. Qed.

Lemma fstep_away spur p f p' f' : fstep spur p f = Some (p', f') -> ff p -> flaway f -> ff p' /\ flaway f'.
Proof.
  intros E FP (T & N). destruct f as [top nx rc]. unfold flaway. cbn [f_top f_next] in *. destruct p; cbn [fstep] in E; try discriminate; cbn [ff] in FP.
  - injection E as <- <-. split; [|auto]. destruct (rc u =? 1); [exact FP|apply ff_fin; exact FP].
  - injection E as <- <-. cbn. auto.
  - destruct FP. injection E as <- <-. cbn. split; [auto|]. split; [exact T|]. intros v. unfold fset. destruct (v =? u); auto.
  - destruct FP. destruct (oeqb top t && negb spur); injection E as <- <-; cbn; auto. split; [auto|]. split; [congruence|auto].
  - injection E as <- <-. cbn. split; [apply ff_fin; exact FP|auto].
  - destruct top as [u|]; injection E as <- <-; cbn; split; auto; congruence.
  - injection E as <- <-. cbn. destruct (rc u =? 0); cbn; auto.
  - destruct ((rc u =? c) && negb spur); injection E as <- <-; cbn; auto.
  - injection E as <- <-. cbn. auto.
  - destruct FP. destruct (oeqb top (Some u) && negb spur); injection E as <- <-; cbn; auto.
Qed.

Lemma pstep_away spur i (p : prod V) m p' m' o : pstep B spur i p m = Some (p', m', o) -> maway m -> ff (p_f p) /\ fm (p_m p) -> (maway m' /\ ff (p_f p') /\ fm (p_m p')) /\ dequeued o = [].
Proof.
  intros E (A1 & A2 & A3 & A4 & A5 & A6) (HF & HM). destruct p as [f pc v unb]. cbn [p_f p_m] in *. unfold maway.
  assert (FS : forall x, x <> h -> forall X (g : nat -> X) y, fset g x y h = g h) by (intros x N X g y; apply fset_other; congruence).
  destruct f; cbn [pstep] in E;
    try (match type of E with match fstep ?a ?b ?c with _ => _ end = _ => destruct (fstep a b c) as [(f1, fl1)|] eqn:FE; [|discriminate] end; injection E as <- <- <-;
         destruct (fstep_away _ _ _ _ _ FE HF A6) as (X1 & X2); cbn; split; [|reflexivity]; split; [|split; assumption]; repeat (split; [assumption|]); assumption).
  - destruct pc; try discriminate; cbn [fm] in HM;
    repeat match type of E with context [if ?b then _ else _] => destruct b | context [match ?b with Some _ => _ | None => _ end] => destruct b end;
    injection E as <- <- <-; (split; [|reflexivity]); cbn [p_f p_m ff fm q_hd q_bnext q_bt q_bh q_n q_tl q_fl set_rc set_fl set_bh set_bt set_bnext set_freed set_tl set_el set_av flaway f_top f_next];
    try destruct HM as (HM1 & HM2); rewrite ?FS by auto; unfold flaway in *; cbn [f_top f_next]; intuition (auto; congruence).
  - destruct pc; try discriminate; cbn [fm] in HM; injection E as <- <- <-; (split; [|reflexivity]); cbn [p_f p_m ff fm]; auto 10.
  - destruct pc; try discriminate; cbn [fm ff] in HM, HF. destruct r as [nb|].
    + injection E as <- <- <-. (split; [|reflexivity]); cbn [p_f p_m ff fm]; auto 10.
    + destruct unb; [|injection E as <- <- <-; (split; [|reflexivity]); cbn [p_f p_m ff fm]; auto 10]. cbn [alloc] in E. injection E as <- <- <-. split; [|reflexivity].
      cbn [p_f p_m ff fm q_hd q_bnext q_bt q_bh q_n q_tl q_fl f_top f_next]. destruct A6 as (A6 & A7). unfold flaway. cbn [f_top f_next].
      split; [|split; [exact I|split; [exact HM|lia]]]. repeat (split; [first [assumption|lia]|]). intros u. unfold fset. destruct (u =? q_n m); [discriminate|apply A7].
Qed.

Lemma repl_in {A} (x y : A) : forall l i, In y (repl i x l) -> y = x \/ In y l.
Proof. induction l as [|z l IH]; intros [|i]; cbn; auto; intros [H|H]; auto. destruct (IH i H); auto. Qed.

Lemma away_run evs : forall s s' o, (forall v, ~ In (QRew v) evs) -> away s -> qrun B evs s = Some (s', o) -> dequeued o = [] /\ away s'.
Proof.
  induction evs as [|ev evs IH]; intros s s' o NR A E; cbn [qrun] in E; [injection E as <- <-; auto|].
  destruct (qstep B ev s) as [(s1 & o1)|] eqn:QS; [|discriminate]. destruct (qrun B evs s1) as [(s2 & o2)|] eqn:QR; [|discriminate]. injection E as <- <-.
  assert (G : dequeued o1 = [] /\ away s1).
  { destruct s as [m ps [cf cm]]. destruct A as (AM & AP & AC & AD). cbn [s_m s_ps s_c c_f c_m] in *. subst cf. destruct ev as [i v unb|i spur| |v|spur]; cbn [qstep] in QS.
    - destruct (nth_error ps i) as [[f pc v0 u0]|] eqn:N; [|discriminate]. destruct f; try discriminate. destruct pc; try discriminate. injection QS as <- <-. split; [reflexivity|].
      split; [exact AM|]. split; [|split; [reflexivity|exact AD]]. intros p I. apply repl_in in I as [->|I]; [split; exact Logic.I|auto].
    - destruct (nth_error ps i) as [p|] eqn:N; [|discriminate]. destruct (pstep B spur i p m) as [((p' & m') & o')|] eqn:PS; [|discriminate]. injection QS as <- <-.
      destruct (pstep_away _ _ _ _ _ _ _ PS AM (AP p (nth_error_In _ _ N))) as ((X1 & X2) & X3). split; [exact X3|]. split; [exact X1|]. split; [|split; [reflexivity|exact AD]].
      intros q I. apply repl_in in I as [->|I]; auto.
    - destruct cm; try discriminate. injection QS as <- <-. split; [reflexivity|]. split; [exact AM|]. split; [exact AP|]. split; reflexivity || exact I.
    - exfalso. apply (NR v). left. reflexivity.
    - destruct (cstep B spur (mkC FIdle cm) m) as [((c' & m') & o')|] eqn:CS; [|discriminate]. injection QS as <- <-. pose proof AM as (A1 & A2 & A3 & A4).
      destruct cm; try contradiction; cbn [cstep] in CS; [discriminate| |].
      + rewrite A1 in CS. destruct (Nat.leb_spec (q_bt m h) (q_bh m h)); [|lia]. destruct (q_bt m h <? B); injection CS as <- <- <-; (split; [reflexivity|]); (split; [exact AM|]); (split; [exact AP|]); split; reflexivity || exact I.
      + subst h0. rewrite A2 in CS. injection CS as <- <- <-. (split; [reflexivity|]); (split; [exact AM|]); (split; [exact AP|]); split; reflexivity || exact I. }
  destruct G as (G1 & G2). destruct (IH s1 s2 o2) as (I1 & I2); [intros v J; apply (NR v); right; exact J|exact G2|exact QR|].
  split; [|exact I2]. unfold dequeued in *. rewrite flat_map_app, G1, I1. reflexivity.
Qed.
End Away.

(** Block size 1, no pool, three producers.  Producer 1 is preempted before its
    last store (148, block 1); the block is filled, drained and given back;
    the store then marks it as in use.  Producer 2, which had read [tail]
    before, finds it full; producer 1 takes the block from the pool and
    resets it; producer 2 appends a new block to it and moves [tail] there;
    producer 1 finds the end of the queue already extended by producer 0 and
    gives block 1 back.  [tail] now is no longer reached from [head]. *)
Definition C146_cut : list (qev nat) :=
  [QEnq 0 10 true] ++ st 0 10 ++ [QEnq 1 11 true] ++ st 1 13 ++ [QEnq 2 99 true] ++ st 2 1 ++ [QEnq 0 12 true] ++ st 0 10 ++ [QEnq 0 13 true] ++ st 0 26
  ++ [QDeq] ++ cs 5 ++ [QDeq] ++ cs 11 ++ [QDeq] ++ cs 15 ++ st 1 1 ++ st 2 4 ++ st 1 12 ++ [QEnq 0 15 true] ++ st 0 13 ++ st 1 10 ++ st 0 18 ++ st 2 21
  ++ st 1 41 ++ [QDeq] ++ cs 15 ++ [QDeq] ++ cs 2.

Lemma cut_state : exists s o, qrun 1 C146_cut (sys0 0 0 3) = Some (s, o) /\ quiet s /\ away 0 s
  /\ enqueued o = [10; 12; 13; 15; 99; 11] /\ dequeued o = [10; 12; 13; 15] /\ rewound o = [] /\ q_n (s_m s) = 4
  /\ exists f t, destroy (s_m s) (repeat false 12) = Some (DEnd, f, t) /\ dels t = [2; 0] /\ destroyed 1 (s_m s) t = [].
Proof.
  destruct (qrun 1 C146_cut (sys0 0 0 3)) as [(s & o)|] eqn:E; [|vm_compute in E; discriminate]. exists s, o. split; [reflexivity|].
  assert (EO : Some o = option_map snd (qrun 1 C146_cut (sys0 0 0 3))) by (rewrite E; reflexivity). vm_compute in EO. injection EO as EO.
  assert (ES : option_map (fun x => let m := s_m (fst x) in (map (fun p => (p_f p, p_m p)) (s_ps (fst x)), s_c (fst x), (q_hd m, q_bnext m 0, q_bt m 0, q_bh m 0, q_n m, q_tl m, f_top (q_fl m)),
       option_map (fun y => (fst (fst y), (dels (snd y), destroyed 1 m (snd y)))) (destroy m (repeat false 12)))) (qrun 1 C146_cut (sys0 0 0 3))
     = Some (repeat (FIdle, PReady) 3, mkC FIdle CReady, (0, None, 1, 1, 4, 1, Some 2), Some (DEnd, ([2; 0], [])))) by (vm_compute; reflexivity).
  assert (EN : forall u, match qrun 1 C146_cut (sys0 0 0 3) with Some (s, _) => f_next (q_fl (s_m s)) u | None => None end <> Some 0).
  { intros u. do 4 (destruct u as [|u]; [vm_compute; discriminate|]). vm_compute. discriminate. }
  rewrite E in ES, EN. unfold option_map at 1 in ES. cbn [fst] in ES. injection ES as E1 E2 E3 E4 E5 E6 E7 E8 E9 E10.
  assert (PI : forall p, In p (s_ps s) -> pidle p).
  { intros p I. assert (X : In (p_f p, p_m p) (map (fun p => (p_f p, p_m p)) (s_ps s))) by (apply (in_map (fun p => (p_f p, p_m p))); exact I). rewrite E1 in X. apply (repeat_spec 3) in X. injection X as X1 X2. split; assumption. }
  split; [split; [exact E2|exact PI]|]. split.
  { split; [|split].
    - unfold maway, flaway. rewrite E3, E4, E5, E6, E7, E8, E9. repeat split; auto; try lia; try discriminate.
    - intros p I. destruct (PI p I) as (-> & ->). split; exact Logic.I.
    - rewrite E2. split; [reflexivity|exact Logic.I]. }
  rewrite EO. split; [reflexivity|]. split; [reflexivity|]. split; [reflexivity|]. split; [exact E7|].
  apply (opt_dpc _ (fun t => (dels t, destroyed 1 (s_m s) t))) in E10 as (f & t & DS & X). injection X as X1 X2. exists f, t. auto.
Qed.

(** From then on nothing is ever dequeued, whatever is enqueued. *)
Theorem C37_cut_refuted : exists s o, qrun 1 C146_cut (sys0 0 0 3) = Some (s, o) /\ quiet s /\ enqueued o = [10; 12; 13; 15; 99; 11] /\ dequeued o = [10; 12; 13; 15]
  /\ forall evs s' o', (forall v, ~ In (QRew v) evs) -> qrun 1 evs s = Some (s', o') -> dequeued o' = [].
Proof.
  destruct cut_state as (s & o & E & Q & A & EN & D & _). exists s, o. split; [exact E|]. split; [exact Q|]. split; [exact EN|]. split; [exact D|].
  intros evs s' o' NR R. apply (away_run 1 0 evs s s' o' NR A R).
Qed.
Print Assumptions C37_cut_refuted.

(** ... and it does go on accepting values. *)
Example C37_cut_accepts : exists s o s' o', qrun 1 C146_cut (sys0 0 0 3) = Some (s, o) /\ qrun 1 ([QEnq 0 20 true] ++ st 0 31 ++ [QEnq 2 21 true] ++ st 2 26 ++ [QDeq] ++ cs 2) s = Some (s', o')
  /\ In (ORetE 0 true) o' /\ In (ORetE 2 true) o' /\ In (ORetD 0 None) o'.
Proof.
  destruct (qrun 1 C146_cut (sys0 0 0 3)) as [(s & o)|] eqn:E; [|vm_compute in E; discriminate].
  assert (X : match qrun 1 C146_cut (sys0 0 0 3) with Some (s, _) => option_map snd (qrun 1 ([QEnq 0 20 true] ++ st 0 31 ++ [QEnq 2 21 true] ++ st 2 26 ++ [QDeq] ++ cs 2) s) | None => None end
     = Some [OCall 0 20; OEnq 0 20; ORetE 0 true; OCall 2 21; OEnq 2 21; ORetE 2 true; OEmpty 0; ORetD 0 None]) by (vm_compute; reflexivity).
  rewrite E in X. destruct (qrun 1 _ s) as [(s' & o')|] eqn:E'; [|discriminate]. cbn in X. injection X as X. exists s, o, s', o'. subst o'. cbn. repeat split; auto 10.
Qed.

(** The destructor of that queue leaves two of its four blocks, and the
    values 99 and 11 in them, behind. *)
Theorem C146_leak_refuted : exists s o f t, qrun 1 C146_cut (sys0 0 0 3) = Some (s, o) /\ quiet s /\ q_n (s_m s) = 4
  /\ destroy (s_m s) (repeat false 12) = Some (DEnd, f, t) /\ dels t = [2; 0] /\ destroyed 1 (s_m s) t = [] /\ enqueued o = dequeued o ++ [99; 11].
Proof.
  destruct cut_state as (s & o & E & Q & A & EN & D & R & N & f & t & DS & X1 & X2). exists s, o, f, t. repeat (split; [assumption|]). rewrite EN, D. reflexivity.
Qed.
Print Assumptions C146_leak_refuted.

(** A run that meets the hypotheses: that of [C36_nonvacuous] cut short, with
    values left in two blocks and a block in the pool. *)
Definition C146_evs : list (qev nat) :=
  [QEnq 0 10 false] ++ st 0 10 ++ [QEnq 0 11 false] ++ st 0 10 ++ [QEnq 1 12 false] ++ st 1 31 ++ [QDeq] ++ cs 5.
Example C146_nonvacuous : exists s o f t, qrun 2 C146_evs (sys0 0 2 2) = Some (s, o) /\ quiet s /\ forallb bounded C146_evs = true
  /\ destroy (s_m s) ([false; false; true; false; false; false; false; true] ++ repeat false 15) = Some (DEnd, f, t) /\ dels t = [1; 0; 2] /\ destroyed 2 (s_m s) t = [11; 12].
Proof.
  destruct (qrun 2 C146_evs (sys0 0 2 2)) as [(s & o)|] eqn:E; [|vm_compute in E; discriminate]. exists s, o.
  assert (ES : option_map (fun x => let m := s_m (fst x) in (map (fun p => (p_f p, p_m p)) (s_ps (fst x)), s_c (fst x),
       option_map (fun y => (fst (fst y), (dels (snd y), destroyed 2 m (snd y)))) (destroy m ([false; false; true; false; false; false; false; true] ++ repeat false 15)))) (qrun 2 C146_evs (sys0 0 2 2))
     = Some (repeat (FIdle, PReady) 2, mkC FIdle CReady, Some (DEnd, ([1; 0; 2], [11; 12])))) by (vm_compute; reflexivity).
  rewrite E in ES. unfold option_map at 1 in ES. cbn [fst] in ES. injection ES as E1 E2 E3. apply (opt_dpc _ (fun t => (dels t, destroyed 2 (s_m s) t))) in E3 as (f & t & DS & X). injection X as X1 X2.
  exists f, t. split; [reflexivity|]. split; [|auto]. split; [exact E2|]. intros p I. assert (X : In (p_f p, p_m p) (map (fun p => (p_f p, p_m p)) (s_ps s))) by (apply (in_map (fun p => (p_f p, p_m p))); exact I).
  rewrite E1 in X. cbn in X. assert (Y : (p_f p, p_m p) = (FIdle, PReady)) by (repeat destruct X as [X|X]; try (symmetry; exact X); contradiction). injection Y as Y1 Y2. split; assumption.
Qed.

(** ... and one that allocates. *)
Example C146_timely_nonvacuous : exists s o, qrun 2 C37_fine (sys0 0 (blocks 2 0) 1) = Some (s, o) /\ timely 2 C37_fine (sys0 0 (blocks 2 0) 1) /\ q_n (s_m s) = 3.
Proof.
  destruct (qrun 2 C37_fine (sys0 0 (blocks 2 0) 1)) as [(s & o)|] eqn:E; [|vm_compute in E; discriminate]. exists s, o. split; [reflexivity|]. split.
  - apply timely_prod. intros ev I. vm_compute in I. repeat destruct I as [<-|I]; try exact Logic.I. contradiction.
  - assert (X : option_map (fun x => q_n (s_m (fst x))) (qrun 2 C37_fine (sys0 0 (blocks 2 0) 1)) = Some 3) by (vm_compute; reflexivity). rewrite E in X. cbn in X. congruence.
Qed.

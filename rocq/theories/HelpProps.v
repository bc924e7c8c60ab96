(** Property C145: the help text. *)
From Coq Require Import Arith NArith List Bool Lia.
From Coq.Init Require Import Byte.
From Verif Require Import Base HelpModel.
Import ListNotations.

(** ** Specification *)

(** The lines of a text all of whose lines end with a newline. *)
Fixpoint lines_from (acc t : bytes) : list bytes :=
  match t with [] => [] | c :: r => if byte_eqb c x0a then acc :: lines_from [] r else lines_from (acc ++ [c]) r end.
Definition lines (t : bytes) : list bytes := lines_from [] t.
(** Where a terminal is after a text that it began in column n: tab stops are every eight columns. *)
Fixpoint column (n : nat) (t : bytes) : nat :=
  match t with [] => n | c :: r => column (if byte_eqb c x09 then 8 * (n / 8 + 1) else S n) r end.
(** Printable ASCII: one column each. *)
Definition printable (c : byte) : bool := ((32 <=? byte_val c) && (byte_val c <=? 126))%N.
Definition plain (o : hopt) : Prop := forallb printable (h_name o) = true /\ forallb printable (h_doc o) = true /\ (forall c, h_short o = Some c -> printable c = true).
Definition blank (t : bytes) : Prop := t <> [] /\ Forall (fun c => c = x20 \/ c = x09) t.
(** A line shows an option: its name after two dashes, its letter after one, if
    it has one, and its text, set apart by blanks. *)
Definition shows (o : hopt) (l : bytes) : Prop :=
  exists a b, blank b /\ l = [x20; x20; x2d; x2d] ++ h_name o ++ a ++ match h_short o with Some c => [x2d; c] | None => [] end ++ b ++ h_doc o /\
  (h_short o <> None -> blank a) /\ (h_short o = None -> a = []).
(** The text of an option begins in a column; its letter, if any, does. *)
Definition doc_at (k : nat) (o : hopt) (l : bytes) : Prop := exists pre, l = pre ++ h_doc o /\ column 0 pre = k.
Definition letter_at (k : nat) (o : hopt) (l : bytes) : Prop := forall c, h_short o = Some c -> exists pre post, l = pre ++ [x2d; c] ++ post /\ column 0 pre = k.

(** What one would expect. *)
Definition C145_help_full : Prop := forall signed os, Forall plain os -> Forall2 shows os (lines (print_help signed os)) /\ exists k, Forall2 (doc_at k) os (lines (print_help signed os)).

(** ** Proofs *)
Lemma eqb_ne a b : a <> b -> byte_eqb a b = false.
Proof. intros H. destruct (byte_eqb a b) eqn:E; [|reflexivity]. apply byte_eqb_eq in E. contradiction. Qed.
Lemma printable_not c d : printable c = true -> printable d = false -> byte_eqb c d = false.
Proof. intros A B. apply eqb_ne. intros ->. congruence. Qed.
Lemma c_str_plain t : forallb printable t = true -> c_str t = t.
Proof. induction t as [|c t IH]; cbn; [reflexivity|]. intros H. apply andb_prop in H. destruct H as (A & B). rewrite (printable_not c x00 A eq_refl), IH; auto. Qed.
Definition nonl (t : bytes) : Prop := Forall (fun c => byte_eqb c x0a = false) t.
Lemma nonl_plain t : forallb printable t = true -> nonl t.
Proof. unfold nonl. rewrite forallb_forall, Forall_forall. intros H c I. apply (printable_not c x0a (H c I) eq_refl). Qed.
Lemma nonl_spaces w : nonl (spaces w).
Proof. unfold nonl, spaces. rewrite Forall_forall. intros c I. apply repeat_spec in I. subst. reflexivity. Qed.
Lemma lines_row t r : nonl t -> forall acc, lines_from acc (t ++ x0a :: r) = (acc ++ t) :: lines r.
Proof.
  induction 1 as [|c t A B IH]; intros acc; cbn; [rewrite app_nil_r; reflexivity|]. rewrite A, IH, <- app_assoc. reflexivity.
Qed.
Definition the_line (signed : bool) (w : nat) (o : hopt) : bytes :=
  [x20; x20; x2d; x2d] ++ h_name o ++ spaces (w - length (h_name o) + 4) ++ (if has_letter signed o then [x2d; stored o; x09] else [x09; x09]) ++ h_doc o.
Lemma stored_printable o c : plain o -> h_short o = Some c -> printable c = true.
Proof. intros (_ & _ & P) H. exact (P c H). Qed.
Lemma stored_nonl o : plain o -> byte_eqb (stored o) x0a = false.
Proof. intros P. unfold stored. destruct (h_short o) as [c|] eqn:E; [|reflexivity]. apply (printable_not c x0a (stored_printable o c P E) eq_refl). Qed.
Lemma row_line signed w o : plain o -> print_row signed w o = the_line signed w o ++ [x0a] /\ nonl (the_line signed w o).
Proof.
  intros P. pose proof P as (A & B & C). unfold print_row, the_line. rewrite (c_str_plain _ A), (c_str_plain _ B). split; [rewrite <- !app_assoc; reflexivity|].
  unfold nonl. repeat (apply Forall_app; split); [repeat constructor|apply nonl_plain; exact A|apply nonl_spaces| |apply nonl_plain; exact B].
  destruct (has_letter signed o); repeat constructor. apply stored_nonl. exact P.
Qed.
Lemma help_lines signed os : Forall plain os -> lines (print_help signed os) = map (the_line signed (name_width os)) os.
Proof.
  unfold print_help. generalize (name_width os) as w. intros w F. induction F as [|o os P F IH]; [reflexivity|]. cbn [flat_map map].
  destruct (row_line signed w o P) as (-> & N). rewrite <- app_assoc. unfold lines. cbn [app]. rewrite (lines_row _ _ N). cbn [app]. rewrite IH. reflexivity.
Qed.
Lemma width_ge : forall os w, w <= fold_left (fun w o => Nat.max w (length (h_name o))) os w /\ Forall (fun o => length (h_name o) <= fold_left (fun w o => Nat.max w (length (h_name o))) os w) os.
Proof.
  induction os as [|o os IH]; intros w; cbn [fold_left]; [split; [lia|constructor]|]. destruct (IH (Nat.max w (length (h_name o)))) as (A & B). split; [lia|]. constructor; [lia|exact B].
Qed.
Lemma column_app a : forall b n, column n (a ++ b) = column (column n a) b.
Proof. induction a as [|c a IH]; intros b n; cbn [column app]; [reflexivity|apply IH]. Qed.
Lemma column_plain t : forallb printable t = true -> forall n, column n t = n + length t.
Proof.
  induction t as [|c t IH]; cbn [forallb column length]; intros H n; [lia|]. apply andb_prop in H. destruct H as (A & B). rewrite (printable_not c x09 A eq_refl), (IH B). lia.
Qed.
Lemma column_spaces w n : 0 < w -> column n (spaces w) = n + w.
Proof. intros L. unfold spaces. rewrite column_plain; [rewrite repeat_length; lia|]. rewrite forallb_forall. intros c I. apply repeat_spec in I. subst. reflexivity. Qed.
Lemma signed_letter o : plain o -> has_letter true o = match h_short o with Some _ => true | None => false end.
Proof. intros P. unfold has_letter, stored. destruct (h_short o) as [c|] eqn:E; [|reflexivity]. rewrite (printable_not c xff (stored_printable o c P E) eq_refl). reflexivity. Qed.
Definition pre_line (w : nat) (o : hopt) : bytes := [x20; x20; x2d; x2d] ++ h_name o ++ spaces (w - length (h_name o) + 4).
Lemma pre_column w o : plain o -> length (h_name o) <= w -> column 0 (pre_line w o) = w + 8.
Proof.
  intros (A & _) L. unfold pre_line. rewrite !column_app, (column_plain _ A), column_spaces by lia. change (column 0 [x20; x20; x2d; x2d]) with 4. lia.
Qed.
Lemma blank_spaces w : blank (spaces w).
Proof. split; [unfold spaces; destruct (Nat.max w 1) eqn:E; [lia|discriminate]|]. rewrite Forall_forall. intros c I. apply repeat_spec in I. auto. Qed.
Lemma Forall2_map {A B} (P : A -> B -> Prop) (f : A -> B) l : Forall (fun x => P x (f x)) l -> Forall2 P l (map f l).
Proof. induction 1; cbn; constructor; auto. Qed.

(** ** Theorems *)

(** Where char is signed: one line for each option, in the order in which they
    were added, with its name, its letter and its text. *)
Theorem C145_lists_options_partial : forall os, Forall plain os -> Forall2 shows os (lines (print_help true os)).
Proof.
  intros os F. rewrite (help_lines true os F). apply Forall2_map. revert F. apply Forall_impl. intros o P. unfold shows, the_line. rewrite (signed_letter o P). unfold stored. destruct (h_short o) as [c|] eqn:E.
  - exists (spaces (name_width os - length (h_name o) + 4)), [x09]. split; [split; [discriminate|constructor; [auto|constructor]]|]. split; [reflexivity|]. split; [intros _; apply blank_spaces|discriminate].
  - exists [], (spaces (name_width os - length (h_name o) + 4) ++ [x09; x09]). split.
    { split; [intros X; apply app_eq_nil in X; destruct X as (_ & X); discriminate X|]. apply Forall_app. split; [apply blank_spaces|constructor; [auto|constructor; [auto|constructor]]]. }
    split; [cbn [app]; rewrite <- !app_assoc; reflexivity|]. split; [congruence|reflexivity].
Qed.
Print Assumptions C145_lists_options_partial.

(** The letters are below one another. *)
Theorem C145_letters_aligned_partial : forall os, Forall plain os -> exists k, Forall2 (letter_at k) os (lines (print_help true os)).
Proof.
  intros os F. exists (name_width os + 8). rewrite (help_lines true os F). apply Forall2_map. pose proof (proj2 (width_ge os 0)) as W. rewrite Forall_forall in *. intros o I c E.
  exists (pre_line (name_width os) o), (x09 :: h_doc o). split; [|apply pre_column; [exact (F o I)|exact (W o I)]].
  unfold the_line, pre_line. rewrite (signed_letter o (F o I)). unfold stored. rewrite E. rewrite <- !app_assoc. reflexivity.
Qed.
Print Assumptions C145_letters_aligned_partial.

Lemma doc_column os o : Forall plain os -> In o os -> doc_at (match h_short o with Some _ => 8 * ((name_width os + 10) / 8 + 1) | None => 8 * ((name_width os + 8) / 8 + 2) end) o (the_line true (name_width os) o).
Proof.
  intros F I. pose proof (proj2 (width_ge os 0)) as W. rewrite Forall_forall in *. pose proof (F o I) as P.
  exists (pre_line (name_width os) o ++ if has_letter true o then [x2d; stored o; x09] else [x09; x09]). split; [unfold the_line, pre_line; rewrite <- !app_assoc; reflexivity|].
  rewrite column_app, (pre_column (name_width os) o P (W o I)), (signed_letter o P). unfold stored. destruct (h_short o) as [c|] eqn:E.
  - cbn [column]. rewrite (printable_not c x09 (stored_printable o c P E) eq_refl). change (byte_eqb x2d x09) with false. change (byte_eqb x09 x09) with true. cbv iota. f_equal. f_equal. f_equal. lia.
  - cbn [column]. change (byte_eqb x09 x09) with true. cbv iota. rewrite (Nat.mul_comm 8 ((name_width os + 8) / 8 + 1)), Nat.div_mul by lia. lia.
Qed.
(** The texts are below one another if all options have a letter, or none has,
    or the longest name, divided by eight, leaves 6 or 7. *)
Definition uniform (os : list hopt) : Prop := Forall (fun o => h_short o <> None) os \/ Forall (fun o => h_short o = None) os \/ 6 <= name_width os mod 8.
Theorem C145_docs_aligned_partial : forall os, Forall plain os -> uniform os -> exists k, Forall2 (doc_at k) os (lines (print_help true os)).
Proof.
  intros os F U. rewrite (help_lines true os F). destruct U as [U|[U|U]].
  - exists (8 * ((name_width os + 10) / 8 + 1)). apply Forall2_map. apply Forall_forall. intros o I. pose proof (doc_column os o F I) as D. rewrite Forall_forall in U. specialize (U o I). destruct (h_short o); [exact D|congruence].
  - exists (8 * ((name_width os + 8) / 8 + 2)). apply Forall2_map. apply Forall_forall. intros o I. pose proof (doc_column os o F I) as D. rewrite Forall_forall in U. rewrite (U o I) in D. exact D.
  - exists (8 * ((name_width os + 8) / 8 + 2)). apply Forall2_map. apply Forall_forall. intros o I. pose proof (doc_column os o F I) as D. destruct (h_short o); [|exact D].
    replace (8 * ((name_width os + 8) / 8 + 2)) with (8 * ((name_width os + 10) / 8 + 1)); [exact D|]. set (w := name_width os) in *.
    pose proof (Nat.div_mod w 8 ltac:(lia)) as Q. pose proof (Nat.mod_upper_bound w 8 ltac:(lia)) as R.
    assert (A : (w + 10) / 8 = w / 8 + 2) by (symmetry; apply (Nat.div_unique (w + 10) 8 (w / 8 + 2) (w mod 8 - 6)); lia).
    assert (B : (w + 8) / 8 = w / 8 + 1) by (symmetry; apply (Nat.div_unique (w + 8) 8 (w / 8 + 1) (w mod 8)); lia). lia.
Qed.
Print Assumptions C145_docs_aligned_partial.

(** The converse: with options of both kinds and another longest name they are not. *)
Lemma doc_at_unique k k' o l : doc_at k o l -> doc_at k' o l -> k = k'.
Proof. intros (p & -> & <-) (p' & E & <-). apply app_inv_tail in E. subst. reflexivity. Qed.
Theorem C145_docs_aligned_refuted : forall os o o', Forall plain os -> In o os -> In o' os -> h_short o <> None -> h_short o' = None -> name_width os mod 8 < 6 ->
  ~ exists k, Forall2 (doc_at k) os (lines (print_help true os)).
Proof.
  intros os o o' F I I' S S' M (k & H). rewrite (help_lines true os F) in H.
  assert (K : forall x, In x os -> doc_at k x (the_line true (name_width os) x)).
  { revert H. generalize (the_line true (name_width os)) as f. clear. intros f H. remember (map f os) as ls eqn:E. revert E. induction H as [|x l xs ls D H IH]; cbn [map]; intros E y Y; [destruct Y|]. injection E as -> ->. destruct Y as [->|Y]; [exact D|apply IH; auto]. }
  pose proof (doc_at_unique _ _ _ _ (K o I) (doc_column os o F I)) as A. pose proof (doc_at_unique _ _ _ _ (K o' I') (doc_column os o' F I')) as A'. rewrite S' in A'. destruct (h_short o); [|congruence]. set (w := name_width os) in *.
  pose proof (Nat.div_mod w 8 ltac:(lia)) as Q. pose proof (Nat.mod_upper_bound w 8 ltac:(lia)) as R.
  assert (B : (w + 10) / 8 = w / 8 + 1) by (symmetry; apply (Nat.div_unique (w + 10) 8 (w / 8 + 1) (w mod 8 + 2)); lia).
  assert (C : (w + 8) / 8 = w / 8 + 1) by (symmetry; apply (Nat.div_unique (w + 8) 8 (w / 8 + 1) (w mod 8)); lia). lia.
Qed.
Print Assumptions C145_docs_aligned_refuted.

(** The library's own option conf, -c, and an option port without a letter: the
    texts begin in columns 16 and 24. *)
Definition o_conf : hopt := mkH [x63; x6f; x6e; x66] [x6c; x6f; x61; x64] (Some x63).
Definition o_port : hopt := mkH [x70; x6f; x72; x74] [x74; x6f] None.
Example C145_nonvacuous : Forall plain [o_conf; o_port] /\ name_width [o_conf; o_port] mod 8 < 6 /\
  (exists l l', lines (print_help true [o_conf; o_port]) = [l; l'] /\ doc_at 16 o_conf l /\ doc_at 24 o_port l') /\ uniform [o_conf; mkH [x70; x6f; x72; x74; x73; x31] [x74; x6f] None].
Proof.
  assert (P : Forall plain [o_conf; o_port]) by (apply Forall_cons; [|apply Forall_cons; [|apply Forall_nil]]; (split; [reflexivity|split; [reflexivity|intros c H; cbn in H; try discriminate H; injection H as <-; reflexivity]])). split; [exact P|]. split; [vm_compute; lia|]. split.
  - eexists. eexists. split; [rewrite (help_lines true _ P); reflexivity|]. split; [exact (doc_column [o_conf; o_port] o_conf P (or_introl eq_refl))|exact (doc_column [o_conf; o_port] o_port P (or_intror (or_introl eq_refl)))].
  - right. right. vm_compute. lia.
Qed.

(** Where char is unsigned (as on ARM), an option without a letter is shown with
    the letter 0xff, because its -1 has become 255. *)
Theorem C145_unsigned_refuted : forall os o, Forall plain os -> In o os -> h_short o = None -> ~ Forall2 shows os (lines (print_help false os)).
Proof.
  intros os o F I N H. rewrite (help_lines false os F) in H.
  assert (K : forall x, In x os -> shows x (the_line false (name_width os) x)).
  { revert H. generalize (the_line false (name_width os)) as f. clear. intros f H. remember (map f os) as ls eqn:E. revert E. induction H as [|x l xs ls D H IH]; cbn [map]; intros E y Y; [destruct Y|]. injection E as -> ->. destruct Y as [->|Y]; [exact D|apply IH; auto]. }
  destruct (K o I) as (a & b & (_ & B) & E & _ & A). rewrite N in E. rewrite (A N) in E. unfold the_line in E. cbn [has_letter] in E. unfold stored in E. rewrite N in E.
  apply app_inv_head in E. apply app_inv_head in E. cbn [app] in E.
  assert (G : spaces (name_width os - length (h_name o) + 4) ++ [x2d; xff; x09] = b).
  { apply (app_inv_tail (h_doc o)). rewrite <- app_assoc. exact E. }
  rewrite Forall_forall in B. destruct (B xff) as [X|X]; [|discriminate X|discriminate X]. rewrite <- G. apply in_or_app. right. right. left. reflexivity.
Qed.
Print Assumptions C145_unsigned_refuted.

Theorem C145_help_full_refuted : ~ C145_help_full.
Proof.
  intros H. destruct C145_nonvacuous as (P & M & _). destruct (H true [o_conf; o_port] P) as (_ & K).
  exact (C145_docs_aligned_refuted [o_conf; o_port] o_conf o_port P (or_introl eq_refl) (or_intror (or_introl eq_refl)) ltac:(discriminate) eq_refl M K).
Qed.
Print Assumptions C145_help_full_refuted.

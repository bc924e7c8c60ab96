(** C77-C83: Config. *)
From Coq Require Import String Arith NArith ZArith List Bool Lia.
From Coq.Init Require Import Byte.
From Verif Require Import Base StreamModel UtilModel UtilProps ConfModel.
Import ListNotations.

(** ** Specification *)

(** A text divided into lines. *)
Inductive is_lines : bytes -> list bytes -> Prop :=
| il_nil : is_lines [] []
| il_last l : l <> [] -> ~ In x0a l -> is_lines l [l]
| il_cons l d ls : ~ In x0a l -> is_lines d ls -> is_lines (l ++ x0a :: d) (l :: ls).

(** Blanks: tab, carriage return, line feed, space. *)
Definition blanks : bytes := [x09; x0d; x0a; x20].

(** The line says name = value. *)
Definition says (l n v : bytes) : Prop := exists a b, l = a ++ x3d :: b /\ ~ In x3d a /\ trimmed blanks a n /\ trimmed blanks b v.

(** A file of lines of less than 65534 characters, without NUL. *)
Definition plain (d : bytes) : Prop := ~ In x00 d /\ forall ls, is_lines d ls -> forall l, In l ls -> (N.of_nat (length l) < 65534)%N.

Section R.
Variable fs : bytes -> option bytes.
Variable names : bytes -> option nat.
Variable isconf : nat -> bool.

(** The settings read from a file, in order: option and text.  A setting of an option
    that includes a file stands for the settings of that file. *)
Inductive reads : bytes -> list (nat * bytes) -> Prop :=
| R_none f : fs f = None -> reads f []
| R_file f d ls l : fs f = Some d -> is_lines d ls -> reads_lines ls l -> reads f l
with reads_lines : list bytes -> list (nat * bytes) -> Prop :=
| RL_nil : reads_lines [] []
| RL_text x ls l : ~ In x3d x -> reads_lines ls l -> reads_lines (x :: ls) l
| RL_unknown x n v ls l : says x n v -> names n = None -> reads_lines ls l -> reads_lines (x :: ls) l
| RL_set x n v i ls l : says x n v -> names n = Some i -> isconf i = false -> reads_lines ls l -> reads_lines (x :: ls) ((i, v) :: l)
| RL_conf x n v i ls l1 l2 : says x n v -> names n = Some i -> isconf i = true -> reads v l1 -> reads_lines ls l2 -> reads_lines (x :: ls) (l1 ++ l2).

Definition text_of (a : option bytes) : bytes := match a with Some t => t | None => [] end.

(** The settings on the command line. *)
Inductive reads_cmd : list gev -> list (nat * bytes) -> Prop :=
| RC_nil : reads_cmd [] []
| RC_set e i a es l : (e = GLong i a \/ exists c, e = GShort c a /\ names [c] = Some i) -> isconf i = false -> reads_cmd es l -> reads_cmd (e :: es) ((i, text_of a) :: l)
| RC_conf e i a es l1 l2 : (e = GLong i a \/ exists c, e = GShort c a /\ names [c] = Some i) -> isconf i = true -> reads (text_of a) l1 -> reads_cmd es l2 -> reads_cmd (e :: es) (l1 ++ l2).
End R.

(** Numbers. *)
Definition dig (c : byte) : Z := Z.of_N (byte_val c) - 48.
Definition digit (c : byte) : Prop := (0 <= dig c <= 9)%Z.
Fixpoint number (ds : bytes) : Z := match ds with [] => 0%Z | c :: r => (dig c * 10 ^ Z.of_nat (length r) + number r)%Z end.
(** Optional sign, digits. *)
Inductive decimal : bytes -> Z -> Prop :=
| D_plain ds : ds <> [] -> Forall digit ds -> decimal ds (number ds)
| D_plus ds : ds <> [] -> Forall digit ds -> decimal (x2b :: ds) (number ds)
| D_minus ds : ds <> [] -> Forall digit ds -> decimal (x2d :: ds) (- number ds).
Definition int_range (z : Z) : Prop := (-2147483648 <= z <= 2147483647)%Z.
(** What the text begins with, after white space, is the number. *)
Definition begins_with (t : bytes) (z : Z) : Prop :=
  exists w n r, t = w ++ n ++ r /\ Forall (fun c => is_space c = true) w /\ decimal n z /\ (forall c r', r = c :: r' -> ~ digit c).

(** The value an option ends up with: [xs] are the texts it was set to. *)
Inductive settled : oval -> list bytes -> oval -> Prop :=
| S_none v : settled v [] v
| S_flag b x xs : settled (VFlag b) (x :: xs) (VFlag true)
| S_str t xs x : settled (VStr t) (xs ++ [x]) (VStr x)
| S_int z xs x y : begins_with x y -> int_range y -> settled (VInt z) (xs ++ [x]) (VInt y)
| S_vec l xs : settled (VVec l) xs (VVec (l ++ xs)).

Definition cell_of (s : cfg) (i : nat) : nat := match nth_error (c_opts s) i with Some o => o_val o | None => 0 end.
(** The texts among the settings that concern a cell. *)
Definition for_cell (s : cfg) (c : nat) (l : list (nat * bytes)) : list bytes :=
  map snd (filter (fun x => Nat.eqb (cell_of s (fst x)) c) l).
Definition opt_names (s : cfg) (n : bytes) : option nat := lookup n (c_conf s).
Definition is_conf (s : cfg) (i : nat) : bool := match nth_error (c_opts s) i with Some o => match o_act o, c_vals s (o_val o) with SetVal, VConf => true | _, _ => false end | None => false end.

(** ** Lines *)

Lemma nul_dec c : (byte_val c =? 0)%N = true <-> c = x00.
Proof. rewrite N.eqb_eq. split; [intros H; apply byte_val_inj; exact H|intros ->; reflexivity]. Qed.
Lemma cstr_id l : ~ In x00 l -> cstr l = l.
Proof.
  induction l as [|c l IH]; intros H; [reflexivity|]. cbn [cstr]. destruct (byte_val c =? 0)%N eqn:E.
  - apply nul_dec in E. subst. exfalso. apply H. left. reflexivity.
  - rewrite IH; [reflexivity|]. intros I. apply H. right. exact I.
Qed.

Lemma fgets_nl n l d : ~ In x0a l -> length l < n -> fgets n (l ++ x0a :: d) = (l ++ [x0a], d).
Proof.
  revert n. induction l as [|c l IH]; intros n H L; (destruct n as [|n]; [cbn in L; lia|]); cbn [fgets app].
  - reflexivity.
  - destruct (byte_eqb c x0a) eqn:E; [apply byte_eqb_eq in E; subst; exfalso; apply H; left; reflexivity|].
    rewrite IH; [reflexivity| |cbn in L; lia]. intros I. apply H. right. exact I.
Qed.
Lemma fgets_last n l : ~ In x0a l -> length l <= n -> fgets n l = (l, []).
Proof.
  revert n. induction l as [|c l IH]; intros n H L; [destruct n; reflexivity|]. destruct n as [|n]; [cbn in L; lia|]. cbn [fgets].
  destruct (byte_eqb c x0a) eqn:E; [apply byte_eqb_eq in E; subst; exfalso; apply H; left; reflexivity|].
  rewrite IH; [reflexivity| |cbn in L; lia]. intros I. apply H. right. exact I.
Qed.

Definition line_of (c l : bytes) : Prop := c = l \/ c = l ++ [x0a].

Lemma LIM_val : N.of_nat LIM = 65535%N.
Proof. unfold LIM. apply N2Nat.id. Qed.
Global Opaque LIM.

Lemma chunks_lines d ls : is_lines d ls -> forall fuel, length d <= fuel -> (forall l, In l ls -> (N.of_nat (length l) < 65534)%N) -> Forall2 line_of (chunks fuel d) ls.
Proof.
  pose proof LIM_val as LV. induction 1 as [|l N0 NL|l d ls NL H IH]; intros fuel F S.
  - destruct fuel; constructor.
  - destruct l as [|c l]; [contradiction N0; reflexivity|]. destruct fuel as [|fuel]; [cbn in F; lia|]. cbn [chunks].
    rewrite fgets_last; [|exact NL|specialize (S _ (or_introl eq_refl)); lia]. destruct fuel; repeat constructor.
  - assert (E : chunks fuel (l ++ x0a :: d) = (l ++ [x0a]) :: chunks (pred fuel) d).
    { destruct fuel as [|fuel]; [rewrite app_length in F; cbn in F; lia|]. destruct (l ++ x0a :: d) as [|c r] eqn:E; [destruct l; discriminate E|].
      cbn [chunks]. rewrite <- E. rewrite fgets_nl; [reflexivity|exact NL|specialize (S _ (or_introl eq_refl)); lia]. }
    rewrite E. constructor; [right; reflexivity|]. apply IH; [rewrite app_length in F; cbn in F; lia|]. intros x I. apply S. right. exact I.
Qed.

Lemma lines_in d ls : is_lines d ls -> forall l, In l ls -> forall c, In c l -> In c d.
Proof.
  induction 1 as [|l0 N0 NL|l0 d ls NL H IH]; intros l I c C; [destruct I|destruct I as [<-|[]]; exact C|].
  apply in_or_app. destruct I as [<-|I]; [left; exact C|right; right]. exact (IH _ I _ C).
Qed.

Lemma lines_ex d : exists ls, is_lines d ls.
Proof.
  assert (G : forall d l, ~ In x0a l -> exists ls, is_lines (l ++ d) ls).
  { clear d. induction d as [|c d IH]; intros l H.
    - destruct l as [|x l]; [exists []; constructor|]. rewrite app_nil_r. exists [x :: l]. constructor; [discriminate|exact H].
    - destruct (byte_eqb c x0a) eqn:E.
      + apply byte_eqb_eq in E. subst. destruct (IH [] (fun x => x)) as (ls & L). exists (l :: ls). constructor; assumption.
      + destruct (IH (l ++ [c])) as (ls & L); [|exists ls; rewrite <- app_assoc in L; exact L].
        intros I. apply in_app_or in I. destruct I as [I|[I|[]]]; [exact (H I)|]. subst. discriminate E. }
  exact (G d [] (fun x => x)).
Qed.

Lemma find_eq l : find_sub [x3d] l = None -> ~ In x3d l.
Proof.
  induction l as [|c l IH]; intros E I; [destruct I|]. cbn [find_sub prefixb] in E. destruct (byte_eqb x3d c) eqn:B; [discriminate E|].
  cbn [andb] in E. destruct (find_sub [x3d] l) eqn:F; [discriminate E|]. destruct I as [I|I]; [subst c; discriminate B|]. exact (IH eq_refl I).
Qed.
Lemma find_eq_some l p : find_sub [x3d] l = Some p -> exists a b, l = a ++ x3d :: b /\ ~ In x3d a /\ p = length a.
Proof.
  revert p. induction l as [|c l IH]; intros p E; [discriminate E|]. cbn [find_sub prefixb] in E. destruct (byte_eqb x3d c) eqn:B.
  - apply byte_eqb_eq in B. subst. injection E as <-. exists [], l. split; [reflexivity|]. split; [intros []|reflexivity].
  - cbn [andb] in E. destruct (find_sub [x3d] l) as [q|]; [|discriminate E]. injection E as <-. destruct (IH q eq_refl) as (a & b & -> & A & ->).
    exists (c :: a), b. split; [reflexivity|]. split; [|reflexivity]. intros [I|I]; [subst c; discriminate B|exact (A I)].
Qed.
Lemma find_eq_in a b : ~ In x3d a -> find_sub [x3d] (a ++ x3d :: b) = Some (length a).
Proof.
  induction a as [|c a IH]; intros H; [destruct b; reflexivity|]. cbn [find_sub prefixb app]. destruct (byte_eqb x3d c) eqn:B; [apply byte_eqb_eq in B; subst; exfalso; apply H; left; reflexivity|].
  cbn [andb]. rewrite IH; [reflexivity|]. intros I. apply H. right. exact I.
Qed.

Lemma trimmed_nl b v : trimmed blanks b v -> trimmed blanks (b ++ [x0a]) v.
Proof.
  intros (x & y & E & X & Y & H1 & H2). exists x, (y ++ [x0a]). split; [rewrite E, <- !app_assoc; reflexivity|]. split; [exact X|]. split; [|auto].
  apply Forall_app. split; [exact Y|]. constructor; [right; right; left; reflexivity|constructor].
Qed.
Lemma trim_blanks s v : trimmed blanks s v -> trim s default_space = v.
Proof. intros H. apply (C68_trim_unique blanks s); [apply C68_trim|exact H]. Qed.
Lemma trimmed_in s v c : trimmed blanks s v -> In c v -> In c s.
Proof. intros (x & y & E & _) I. rewrite E. apply in_or_app. right. apply in_or_app. left. exact I. Qed.

Section L.
Variable ld : bytes -> cfg -> res bool.

Lemma load_line_text c l s : line_of c l -> ~ In x00 l -> (N.of_nat (length l) < 65534)%N -> ~ In x3d l -> load_line ld c s = Ok tt s.
Proof.
  intros LO NUL LN NE. pose proof LIM_val as LV.
  assert (C : cstr c = c). { apply cstr_id. destruct LO as [->| ->]; [exact NUL|]. intros I. apply in_app_or in I. destruct I as [I|[I|[]]]; [exact (NUL I)|discriminate I]. }
  assert (LC : length c <= S (length l)) by (destruct LO as [->| ->]; [lia|rewrite app_length; cbn; lia]).
  unfold load_line. rewrite C. destruct (Nat.eqb_spec (length c) LIM) as [E|_]; [lia|].
  destruct (find_sub [x3d] c) as [p|] eqn:F; [|reflexivity]. exfalso. apply find_eq_some in F. destruct F as (a & b & E & _).
  assert (I : In x3d c) by (rewrite E; apply in_or_app; right; left; reflexivity).
  destruct LO as [->| ->]; [exact (NE I)|]. apply in_app_or in I. destruct I as [I|[I|[]]]; [exact (NE I)|discriminate I].
Qed.

Lemma load_line_says c l s n v : line_of c l -> ~ In x00 l -> (N.of_nat (length l) < 65534)%N -> says l n v ->
  load_line ld c s = match lookup n (c_conf s) with None => Ok tt s | Some _ => update_name ld n (Some v) s end.
Proof.
  intros LO NUL LN (a & b & E & NE & Ta & Tb). pose proof LIM_val as LV.
  assert (C : cstr c = c). { apply cstr_id. destruct LO as [->| ->]; [exact NUL|]. intros I. apply in_app_or in I. destruct I as [I|[I|[]]]; [exact (NUL I)|discriminate I]. }
  assert (LC : length c <= S (length l)) by (destruct LO as [->| ->]; [lia|rewrite app_length; cbn; lia]).
  assert (X : exists b', c = a ++ x3d :: b' /\ trimmed blanks b' v).
  { destruct LO as [->| ->]; [exists b; auto|]. exists (b ++ [x0a]). split; [rewrite E, <- app_assoc; reflexivity|apply trimmed_nl; exact Tb]. }
  destruct X as (b' & Ec & Tb'). unfold load_line. rewrite C. destruct (Nat.eqb_spec (length c) LIM) as [X|_]; [lia|].
  rewrite Ec, find_eq_in by exact NE. rewrite firstn_app, Nat.sub_diag, firstn_all. cbn [firstn]. rewrite app_nil_r.
  replace (skipn (length a + 1) (a ++ x3d :: b')) with b'.
  2:{ rewrite skipn_app, skipn_all2 by lia. replace (length a + 1 - length a) with 1 by lia. reflexivity. }
  rewrite (trim_blanks _ _ Ta), (trim_blanks _ _ Tb'). rewrite (cstr_id v); [reflexivity|].
  intros I. apply NUL. rewrite E. apply in_or_app. right. right. exact (trimmed_in _ _ _ Tb I).
Qed.
End L.

Lemma says_or_text l : ~ In x3d l \/ exists n v, says l n v.
Proof.
  destruct (find_sub [x3d] l) as [p|] eqn:F; [right|left; apply find_eq; exact F].
  apply find_eq_some in F. destruct F as (a & b & -> & A & _). exists (trim a default_space), (trim b default_space). exists a, b. repeat split; auto; apply C68_trim.
Qed.

(** ** Numbers *)

Lemma is_digit_iff c : is_digit c = true <-> digit c.
Proof. unfold is_digit, digit, dig. rewrite andb_true_iff, !N.leb_le. lia. Qed.

Lemma digits_spec s : exists r, s = digits s ++ r /\ Forall digit (digits s) /\ (forall c r', r = c :: r' -> ~ digit c).
Proof.
  induction s as [|c s (r & E & F & H)]; [exists []; repeat split; [constructor|discriminate]|]. cbn [digits]. destruct (is_digit c) eqn:D.
  - exists r. split; [cbn [app]; f_equal; exact E|]. split; [constructor; [apply is_digit_iff; exact D|exact F]|exact H].
  - exists (c :: s). split; [reflexivity|]. split; [constructor|]. intros x r' X. injection X as <- _. rewrite <- is_digit_iff. congruence.
Qed.
Lemma digits_app ds r : Forall digit ds -> (forall c r', r = c :: r' -> ~ digit c) -> digits (ds ++ r) = ds.
Proof.
  intros F H. induction F as [|c ds D F IH]; cbn [app digits].
  - destruct r as [|c r]; [reflexivity|]. cbn [digits]. specialize (H c r eq_refl). rewrite <- is_digit_iff in H. destruct (is_digit c); [contradiction H; reflexivity|reflexivity].
  - apply is_digit_iff in D. rewrite D, IH. reflexivity.
Qed.
Lemma dec_number ds : forall acc, dec_value acc ds = (acc * 10 ^ Z.of_nat (length ds) + number ds)%Z.
Proof.
  induction ds as [|c ds IH]; intros acc; cbn [dec_value number length]; [rewrite Z.mul_1_r, Z.add_0_r; reflexivity|].
  rewrite IH. unfold dig. rewrite Nat2Z.inj_succ, Z.pow_succ_r by lia. ring.
Qed.
Lemma dec_number0 ds : dec_value 0 ds = number ds.
Proof. rewrite dec_number. lia. Qed.

Lemma skip_spec s : exists w, s = w ++ skip_space s /\ Forall (fun c => is_space c = true) w.
Proof.
  induction s as [|c s (w & E & F)]; [exists []; split; [reflexivity|constructor]|]. cbn [skip_space]. destruct (is_space c) eqn:D.
  - exists (c :: w). split; [cbn [app]; f_equal; exact E|constructor; assumption].
  - exists []. split; [reflexivity|constructor].
Qed.
Lemma skip_app w s : Forall (fun c => is_space c = true) w -> (forall c r, s = c :: r -> is_space c = false) -> skip_space (w ++ s) = s.
Proof.
  intros F H. induction F as [|c w D F IH]; cbn [app skip_space]; [|rewrite D; exact IH].
  destruct s as [|c s]; [reflexivity|]. cbn [skip_space]. rewrite (H c s eq_refl). reflexivity.
Qed.
Lemma digit_props c : digit c -> is_space c = false /\ byte_eqb c x2d = false /\ byte_eqb c x2b = false.
Proof.
  intros D. unfold digit, dig in D. split; [|split].
  - unfold is_space. apply orb_false_iff. split; [apply N.eqb_neq; lia|]. apply andb_false_iff. right. apply N.leb_gt. lia.
  - destruct (byte_eqb c x2d) eqn:E; [|reflexivity]. apply byte_eqb_eq in E. subst. cbn in D. lia.
  - destruct (byte_eqb c x2b) eqn:E; [|reflexivity]. apply byte_eqb_eq in E. subst. cbn in D. lia.
Qed.

Definition to_int (z : Z) : stoi_res := if ((-2147483648 <=? z) && (z <=? 2147483647))%Z then SVal z else SRange.

Lemma stoi_begins t z : begins_with t z -> stoi t = to_int z.
Proof.
  intros (w & n & r & -> & W & D & R). unfold stoi. rewrite skip_app; [|exact W|].
  2:{ intros c r' E. destruct D as [ds N F|ds N F|ds N F]; [|injection E as <- _; reflexivity|injection E as <- _; reflexivity].
      destruct F as [|x ds X F]; [contradiction N; reflexivity|]. injection E as <- _. apply digit_props. exact X. }
  destruct D as [ds N F|ds N F|ds N F].
  - assert (G : digits (ds ++ r) = ds) by (apply digits_app; assumption). destruct ds as [|c ds]; [contradiction N; reflexivity|]. inversion F as [|? ? X F']; subst. cbn [app] in *.
    destruct (digit_props c X) as (_ & -> & ->). rewrite G. rewrite dec_number0. reflexivity.
  - cbn [app]. change (byte_eqb x2b x2d) with false. change (byte_eqb x2b x2b) with true. cbn iota. rewrite digits_app by assumption. destruct ds as [|c ds]; [contradiction N; reflexivity|]. rewrite dec_number0. reflexivity.
  - cbn [app]. change (byte_eqb x2d x2d) with true. cbn iota. rewrite digits_app by assumption. destruct ds as [|c ds]; [contradiction N; reflexivity|]. rewrite dec_number0. reflexivity.
Qed.

Lemma stoi_valid t : stoi t = SInvalid \/ exists z, begins_with t z /\ stoi t = to_int z.
Proof.
  destruct (skip_spec t) as (w & E & W). set (s1 := skip_space t) in *.
  assert (G : forall sg s2, s1 = sg ++ s2 -> (sg = [] \/ sg = [x2b] \/ sg = [x2d]) -> digits s2 <> [] -> exists z, begins_with t z).
  { intros sg s2 E1 SG ND. destruct (digits_spec s2) as (r & E2 & F & R). 
    assert (D : exists z, decimal (sg ++ digits s2) z).
    { destruct SG as [->|[->| ->]]; [exists (number (digits s2)); constructor 1|exists (number (digits s2)); constructor 2|exists (- number (digits s2))%Z; constructor 3]; assumption. }
    destruct D as (z & D). exists z, w, (sg ++ digits s2), r. split; [rewrite <- app_assoc, <- E2, <- E1; exact E|]. repeat split; assumption. }
  assert (K : stoi t = SInvalid \/ exists z, begins_with t z).
  { unfold stoi. fold s1. destruct s1 as [|c r] eqn:S1; [left; reflexivity|]. destruct (byte_eqb c x2d) eqn:B1; [|destruct (byte_eqb c x2b) eqn:B2].
    - apply byte_eqb_eq in B1. subst. destruct (digits r) eqn:D; [left; reflexivity|right]. apply (G [x2d] r); [reflexivity|auto|congruence].
    - apply byte_eqb_eq in B2. subst. destruct (digits r) eqn:D; [left; reflexivity|right]. apply (G [x2b] r); [reflexivity|auto|congruence].
    - destruct (digits (c :: r)) eqn:D; [left; reflexivity|right]. apply (G [] (c :: r)); [reflexivity|auto|congruence]. }
  destruct K as [K|(z & K)]; [left; exact K|right]. exists z. split; [exact K|]. apply stoi_begins. exact K.
Qed.

Lemma to_int_val z y : to_int z = SVal y <-> z = y /\ int_range y.
Proof.
  unfold to_int, int_range. destruct ((-2147483648 <=? z) && (z <=? 2147483647))%Z eqn:B.
  - apply andb_true_iff in B. rewrite !Z.leb_le in B. split; [intros X; injection X as <-; auto|intros (-> & _); reflexivity].
  - split; [discriminate|]. intros (-> & R). rewrite andb_false_iff, !Z.leb_gt in B. lia.
Qed.

Lemma stoi_spec t z : stoi t = SVal z <-> begins_with t z /\ int_range z.
Proof.
  split.
  - intros E. destruct (stoi_valid t) as [X|(y & B & X)]; rewrite X in E; [discriminate E|]. apply to_int_val in E. destruct E as (<- & R). auto.
  - intros (B & R). rewrite (stoi_begins _ _ B). apply to_int_val. auto.
Qed.
Lemma stoi_invalid t : stoi t = SInvalid <-> forall z, ~ begins_with t z.
Proof.
  split.
  - intros E z B. apply stoi_begins in B. rewrite E in B. unfold to_int in B. destruct (_ && _); discriminate B.
  - intros H. destruct (stoi_valid t) as [X|(y & B & _)]; [exact X|]. exfalso. exact (H y B).
Qed.

(** ** What a successful load does *)

Inductive kind := KFlag | KStr | KInt | KVec | KConf.
Definition kind_of (v : oval) : kind := match v with VFlag _ => KFlag | VStr _ => KStr | VInt _ => KInt | VVec _ => KVec | VConf => KConf end.

Lemma settled_app v xs w ys u : settled v xs w -> settled w ys u -> settled v (xs ++ ys) u.
Proof.
  intros H1 H2. destruct H1 as [v|b x xs|t xs x|z xs x y B R|l xs].
  - exact H2.
  - cbn [app]. inversion H2; subst; constructor.
  - inversion H2; subst; [rewrite app_nil_r; constructor|rewrite app_assoc; constructor].
  - inversion H2; subst; [rewrite app_nil_r; constructor; assumption|rewrite app_assoc; constructor; assumption].
  - inversion H2; subst; [rewrite app_nil_r; constructor|rewrite <- app_assoc; constructor].
Qed.

Record same (s s' : cfg) : Prop := mkSame { sm_opts : c_opts s' = c_opts s; sm_conf : c_conf s' = c_conf s; sm_kind : forall c, kind_of (c_vals s' c) = kind_of (c_vals s c) }.
Lemma same_refl s : same s s.
Proof. constructor; reflexivity. Qed.
Lemma same_trans a b c : same a b -> same b c -> same a c.
Proof. intros [H1 H2 H3] [H4 H5 H6]. constructor; [congruence|congruence|intros d; rewrite H6; apply H3]. Qed.
Lemma same_open s n : same s (set_open n s).
Proof. constructor; reflexivity. Qed.
Lemma same_is_conf s s' i : same s s' -> is_conf s' i = is_conf s i.
Proof.
  intros [H1 H2 H3]. unfold is_conf. rewrite H1. destruct (nth_error (c_opts s) i) as [o|]; [|reflexivity]. specialize (H3 (o_val o)).
  destruct (o_act o); try reflexivity. destruct (c_vals s' (o_val o)), (c_vals s (o_val o)); try reflexivity; discriminate H3.
Qed.

Section D.
Variable s0 : cfg.
Definition done (s : cfg) (l : list (nat * bytes)) (s' : cfg) : Prop := same s s' /\ forall c, settled (c_vals s c) (for_cell s0 c l) (c_vals s' c).

Lemma done_nil s s' : same s s' -> (forall c, c_vals s' c = c_vals s c) -> done s [] s'.
Proof. intros S H. split; [exact S|]. intros c. rewrite H. constructor. Qed.
Lemma for_cell_app c l l' : for_cell s0 c (l ++ l') = for_cell s0 c l ++ for_cell s0 c l'.
Proof. unfold for_cell. rewrite filter_app, map_app. reflexivity. Qed.
Lemma done_app s l s' l' s'' : done s l s' -> done s' l' s'' -> done s (l ++ l') s''.
Proof. intros (S1 & H1) (S2 & H2). split; [exact (same_trans _ _ _ S1 S2)|]. intros c. rewrite for_cell_app. exact (settled_app _ _ _ _ _ (H1 c) (H2 c)). Qed.

Lemma done_set s i o t v : same s0 s -> nth_error (c_opts s) i = Some o -> kind_of v = kind_of (c_vals s (o_val o)) -> settled (c_vals s (o_val o)) [t] v ->
  done s [(i, t)] (set_cell (o_val o) v s).
Proof.
  intros S N K H. rewrite (sm_opts _ _ S) in N. split.
  - constructor; try reflexivity. intros c. cbn [set_cell c_vals]. destruct (Nat.eqb_spec c (o_val o)); [subst; exact K|reflexivity].
  - intros c. cbn [set_cell c_vals for_cell]. unfold for_cell, cell_of. cbn [filter fst]. rewrite N, Nat.eqb_sym. destruct (Nat.eqb_spec c (o_val o)); [subst; exact H|constructor].
Qed.

Lemma update_ok ld s i o a s' u : same s0 s -> nth_error (c_opts s) i = Some o -> update ld o a s = Ok u s' ->
  if is_conf s0 i then exists b, ld (text_of a) s = Ok b s' else done s [(i, text_of a)] s'.
Proof.
  intros S N E. rewrite <- (same_is_conf _ _ i S). unfold is_conf. rewrite N. unfold update in E. destruct (o_act o).
  - destruct (c_vals s (o_val o)) eqn:V; try discriminate E. injection E as _ <-. apply done_set; try assumption; rewrite V; [reflexivity|constructor].
  - destruct a as [a|]; [|discriminate E]. cbn [text_of]. destruct (c_vals s (o_val o)) eqn:V; try discriminate E.
    + injection E as _ <-. apply done_set; try assumption; rewrite V; [reflexivity|]. apply (S_str t [] a).
    + destruct (stoi a) as [y| |] eqn:ST; try discriminate E. injection E as _ <-. apply done_set; try assumption; rewrite V; [reflexivity|]. apply stoi_spec in ST. destruct ST. apply (S_int z [] a); assumption.
    + destruct (ld a s) as [b s1|e s1| |]; try discriminate E. injection E as _ <-. exists b. reflexivity.
  - destruct a as [a|]; [|discriminate E]. cbn [text_of]. destruct (c_vals s (o_val o)) eqn:V; try discriminate E. injection E as _ <-. apply done_set; try assumption; rewrite V; [reflexivity|constructor].
Qed.

Variable fs : bytes -> option bytes.
Hypothesis PL : forall f d, fs f = Some d -> plain d.
Notation reads := (reads fs (opt_names s0) (is_conf s0)).
Notation reads_lines := (reads_lines fs (opt_names s0) (is_conf s0)).

Lemma load_ok : forall fuel f s b s', same s0 s -> load fs fuel f s = Ok b s' -> exists l, reads f l /\ done s l s'.
Proof.
  induction fuel as [|fuel IH]; intros f s b s' S E; [discriminate E|]. cbn [load] in E. destruct (fs f) as [d|] eqn:F.
  2:{ injection E as _ <-. exists []. split; [constructor; exact F|]. apply done_nil; [apply same_refl|reflexivity]. }
  destruct (lines_ex d) as (ls & L). destruct (PL _ _ F) as (NUL & SH). pose proof (chunks_lines _ _ L (length d) (le_n _) (SH _ L)) as C.
  assert (NL : forall l, In l ls -> ~ In x00 l) by (intros l I X; apply NUL; exact (lines_in _ _ L _ I _ X)).
  specialize (SH _ L). assert (X : forall cs ls, Forall2 line_of cs ls -> (forall l, In l ls -> ~ In x00 l) -> (forall l, In l ls -> (N.of_nat (length l) < 65534)%N) ->
    forall s u s', same s0 s -> load_lines (load fs fuel) cs s = Ok u s' -> exists l, reads_lines ls l /\ done s l s').
  { clear - IH. induction 1 as [|c l cs ls LO H2 IH2]; intros NL SH s u s' S E; cbn [load_lines] in E.
    - injection E as _ <-. exists []. split; [constructor|]. apply done_nil; [apply same_refl|reflexivity].
    - destruct (load_line (load fs fuel) c s) as [[] s1|e s1| |] eqn:E1; try discriminate E.
      assert (NL0 := NL l (or_introl eq_refl)). assert (SH0 := SH l (or_introl eq_refl)).
      assert (NX : same s s1 -> exists k, reads_lines ls k /\ done s1 k s').
      { intros S1. apply (IH2 (fun x I => NL x (or_intror I)) (fun x I => SH x (or_intror I)) s1 u s' (same_trans _ _ _ S S1) E). }
      destruct (says_or_text l) as [T|(n & v & T)].
      + rewrite (load_line_text _ _ _ _ LO NL0 SH0 T) in E1. injection E1 as <-. destruct (NX (same_refl _)) as (k & K1 & K2). exists k. split; [constructor; assumption|exact K2].
      + rewrite (load_line_says _ _ _ _ _ _ LO NL0 SH0 T) in E1. rewrite (sm_conf _ _ S) in E1. destruct (lookup n (c_conf s0)) as [i|] eqn:LK.
        * unfold update_name in E1. rewrite (sm_conf _ _ S), LK in E1. destruct (nth_error (c_opts s) i) as [o|] eqn:NT; [|discriminate E1].
          pose proof (update_ok _ _ _ _ _ _ _ S NT E1) as U. destruct (is_conf s0 i) eqn:IC.
          -- destruct U as (b & U). cbn [text_of] in U. destruct (IH _ _ _ _ S U) as (k1 & K1 & K1'). destruct (NX (proj1 K1')) as (k & K2 & K2'). exists (k1 ++ k). split; [eapply RL_conf; eassumption|exact (done_app _ _ _ _ _ K1' K2')].
          -- cbn [text_of] in U. destruct (NX (proj1 U)) as (k & K2 & K2'). exists ((i, v) :: k). split; [eapply RL_set; eassumption|]. exact (done_app _ [(i, v)] _ _ _ U K2').
        * injection E1 as <-. destruct (NX (same_refl _)) as (k & K1 & K2). exists k. split; [eapply RL_unknown; eassumption|exact K2]. }
  destruct (load_lines (load fs fuel) (chunks (length d) d) (set_open (Datatypes.S (c_open s)) s)) as [u s1|e s1| |] eqn:E1; try discriminate E. injection E as _ <-.
  destruct (X _ _ C NL SH _ _ _ (same_trans _ _ _ S (same_open s _)) E1) as (l & R & D). exists l. split; [eapply R_file; eassumption|].
  destruct D as (D1 & D2). split; [|exact D2]. exact (same_trans _ _ _ (same_open s _) (same_trans _ _ _ D1 (same_open s1 _))).
Qed.

Lemma cmd_ok : forall es fuel s u s', same s0 s -> parse_evs fs fuel es s = Ok u s' -> exists l, reads_cmd fs (opt_names s0) (is_conf s0) es l /\ done s l s'.
Proof.
  induction es as [|e es IH]; intros fuel s u s' S E; cbn [parse_evs] in E.
  - injection E as _ <-. exists []. split; [constructor|]. apply done_nil; [apply same_refl|reflexivity].
  - destruct (parse_ev fs fuel e s) as [[] s1|x s1| |] eqn:E1; try discriminate E.
    assert (X : exists i o a, (e = GLong i a \/ exists c, e = GShort c a /\ opt_names s0 [c] = Some i) /\ nth_error (c_opts s) i = Some o /\ update (load fs fuel) o a s = Ok tt s1).
    { destruct e as [i a|c a|]; cbn [parse_ev] in E1; [| |discriminate E1].
      - destruct (nth_error (c_opts s) i) as [o|] eqn:NT; [|discriminate E1]. exists i, o, a. auto.
      - unfold update_name in E1. rewrite (sm_conf _ _ S) in E1. destruct (lookup [c] (c_conf s0)) as [i|] eqn:LK; [|discriminate E1]. destruct (nth_error (c_opts s) i) as [o|] eqn:NT; [|discriminate E1].
        exists i, o, a. split; [right; exists c; auto|auto]. }
    destruct X as (i & o & a & X1 & X2 & X3). pose proof (update_ok _ _ _ _ _ _ _ S X2 X3) as U. destruct (is_conf s0 i) eqn:IC.
    + destruct U as (b & U). destruct (load_ok _ _ _ _ _ S U) as (k & K1 & K2). destruct (IH fuel s1 u s' (same_trans _ _ _ S (proj1 K2)) E) as (l & L1 & L2).
      exists (k ++ l). split; [eapply RC_conf; eassumption|exact (done_app _ _ _ _ _ K2 L2)].
    + destruct (IH fuel s1 u s' (same_trans _ _ _ S (proj1 U)) E) as (l & L1 & L2). exists ((i, text_of a) :: l). split; [eapply RC_set; eassumption|exact (done_app _ [(i, text_of a)] _ _ _ U L2)].
Qed.
End D.

(** ** C77 *)

(** A file that loads sets exactly what it and the files it includes say. *)
Theorem C77_file : forall fs fuel f s b s', (forall f d, fs f = Some d -> plain d) -> load fs fuel f s = Ok b s' ->
  exists l, reads fs (opt_names s) (is_conf s) f l /\ forall c, settled (c_vals s c) (for_cell s c l) (c_vals s' c).
Proof. intros fs fuel f s b s' PL E. destruct (load_ok s fs PL _ _ _ _ _ (same_refl s) E) as (l & R & _ & D). exists l. auto. Qed.

(** The command line is applied after the configuration file. *)
Theorem C77_parse : forall fs fuel f es s u s', (forall f d, fs f = Some d -> plain d) -> parse fs fuel f es s = Ok u s' ->
  exists l l', reads fs (opt_names s) (is_conf s) f l /\ reads_cmd fs (opt_names s) (is_conf s) es l' /\ forall c, settled (c_vals s c) (for_cell s c (l ++ l')) (c_vals s' c).
Proof.
  intros fs fuel f es s u s' PL E. unfold parse in E. destruct (load fs fuel f s) as [b s1|x s1| |] eqn:L; try discriminate E.
  destruct (load_ok s fs PL _ _ _ _ _ (same_refl s) L) as (l & R & D). destruct (cmd_ok s fs PL _ _ _ _ _ (proj1 D) E) as (l' & R' & D').
  exists l, l'. split; [exact R|]. split; [exact R'|]. exact (proj2 (done_app _ _ _ _ _ _ D D')).
Qed.
Print Assumptions C77_file.
Print Assumptions C77_parse.

(** ** Depth *)

Definition refines (ld ld' : bytes -> cfg -> res bool) : Prop := forall f s, ld f s <> Deep -> ld' f s = ld f s.

Lemma update_refines ld ld' o a s : refines ld ld' -> update ld o a s <> Deep -> update ld' o a s = update ld o a s.
Proof.
  intros R H. unfold update in *. destruct (o_act o); try reflexivity. destruct a as [a|]; [|reflexivity]. destruct (c_vals s (o_val o)); try reflexivity.
  rewrite R; [reflexivity|]. intros X. rewrite X in H. apply H. reflexivity.
Qed.
Lemma update_name_refines ld ld' n a s : refines ld ld' -> update_name ld n a s <> Deep -> update_name ld' n a s = update_name ld n a s.
Proof. intros R H. unfold update_name in *. destruct (lookup n (c_conf s)); [|reflexivity]. destruct (nth_error _ _); [|reflexivity]. apply update_refines; assumption. Qed.
Lemma load_line_refines ld ld' b s : refines ld ld' -> load_line ld b s <> Deep -> load_line ld' b s = load_line ld b s.
Proof.
  intros R H. unfold load_line in *. destruct (_ =? _); [reflexivity|]. destruct (find_sub _ _); [|reflexivity]. destruct (lookup _ _); [|reflexivity]. apply update_name_refines; assumption.
Qed.
Lemma load_lines_refines ld ld' ls : refines ld ld' -> forall s, load_lines ld ls s <> Deep -> load_lines ld' ls s = load_lines ld ls s.
Proof.
  intros R. induction ls as [|b ls IH]; intros s H; [reflexivity|]. cbn [load_lines] in *.
  assert (N : load_line ld b s <> Deep) by (intros X; rewrite X in H; apply H; reflexivity). rewrite (load_line_refines _ _ _ _ R N).
  destruct (load_line ld b s); try reflexivity. apply IH. exact H.
Qed.
Lemma load_refines fs n : refines (load fs n) (load fs (S n)).
Proof.
  induction n as [|n IH]; intros f s H; [contradiction H; reflexivity|]. cbn [load] in *. fold (load fs (S n)). destruct (fs f) as [d|]; [|reflexivity].
  assert (N : load_lines (load fs n) (chunks (length d) d) (set_open (S (c_open s)) s) <> Deep) by (intros X; rewrite X in H; apply H; reflexivity).
  pose proof (load_lines_refines _ _ _ IH _ N) as E. cbn [load] in E. rewrite E. reflexivity.
Qed.
(** The bound on the depth does not matter once it is not reached. *)
Lemma load_more fs n m f s : n <= m -> load fs n f s <> Deep -> load fs m f s = load fs n f s.
Proof.
  induction 1 as [|m L IH]; intros H; [reflexivity|]. specialize (IH H). rewrite (load_refines fs m); [exact IH|]. rewrite IH. exact H.
Qed.

(** ** C78 *)

(** Files that include only files of lower rank. *)
Definition ranked (fs : bytes -> option bytes) (s : cfg) (rank : bytes -> nat) : Prop :=
  forall f d ls l n v i, fs f = Some d -> is_lines d ls -> In l ls -> says l n v -> opt_names s n = Some i -> is_conf s i = true -> rank v < rank f.

Lemma update_same ld o a s : match update ld o a s with Ok _ s' | Throw _ s' => same s s' \/ (exists b, o_act o = SetVal /\ c_vals s (o_val o) = VConf /\ a = Some b /\ match ld b s with Ok _ t | Throw _ t => t = s' | _ => False end) | _ => True end.
Proof.
  assert (C : forall v, kind_of v = kind_of (c_vals s (o_val o)) -> same s (set_cell (o_val o) v s)).
  { intros v K. constructor; try reflexivity. intros c. cbn. destruct (Nat.eqb_spec c (o_val o)); [subst; exact K|reflexivity]. }
  unfold update. destruct (o_act o) eqn:A.
  - destruct (c_vals s (o_val o)) eqn:V; left; try apply same_refl. apply C. reflexivity.
  - destruct a as [a|]; [|exact I]. destruct (c_vals s (o_val o)) eqn:V; try (left; apply same_refl).
    + left. apply C. reflexivity.
    + destruct (stoi a); left; try apply same_refl. apply C. reflexivity.
    + destruct (ld a s) as [b t|e t| |] eqn:L; try exact I; right; exists a; rewrite L; auto.
  - destruct a as [a|]; [|exact I]. destruct (c_vals s (o_val o)) eqn:V; left; try apply same_refl. apply C. reflexivity.
Qed.

Definition keeps (ld : bytes -> cfg -> res bool) : Prop := forall f s, match ld f s with Ok _ s' | Throw _ s' => same s s' | _ => True end.
Lemma update_keeps ld o a s : keeps ld -> match update ld o a s with Ok _ s' | Throw _ s' => same s s' | _ => True end.
Proof.
  intros K. pose proof (update_same ld o a s) as H. destruct (update ld o a s); auto; (destruct H as [H|(b & _ & _ & _ & H)]; [exact H|]); specialize (K b s); destruct (ld b s); try contradiction; subst; exact K.
Qed.
Lemma load_line_keeps ld b s : keeps ld -> match load_line ld b s with Ok _ s' | Throw _ s' => same s s' | _ => True end.
Proof.
  intros K. unfold load_line. destruct (_ =? _); [apply same_open|]. destruct (find_sub _ _); [|apply same_refl]. destruct (lookup _ _) eqn:L; [|apply same_refl].
  unfold update_name. rewrite L. destruct (nth_error _ _); [|exact I]. apply update_keeps. exact K.
Qed.
Lemma load_lines_keeps ld ls : keeps ld -> forall s, match load_lines ld ls s with Ok _ s' | Throw _ s' => same s s' | _ => True end.
Proof.
  intros K. induction ls as [|b ls IH]; intros s; cbn [load_lines]; [apply same_refl|]. pose proof (load_line_keeps ld b s K) as H. destruct (load_line ld b s) as [u t|e t| |]; auto.
  specialize (IH t). destruct (load_lines ld ls t); auto; exact (same_trans _ _ _ H IH).
Qed.
Lemma load_keeps fs n : keeps (load fs n).
Proof.
  induction n as [|n IH]; intros f s; cbn [load]; [exact I|]. destruct (fs f) as [d|]; [|apply same_refl].
  pose proof (load_lines_keeps _ (chunks (length d) d) IH (set_open (S (c_open s)) s)) as H. destruct (load_lines _ _ _) as [u t|e t| |]; auto.
  - exact (same_trans _ _ _ (same_open s _) (same_trans _ _ _ H (same_open t _))).
  - exact (same_trans _ _ _ (same_open s _) H).
Qed.

Theorem C78_ends_partial : forall fs s rank f, (forall f d, fs f = Some d -> plain d) -> ranked fs s rank -> load fs (S (rank f)) f s <> Deep.
Proof.
  intros fs s0 rank f PL RK. assert (G : forall n f s, same s0 s -> rank f < n -> load fs n f s <> Deep); [|apply G; [apply same_refl|lia]].
  clear f. induction n as [|n IH]; intros f s S L; [lia|]. cbn [load]. destruct (fs f) as [d|] eqn:F; [|discriminate].
  destruct (lines_ex d) as (ls & LS). destruct (PL _ _ F) as (NUL & SH). pose proof (chunks_lines _ _ LS (length d) (le_n _) (SH _ LS)) as C.
  assert (X : forall cs ls', Forall2 line_of cs ls' -> (forall l, In l ls' -> In l ls) -> forall s, same s0 s -> load_lines (load fs n) cs s <> Deep).
  { induction 1 as [|c l cs ls' LO H2 IH2]; intros SUB t T; cbn [load_lines]; [discriminate|].
    pose proof (load_line_keeps _ c t (load_keeps fs n)) as K.
    assert (ND : load_line (load fs n) c t <> Deep).
    { assert (IL := SUB l (or_introl eq_refl)). assert (NL : ~ In x00 l) by (intros X; apply NUL; exact (lines_in _ _ LS _ IL _ X)). assert (SL := SH _ LS _ IL).
      destruct (says_or_text l) as [TX|(nm & v & TX)]; [rewrite (load_line_text _ _ _ _ LO NL SL TX); discriminate|]. rewrite (load_line_says _ _ _ _ _ _ LO NL SL TX).
      destruct (lookup nm (c_conf t)) as [i|] eqn:LK; [|discriminate]. unfold update_name. rewrite LK. destruct (nth_error (c_opts t) i) as [o|] eqn:NT; [|discriminate].
      unfold update. destruct (o_act o) eqn:A; [destruct (c_vals t (o_val o)); discriminate| |destruct (c_vals t (o_val o)); discriminate].
      destruct (c_vals t (o_val o)) eqn:V; try discriminate; [destruct (stoi v); discriminate|].
      assert (R : rank v < rank f).
      { apply (RK f d ls l nm v i F LS IL TX); [unfold opt_names; rewrite <- (sm_conf _ _ T); exact LK|]. rewrite <- (same_is_conf _ _ i T). unfold is_conf. rewrite NT, A, V. reflexivity. }
      assert (Q := IH v t T ltac:(lia)). destruct (load fs n v t); [discriminate|discriminate|contradiction Q; reflexivity|discriminate]. }
    destruct (load_line (load fs n) c t) as [u t1|e t1| |]; [|discriminate|contradiction ND; reflexivity|discriminate].
    apply IH2; [intros x I; apply SUB; right; exact I|exact (same_trans _ _ _ T K)]. }
  specialize (X _ _ C (fun l I => I) (set_open (Datatypes.S (c_open s)) s) (same_trans _ _ _ S (same_open s _))).
  destruct (load_lines (load fs n) (chunks (length d) d) (set_open (Datatypes.S (c_open s)) s)); [discriminate|discriminate|contradiction X; reflexivity|discriminate].
Qed.
Print Assumptions C78_ends_partial.

(** ** C80 *)

Definition counts (ld : bytes -> cfg -> res bool) : Prop := forall f s, match ld f s with Ok _ s' => c_open s' = c_open s | Throw _ s' => c_open s <= c_open s' | _ => True end.
Lemma update_counts ld o a s : counts ld -> match update ld o a s with Ok _ s' => c_open s' = c_open s | Throw _ s' => c_open s <= c_open s' | _ => True end.
Proof.
  intros K. unfold update. destruct (o_act o).
  - destruct (c_vals s (o_val o)); cbn; auto.
  - destruct a as [a|]; [|exact I]. destruct (c_vals s (o_val o)); cbn; auto.
    + destruct (stoi a); cbn; auto.
    + specialize (K a s). destruct (ld a s); auto.
  - destruct a as [a|]; [|exact I]. destruct (c_vals s (o_val o)); cbn; auto.
Qed.
Lemma load_line_counts ld b s : counts ld -> match load_line ld b s with Ok _ s' => c_open s' = c_open s | Throw _ s' => pred (c_open s) <= c_open s' | _ => True end.
Proof.
  intros K. unfold load_line. destruct (_ =? _); [cbn; lia|]. destruct (find_sub _ _); [|reflexivity]. destruct (lookup _ _) eqn:L; [|reflexivity].
  unfold update_name. rewrite L. destruct (nth_error _ _); [|exact I]. pose proof (update_counts ld o (Some (cstr (trim (skipn (n + 1) (cstr b)) default_space))) s K) as H. destruct (update _ _ _ _); auto. lia.
Qed.
Lemma load_lines_counts ld ls : counts ld -> forall s, match load_lines ld ls s with Ok _ s' => c_open s' = c_open s | Throw _ s' => pred (c_open s) <= c_open s' | _ => True end.
Proof.
  intros K. induction ls as [|b ls IH]; intros s; cbn [load_lines]; [reflexivity|]. pose proof (load_line_counts ld b s K) as H. destruct (load_line ld b s) as [u t|e t| |]; auto.
  specialize (IH t). destruct (load_lines ld ls t); auto; lia.
Qed.

(** A load that returns has closed the files it opened; one that throws has closed none
    that it did not open. *)
Theorem C80_closed_partial : forall fs fuel f s, match load fs fuel f s with Ok _ s' => c_open s' = c_open s | Throw _ s' => c_open s <= c_open s' | _ => True end.
Proof.
  intros fs fuel. induction fuel as [|n IH]; intros f s; cbn [load]; [exact I|]. destruct (fs f) as [d|]; [|reflexivity].
  pose proof (load_lines_counts _ (chunks (length d) d) IH (set_open (S (c_open s)) s)) as H. destruct (load_lines _ _ _) as [u t|e t| |]; auto.
  cbn in *. lia.
Qed.
Print Assumptions C80_closed_partial.

(** ** C77: the settings are determined by the text, and good settings are accepted *)

Lemma lines_unique d ls : is_lines d ls -> forall ls', is_lines d ls' -> ls = ls'.
Proof.
  assert (CUT : forall a b r s, ~ In x0a a -> ~ In x0a b -> a ++ x0a :: r = b ++ x0a :: s -> a = b /\ r = s).
  { induction a as [|x a IH]; intros [|y b] r s A B E; cbn [app] in E.
    - injection E as ->. auto.
    - injection E as <- _. exfalso. apply B. left. reflexivity.
    - injection E as -> _. exfalso. apply A. left. reflexivity.
    - injection E as -> E. destruct (IH b r s) as (-> & ->); auto; intros I; [apply A|apply B]; right; exact I. }
  induction 1 as [|l N0 NL|l d ls NL H IH]; intros ls' H'.
  - inversion H' as [|? X|? d' ? ? ? E]; subst; auto; [contradiction X; reflexivity|]. destruct l; discriminate.
  - inversion H' as [|l' X Y|l' d' ls'' X Y E]; subst; auto; [contradiction N0; reflexivity|]. exfalso. apply NL. apply in_or_app. right. left. reflexivity.
  - inversion H' as [E|l' X Y E|l' d' ls'' X Y E].
    + destruct l; discriminate E.
    + subst l'. exfalso. apply Y. apply in_or_app. right. left. reflexivity.
    + apply CUT in E; [|assumption|assumption]. destruct E as (-> & ->). f_equal. apply IH. exact Y.
Qed.
Lemma says_unique l n v n' v' : says l n v -> says l n' v' -> n = n' /\ v = v'.
Proof.
  intros (a & b & E & A & Ta & Tb) (a' & b' & E' & A' & Ta' & Tb').
  assert (Q : a = a' /\ b = b').
  { rewrite E in E'. clear - E' A A'. revert a' E' A'. induction a as [|x a IH]; intros [|y a'] E A'; cbn [app] in E.
    - injection E as ->. auto.
    - injection E as <- _. exfalso. apply A'. left. reflexivity.
    - injection E as -> _. exfalso. apply A. left. reflexivity.
    - injection E as -> E. destruct (IH (fun I => A (or_intror I)) a' E (fun I => A' (or_intror I))) as (-> & ->). auto. }
  destruct Q as (-> & ->). split; eapply C68_trim_unique; eassumption.
Qed.
Lemma says_eq l n v : says l n v -> In x3d l.
Proof. intros (a & b & -> & _). apply in_or_app. right. left. reflexivity. Qed.

Scheme reads_min := Minimality for reads Sort Prop with reads_lines_min := Minimality for reads_lines Sort Prop.
Combined Scheme reads_both from reads_min, reads_lines_min.

Theorem C77_settings_unique : forall fs names isconf f l l', reads fs names isconf f l -> reads fs names isconf f l' -> l = l'.
Proof.
  intros fs names isconf.
  assert (G : (forall f l, reads fs names isconf f l -> forall l', reads fs names isconf f l' -> l = l') /\ (forall ls l, reads_lines fs names isconf ls l -> forall l', reads_lines fs names isconf ls l' -> l = l')).
  { apply reads_both.
    - intros f F l' H. inversion H; [reflexivity|congruence].
    - intros f d ls l F L _ IH l' H. inversion H as [|? d' ls' ? F' L' R']; subst; [congruence|]. assert (d' = d) by congruence. subst d'. rewrite (lines_unique _ _ L' _ L) in R'. exact (IH _ R').
    - intros l' H. inversion H. reflexivity.
    - intros x ls l T _ IH l' H. inversion H as [|? ? ? T' R'|? ? ? ? ? S|? ? ? ? ? ? S|? ? ? ? ? ? ? S]; subst; try (exfalso; apply T; eapply says_eq; eassumption). exact (IH _ R').
    - intros x n v ls l T N _ IH l' H. inversion H as [|? ? ? T' R'|? n' v' ? ? S N' R'|? n' v' ? ? ? S N' IC R'|? n' v' ? ? ? ? S N' IC R1 R2]; subst; try (destruct (says_unique _ _ _ _ _ T S); subst; congruence).
      + exfalso. apply T'. eapply says_eq; eassumption.
      + exact (IH _ R').
    - intros x n v i ls l T N C _ IH l' H. inversion H as [|? ? ? T' R'|? n' v' ? ? S N' R'|? n' v' ? ? ? S N' IC R'|? n' v' ? ? ? ? S N' IC R1 R2]; subst; try (destruct (says_unique _ _ _ _ _ T S); subst; congruence).
      + exfalso. apply T'. eapply says_eq; eassumption.
      + destruct (says_unique _ _ _ _ _ T S). subst. rewrite N in N'. injection N' as <-. f_equal. exact (IH _ R').
    - intros x n v i ls l1 l2 T N C _ IH1 _ IH2 l' H. inversion H as [|? ? ? T' R'|? n' v' ? ? S N' R'|? n' v' ? ? ? S N' IC R'|? n' v' ? ? ? ? S N' IC R1 R2]; subst; try (destruct (says_unique _ _ _ _ _ T S); subst; congruence).
      + exfalso. apply T'. eapply says_eq; eassumption.
      + destruct (says_unique _ _ _ _ _ T S). subst. f_equal; [exact (IH1 _ R1)|exact (IH2 _ R2)]. }
  intros f l l' H H'. exact (proj1 G f l H l' H').
Qed.
Print Assumptions C77_settings_unique.

(** A setting the option can take. *)
Definition acceptable (s : cfg) (i : nat) (v : bytes) : Prop :=
  exists o, nth_error (c_opts s) i = Some o /\
  match o_act o, c_vals s (o_val o) with
  | SwitchOn, VFlag _ | SetVal, VStr _ | Append, VVec _ => True
  | SetVal, VInt _ => exists z, begins_with v z /\ int_range z
  | _, _ => False
  end.

Lemma update_accepts ld s0 s i v : same s0 s -> acceptable s0 i v -> exists o s', nth_error (c_opts s) i = Some o /\ update ld o (Some v) s = Ok tt s'.
Proof.
  intros [S1 S2 S3] (o & N & H). exists o. rewrite S1. specialize (S3 (o_val o)). unfold update. destruct (o_act o).
  - destruct (c_vals s0 (o_val o)); try contradiction. destruct (c_vals s (o_val o)); try discriminate S3. eauto.
  - destruct (c_vals s0 (o_val o)); try contradiction; destruct (c_vals s (o_val o)); try discriminate S3; eauto.
    destruct H as (y & H). apply stoi_spec in H. rewrite H. eauto.
  - destruct (c_vals s0 (o_val o)); try contradiction. destruct (c_vals s (o_val o)); try discriminate S3. eauto.
Qed.

Theorem C77_accepts : forall fs s f l, (forall f d, fs f = Some d -> plain d) -> reads fs (opt_names s) (is_conf s) f l -> (forall i v, In (i, v) l -> acceptable s i v) ->
  exists fuel b s', load fs fuel f s = Ok b s'.
Proof.
  intros fs s0 f l PL. 
  assert (G : (forall f l, reads fs (opt_names s0) (is_conf s0) f l -> (forall i v, In (i, v) l -> acceptable s0 i v) -> forall s, same s0 s -> exists n b s', load fs n f s = Ok b s') /\
    (forall ls l, reads_lines fs (opt_names s0) (is_conf s0) ls l -> (forall i v, In (i, v) l -> acceptable s0 i v) -> forall cs s, Forall2 line_of cs ls -> (forall l, In l ls -> ~ In x00 l) -> (forall l, In l ls -> (N.of_nat (length l) < 65534)%N) ->
       same s0 s -> exists n u s', load_lines (load fs n) cs s = Ok u s')).
  { apply reads_both.
    - intros g F _ s S. exists 1, false, s. cbn [load]. rewrite F. reflexivity.
    - intros g d ls k F L _ IH A s S. destruct (PL _ _ F) as (NUL & SH). pose proof (chunks_lines _ _ L (length d) (le_n _) (SH _ L)) as C.
      destruct (IH A _ (set_open (Datatypes.S (c_open s)) s) C) as (n & u & s' & E); [intros x I X; apply NUL; exact (lines_in _ _ L _ I _ X)|exact (SH _ L)|exact (same_trans _ _ _ S (same_open s _))|].
      exists (Datatypes.S n), true, (set_open (c_open s' - 1) s'). cbn [load]. rewrite F, E. reflexivity.
    - intros _ cs s C _ _ _. inversion C; subst. exists 0, tt, s. reflexivity.
    - intros x ls k T _ IH A cs s C NL SH S. inversion C as [|c ? cs' ? LO C']; subst.
      destruct (IH A cs' s C' (fun y I => NL y (or_intror I)) (fun y I => SH y (or_intror I)) S) as (n & u & s' & E). exists n, u, s'. cbn [load_lines].
      rewrite (load_line_text _ _ _ _ LO (NL _ (or_introl eq_refl)) (SH _ (or_introl eq_refl)) T). exact E.
    - intros x n0 v ls k T N _ IH A cs s C NL SH S. inversion C as [|c ? cs' ? LO C']; subst.
      destruct (IH A cs' s C' (fun y I => NL y (or_intror I)) (fun y I => SH y (or_intror I)) S) as (n & u & s' & E). exists n, u, s'. cbn [load_lines].
      rewrite (load_line_says _ _ _ _ _ _ LO (NL _ (or_introl eq_refl)) (SH _ (or_introl eq_refl)) T), (sm_conf _ _ S). unfold opt_names in N. rewrite N. exact E.
    - intros x n0 v i ls k T N CF _ IH A cs s C NL SH S. inversion C as [|c ? cs' ? LO C']; subst.
      assert (U : forall m, exists s1, load_line (load fs m) c s = Ok tt s1 /\ same s s1).
      { intros m. destruct (update_accepts (load fs m) s0 s i v S (A i v (or_introl eq_refl))) as (o & s1 & NT & U). exists s1. split.
        - rewrite (load_line_says _ _ _ _ _ _ LO (NL _ (or_introl eq_refl)) (SH _ (or_introl eq_refl)) T), (sm_conf _ _ S). unfold opt_names in N. rewrite N. unfold update_name. rewrite (sm_conf _ _ S), N, NT. exact U.
        - pose proof (update_keeps (load fs m) o (Some v) s (load_keeps fs m)) as K. rewrite U in K. exact K. }
      destruct (U 0) as (s1 & U1 & S1). destruct (IH (fun j w I => A j w (or_intror I)) cs' s1 C' (fun y I => NL y (or_intror I)) (fun y I => SH y (or_intror I)) (same_trans _ _ _ S S1)) as (n & u & s' & E).
      exists n, u, s'. cbn [load_lines]. assert (X : load_line (load fs n) c s = Ok tt s1).
      { rewrite <- U1. apply load_line_refines; [|rewrite U1; discriminate]. intros g t H. contradiction H; reflexivity. }
      rewrite X. exact E.
    - intros x n0 v i ls k1 k2 T N CF _ IH1 _ IH2 A cs s C NL SH S. inversion C as [|c ? cs' ? LO C']; subst.
      destruct (IH1 (fun j w I => A j w (in_or_app _ _ _ (or_introl I))) s S) as (n1 & b & s1 & E1).
      assert (S1 : same s s1) by (pose proof (load_keeps fs n1 v s) as K; rewrite E1 in K; exact K).
      destruct (IH2 (fun j w I => A j w (in_or_app _ _ _ (or_intror I))) cs' s1 C' (fun y I => NL y (or_intror I)) (fun y I => SH y (or_intror I)) (same_trans _ _ _ S S1)) as (n2 & u & s' & E2).
      exists (n1 + n2), u, s'. cbn [load_lines].
      assert (X1 : load fs (n1 + n2) v s = Ok b s1) by (rewrite (load_more fs n1) by (try lia; rewrite E1; discriminate); exact E1).
      assert (X2 : load_lines (load fs (n1 + n2)) cs' s1 = Ok u s').
      { rewrite <- E2. apply load_lines_refines; [|rewrite E2; discriminate]. intros g t H. apply load_more; [lia|exact H]. }
      rewrite (load_line_says _ _ _ _ _ _ LO (NL _ (or_introl eq_refl)) (SH _ (or_introl eq_refl)) T), (sm_conf _ _ S). unfold opt_names in N. rewrite N. unfold update_name. rewrite (sm_conf _ _ S), N.
      rewrite <- (same_is_conf _ _ i S) in CF. unfold is_conf in CF. destruct (nth_error (c_opts s) i) as [o|]; [|discriminate CF]. unfold update. destruct (o_act o); try discriminate CF. destruct (c_vals s (o_val o)); try discriminate CF.
      rewrite X1. exact X2. }
  intros R A. exact (proj1 G f l R A s0 (same_refl s0)).
Qed.
Print Assumptions C77_accepts.

(** ** C79 *)

Lemma decimal_begins t z : decimal t z -> begins_with t z.
Proof. intros D. exists [], t, []. rewrite app_nil_r. repeat split; auto. intros c r' E. discriminate E. Qed.

(** A number in the range of int is stored exactly. *)
Theorem C79_stores_number : forall ld o s t z y, o_act o = SetVal -> c_vals s (o_val o) = VInt y -> decimal t z -> int_range z ->
  exists s', update ld o (Some t) s = Ok tt s' /\ c_vals s' (o_val o) = VInt z.
Proof.
  intros ld o s t z y A V D R. exists (set_cell (o_val o) (VInt z) s). unfold update. rewrite A, V.
  assert (E : stoi t = SVal z) by (apply stoi_spec; split; [apply decimal_begins; exact D|exact R]). rewrite E. split; [reflexivity|]. cbn. rewrite Nat.eqb_refl. reflexivity.
Qed.

(** What is stored is the number the text begins with; a text that begins with none is
    rejected, and so is a number out of range, both without effect. *)
Theorem C79_stored_partial : forall ld o s t y, o_act o = SetVal -> c_vals s (o_val o) = VInt y ->
  (exists z s', begins_with t z /\ int_range z /\ update ld o (Some t) s = Ok tt s' /\ c_vals s' (o_val o) = VInt z) \/
  (exists z, begins_with t z /\ ~ int_range z /\ update ld o (Some t) s = Throw EOutOfRange s) \/
  ((forall z, ~ begins_with t z) /\ update ld o (Some t) s = Throw EInvalid s).
Proof.
  intros ld o s t y A V. unfold update. rewrite A, V. destruct (stoi t) as [z| |] eqn:E.
  - left. apply stoi_spec in E. destruct E as (B & R). exists z, (set_cell (o_val o) (VInt z) s). repeat split; auto; try apply R. cbn. rewrite Nat.eqb_refl. reflexivity.
  - right. right. split; [|reflexivity]. apply stoi_invalid. exact E.
  - right. left. destruct (stoi_valid t) as [X|(z & B & X)]; [congruence|]. exists z. split; [exact B|]. split; [|reflexivity]. intros R. rewrite E in X. symmetry in X. assert (Y : to_int z = SVal z) by (apply to_int_val; auto). congruence.
Qed.
Print Assumptions C79_stores_number.
Print Assumptions C79_stored_partial.

Definition int_cfg : cfg := mkCfg [mkOpt [x6e] 1 SetVal None] [([x6e], 0)] (fun c => if Nat.eqb c 1 then VInt 7 else VConf) 0.
Definition n_opt : opt := mkOpt [x6e] 1 SetVal None.

(** "12abc" sets 12. *)
Theorem C79_trailing_refuted : exists ld o s t y s', o_act o = SetVal /\ c_vals s (o_val o) = VInt y /\ (forall z, ~ decimal t z) /\ update ld o (Some t) s = Ok tt s' /\ c_vals s' (o_val o) = VInt 12.
Proof.
  exists (fun _ _ => Deep), n_opt, int_cfg, [x31; x32; x61; x62; x63], 7%Z. eexists. split; [reflexivity|]. split; [reflexivity|]. split; [|split; reflexivity].
  intros z D. inversion D as [ds N F|ds N F|ds N F]; subst; repeat match goal with H : Forall digit (_ :: _) |- _ => inversion H; subst; clear H end; unfold digit, dig in *; cbn in *; lia.
Qed.

(** "4294967296" makes std::out_of_range escape instead of an error of the library. *)
Theorem C79_range_refuted : exists ld o s t y z, o_act o = SetVal /\ c_vals s (o_val o) = VInt y /\ decimal t z /\ update ld o (Some t) s = Throw EOutOfRange s.
Proof.
  exists (fun _ _ => Deep), n_opt, int_cfg, [x34; x32; x39; x34; x39; x36; x37; x32; x39; x36], 7%Z. eexists. split; [reflexivity|]. split; [reflexivity|]. split; [|vm_compute; reflexivity].
  apply D_plain; [discriminate|]. repeat constructor; unfold dig; cbn; lia.
Qed.
Print Assumptions C79_trailing_refuted.
Print Assumptions C79_range_refuted.

Example C79_nonvacuous : decimal [x2d; x34; x32] (-42) /\ int_range (-42) /\ (exists z, begins_with [x20; x37; x3b] z) /\ (forall z, ~ begins_with [x61] z).
Proof.
  split; [|split; [unfold int_range; lia|split]].
  - apply (D_minus [x34; x32]); [discriminate|repeat constructor; unfold dig; cbn; lia].
  - exists 7%Z. apply (proj1 (stoi_spec _ _)). vm_compute. reflexivity.
  - apply stoi_invalid. vm_compute. reflexivity.
Qed.

(** ** C81 *)

(** Configurations made with the constructors and successful calls of add_opt. *)
Inductive registered : cfg -> Prop :=
| reg_empty vals : registered (cfg0 vals)
| reg_new vals u s : cfg_new vals = Ok u s -> registered s
| reg_add name cell act short u s s' : registered s -> add_opt name cell act short s = Ok u s' -> registered s'.

(** Option o answers to the name n. *)
Definition answers (o : opt) (n : bytes) : Prop := o_name o = n \/ exists c, o_short o = Some c /\ n = [c].

Lemma bytes_eqb_eq a b : bytes_eqb a b = true <-> a = b.
Proof.
  revert b. induction a as [|x a IH]; intros [|y b]; cbn [bytes_eqb]; split; try discriminate; auto.
  - rewrite andb_true_iff, byte_eqb_eq, IH. intros (-> & ->). reflexivity.
  - intros E. injection E as -> ->. rewrite andb_true_iff, byte_eqb_eq, IH. auto.
Qed.
Lemma bytes_eqb_refl a : bytes_eqb a a = true.
Proof. apply bytes_eqb_eq. reflexivity. Qed.
Lemma lookup_app n m m' : lookup n (m ++ m') = match lookup n m with Some i => Some i | None => lookup n m' end.
Proof. unfold lookup. induction m as [|[k v] m IH]; [reflexivity|]. cbn [app find fst]. destruct (bytes_eqb k n); [reflexivity|exact IH]. Qed.
Lemma lookup_cons n k v m : lookup n ((k, v) :: m) = if bytes_eqb k n then Some v else lookup n m.
Proof. unfold lookup. cbn [find fst]. destruct (bytes_eqb k n); reflexivity. Qed.

(** Names lead to the first option that answers to them. *)
Definition first_answers (os : list opt) (n : bytes) (r : option nat) : Prop :=
  match r with
  | Some i => (exists o, nth_error os i = Some o /\ answers o n) /\ forall j o, j < i -> nth_error os j = Some o -> ~ answers o n
  | None => forall o, In o os -> ~ answers o n
  end.

Definition regd (s : cfg) : Prop :=
  (forall n, first_answers (c_opts s) n (lookup n (c_conf s))) /\ (forall i o, nth_error (c_opts s) i = Some o -> lookup (o_name o) (c_conf s) = Some i).

Lemma add_regd name cell act short u s s' : regd s -> add_opt name cell act short s = Ok u s' -> regd s'.
Proof.
  intros (R1 & R2) E. unfold add_opt in E. destruct (lookup name (c_conf s)) as [x|] eqn:L; [discriminate E|]. injection E as _ <-. cbn [c_opts c_conf].
  set (o := mkOpt name cell act short).
  assert (NEW : forall n, lookup n (c_conf s ++ (name, length (c_opts s)) :: match short with Some c => [([c], length (c_opts s))] | None => [] end) =
     match lookup n (c_conf s) with Some i => Some i | None => if bytes_eqb name n || match short with Some c => bytes_eqb [c] n | None => false end then Some (length (c_opts s)) else None end).
  { intros n. rewrite lookup_app, lookup_cons. destruct (lookup n (c_conf s)); [reflexivity|]. destruct (bytes_eqb name n); [reflexivity|]. cbn [orb]. destruct short as [c|]; [rewrite lookup_cons|]; reflexivity. }
  assert (ANS : forall n, answers o n <-> bytes_eqb name n || match short with Some c => bytes_eqb [c] n | None => false end = true).
  { intros n. unfold answers. cbn [o o_name o_short]. rewrite orb_true_iff, bytes_eqb_eq. split.
    - intros [H|(c & H & ->)]; [left; exact H|right; rewrite H; apply bytes_eqb_refl].
    - intros [H|H]; [left; exact H|right]. destruct short as [c|]; [|discriminate H]. apply bytes_eqb_eq in H. exists c. auto. }
  split; cbn [c_opts c_conf].
  - intros n. rewrite NEW. specialize (R1 n). destruct (lookup n (c_conf s)) as [i|].
    + destruct R1 as ((o' & N & A) & F). assert (i < length (c_opts s)) by (apply nth_error_Some; congruence). split; [exists o'; rewrite nth_error_app1 by assumption; auto|].
      intros j p J NJ. rewrite nth_error_app1 in NJ by lia. exact (F j p J NJ).
    + destruct (bytes_eqb name n || match short with Some c => bytes_eqb [c] n | None => false end) eqn:B.
      * split; [exists o; rewrite nth_error_app2, Nat.sub_diag by lia; split; [reflexivity|apply ANS; exact B]|]. intros j p J NJ. rewrite nth_error_app1 in NJ by exact J. apply R1. apply nth_error_In in NJ. exact NJ.
      * intros p I. apply in_app_or in I. destruct I as [I|[<-|[]]]; [exact (R1 p I)|]. rewrite (ANS n). congruence.
  - intros i p N. rewrite NEW. destruct (Nat.lt_ge_cases i (length (c_opts s))) as [LT|GE].
    + rewrite nth_error_app1 in N by exact LT. rewrite (R2 _ _ N). reflexivity.
    + rewrite nth_error_app2 in N by exact GE. destruct (i - length (c_opts s)) as [|k] eqn:K; [|destruct k; discriminate N]. injection N as <-. unfold o. cbn [o_name]. rewrite L, bytes_eqb_refl. cbn [orb]. f_equal. lia.
Qed.
Lemma registered_regd s : registered s -> regd s.
Proof.
  assert (E0 : forall vals, regd (cfg0 vals)) by (intros vals; split; [intros n o []|intros i o N; destruct i; discriminate N]).
  induction 1; [apply E0|eapply add_regd; [apply E0|eassumption]|eapply add_regd; eassumption].
Qed.

(** Every option is reached by its name. *)
Theorem C81_name : forall s i o, registered s -> nth_error (c_opts s) i = Some o -> opt_names s (o_name o) = Some i.
Proof. intros s i o R N. exact (proj2 (registered_regd s R) i o N). Qed.

(** A letter leads to the option registered first among those that answer to it. *)
Theorem C81_letter_partial : forall s n, registered s -> first_answers (c_opts s) n (opt_names s n).
Proof. intros s n R. exact (proj1 (registered_regd s R) n). Qed.

(** getopt_long: an option of the list, with an argument exactly if it takes one; for a
    letter the first that has it. *)
Definition getopt_ok (s : cfg) (e : gev) : Prop :=
  match e with
  | GBad => True
  | GLong i a => exists o, nth_error (c_opts s) i = Some o /\ (a = None <-> o_act o = SwitchOn)
  | GShort c a => exists i o, nth_error (c_opts s) i = Some o /\ o_short o = Some c /\ (forall j p, j < i -> nth_error (c_opts s) j = Some p -> o_short p <> Some c) /\ (a = None <-> o_act o = SwitchOn)
  end.
(** No option's name is another option's letter. *)
Definition no_clash (s : cfg) : Prop := forall i j o p c, nth_error (c_opts s) i = Some o -> nth_error (c_opts s) j = Some p -> o_short o = Some c -> o_name p = [c] -> i = j.

(** Without clashes each argument of the command line sets the option it names. *)
Theorem C81_command_partial : forall fs fuel s e, registered s -> no_clash s -> getopt_ok s e ->
  match e with
  | GBad => parse_ev fs fuel e s = Throw EOptInvalid s
  | GLong i a => exists o, nth_error (c_opts s) i = Some o /\ parse_ev fs fuel e s = update (load fs fuel) o a s /\ (a = None -> o_act o = SwitchOn)
  | GShort c a => exists i o, nth_error (c_opts s) i = Some o /\ o_short o = Some c /\ parse_ev fs fuel e s = update (load fs fuel) o a s /\ (a = None -> o_act o = SwitchOn)
  end.
Proof.
  intros fs fuel s e R NC G. destruct e as [i a|c a|]; [| |reflexivity].
  - destruct G as (o & N & A). exists o. split; [exact N|]. split; [cbn [parse_ev]; rewrite N; reflexivity|apply A].
  - destruct G as (i & o & N & SH & F & A). exists i, o. split; [exact N|]. split; [exact SH|]. split; [|apply A]. cbn [parse_ev]. unfold update_name.
    pose proof (proj1 (registered_regd s R) [c]) as H. destruct (lookup [c] (c_conf s)) as [j|].
    + destruct H as ((p & P & AP) & FP). assert (E : j = i).
      { destruct (lt_eq_lt_dec j i) as [[LT|EQ]|GT]; [|exact EQ|exfalso; apply (FP i o GT N); right; exists c; auto].
        destruct AP as [AP|(c' & SC & E)]; [symmetry; apply (NC i j o p c N P SH AP)|]. injection E as <-. exfalso. exact (F j p LT P SC). }
      subst j. rewrite P. assert (p = o) by congruence. subst. reflexivity.
    + exfalso. apply (H o); [apply nth_error_In in N; exact N|]. right. exists c. auto.
Qed.
Print Assumptions C81_name.
Print Assumptions C81_letter_partial.
Print Assumptions C81_command_partial.

Definition fs0 (f : bytes) : option bytes := None.
(** Values: 1 a text, 2 a flag, 3 a list, 4 a number. *)
Definition vals0 (c : nat) : oval := match c with 1 => VStr [] | 2 => VFlag false | 3 => VVec [] | _ => VInt 0 end.
Definition then_add (name : bytes) (cell : nat) (act : action) (short : option byte) (r : res unit) : res unit := match r with Ok _ s => add_opt name cell act short s | _ => r end.
Definition ok_cfg {A : Type} (r : res A) : option cfg := match r with Ok _ s => Some s | _ => None end.

Lemma then_add_reg name cell act short r s : (forall s, ok_cfg r = Some s -> registered s) -> ok_cfg (then_add name cell act short r) = Some s -> registered s.
Proof.
  intros H E. destruct r as [u t|e t| |]; try discriminate E. cbn [then_add] in E. destruct (add_opt name cell act short t) as [u' t'|e t'| |] eqn:A; try discriminate E. injection E as <-.
  eapply reg_add; [apply H; reflexivity|exact A].
Qed.
Lemma new_reg vals s : ok_cfg (cfg_new vals) = Some s -> registered s.
Proof. intros E. destruct (cfg_new vals) as [u t|e t| |] eqn:A; try discriminate E. injection E as <-. eapply reg_new. exact A. Qed.

(** Option "x" takes a text, option "v" has the letter x: both are registered without error;
    -x then uses a null pointer. *)
Definition clash : res unit := then_add [x76] 2 SwitchOn (Some x78) (then_add [x78] 1 SetVal None (cfg_new vals0)).
Theorem C81_name_letter_refuted : exists s e, registered s /\ getopt_ok s e /\ parse_ev fs0 1 e s = Ub.
Proof.
  destruct (ok_cfg clash) as [s|] eqn:E; [|discriminate E]. exists s, (GShort x78 None). split.
  - apply (then_add_reg _ _ _ _ _ _ (fun t => then_add_reg _ _ _ _ _ t (fun t' => new_reg vals0 t')) E).
  - injection E as <-. split; [|reflexivity]. exists 2, (mkOpt [x76] 2 SwitchOn (Some x78)). split; [reflexivity|]. split; [reflexivity|]. split; [|split; reflexivity].
    intros j p J N. destruct j as [|[|j]]; [| |lia]; injection N as <-; discriminate.
Qed.

(** Two options with the letter v: both are registered without error, the letter leads to
    the first only. *)
Definition twice : res unit := then_add [x62] 3 Append (Some x76) (then_add [x61] 1 SetVal (Some x76) (cfg_new vals0)).
Theorem C81_two_letters_refuted : exists s i o c, registered s /\ nth_error (c_opts s) i = Some o /\ o_short o = Some c /\ opt_names s [c] <> Some i.
Proof.
  destruct (ok_cfg twice) as [s|] eqn:E; [|discriminate E]. exists s, 2, (mkOpt [x62] 3 Append (Some x76)), x76. split.
  - apply (then_add_reg _ _ _ _ _ _ (fun t => then_add_reg _ _ _ _ _ t (fun t' => new_reg vals0 t')) E).
  - injection E as <-. split; [reflexivity|]. split; [reflexivity|discriminate].
Qed.
Print Assumptions C81_name_letter_refuted.
Print Assumptions C81_two_letters_refuted.

(** ** A configuration for the examples: name text, list, number and flag *)
Definition plenty : res unit := then_add [x66] 2 SwitchOn (Some x76) (then_add [x6e] 4 SetVal (Some x6e) (then_add [x6c] 3 Append (Some x6c) (then_add [x74] 1 SetVal None (cfg_new vals0)))).
Definition plenty_cfg : cfg := match plenty with Ok _ s => s | _ => cfg0 vals0 end.
Lemma plenty_reg : registered plenty_cfg.
Proof.
  assert (E : ok_cfg plenty = Some plenty_cfg) by reflexivity.
  exact (then_add_reg _ _ _ _ _ _ (fun t1 => then_add_reg _ _ _ _ _ t1 (fun t2 => then_add_reg _ _ _ _ _ t2 (fun t3 => then_add_reg _ _ _ _ _ t3 (fun t' => new_reg vals0 t')))) E).
Qed.

Example C81_nonvacuous : registered plenty_cfg /\ no_clash plenty_cfg /\ getopt_ok plenty_cfg (GShort x6c (Some [x61])) /\ length (c_opts plenty_cfg) = 5.
Proof.
  split; [exact plenty_reg|]. split; [|split; [|reflexivity]].
  - intros i j o p c N1 N2 S1 S2. do 5 (destruct i as [|i]; [injection N1 as <-; do 5 (destruct j as [|j]; [injection N2 as <-; cbn in S1, S2; first [reflexivity|discriminate S1|injection S1 as <-; first [discriminate S2|reflexivity]]|]); destruct j; discriminate N2|]). destruct i; discriminate N1.
  - exists 2, (mkOpt [x6c] 3 Append (Some x6c)). split; [reflexivity|]. split; [reflexivity|]. split; [|split; discriminate].
    intros j p J N. destruct j as [|[|j]]; [| |lia]; injection N as <-; discriminate.
Qed.

(** ** C82 *)

Lemma fgets_full n l d : ~ In x0a l -> n <= length l -> length (fst (fgets n (l ++ d))) = n.
Proof.
  revert n. induction l as [|c l IH]; intros n H L; [destruct n; [reflexivity|cbn in L; lia]|]. destruct n as [|n]; [reflexivity|]. cbn [app fgets].
  destruct (byte_eqb c x0a) eqn:E; [apply byte_eqb_eq in E; subst; exfalso; apply H; left; reflexivity|].
  specialize (IH n (fun I => H (or_intror I)) ltac:(cbn in L; lia)). destruct (fgets n (l ++ d)) as [a b]. cbn in *. lia.
Qed.
Lemma fgets_split n d : fst (fgets n d) ++ snd (fgets n d) = d.
Proof.
  revert n. induction d as [|c d IH]; intros [|n]; try reflexivity. cbn [fgets]. destruct (byte_eqb c x0a); [reflexivity|]. specialize (IH n). destruct (fgets n d) as [a b]. cbn in *. rewrite IH. reflexivity.
Qed.
Lemma chunks_in fuel d c x : In c (chunks fuel d) -> In x c -> In x d.
Proof.
  revert d. induction fuel as [|fuel IH]; intros d I X; [destruct I|]. destruct d as [|b d]; [destruct I|]. cbn [chunks] in I. pose proof (fgets_split LIM (b :: d)) as S. destruct (fgets LIM (b :: d)) as [u w]. cbn [fst snd] in S. rewrite <- S.
  apply in_or_app. destruct I as [<-|I]; [left; exact X|right; exact (IH _ I X)].
Qed.
Lemma chunks_long d ls : is_lines d ls -> forall fuel l, length d <= fuel -> In l ls -> LIM <= length l -> exists c, In c (chunks fuel d) /\ length c = LIM.
Proof.
  pose proof LIM_val as LV. assert (FIRST : forall l d fuel, ~ In x0a l -> LIM <= length l -> length (l ++ d) <= fuel -> exists c, In c (chunks fuel (l ++ d)) /\ length c = LIM).
  { intros l d0 fuel NL LL F. destruct l as [|b l]; [cbn in LL; lia|]. destruct fuel as [|fuel]; [cbn in F; lia|]. cbn [app chunks]. change (b :: l ++ d0) with ((b :: l) ++ d0). pose proof (fgets_full LIM (b :: l) d0 NL LL) as X. destruct (fgets LIM ((b :: l) ++ d0)) as [u w]. exists u. split; [left; reflexivity|exact X]. }
  induction 1 as [|l N0 NL|l d ls NL H IH]; intros fuel x F I X; [destruct I| |].
  - destruct I as [<-|[]]. rewrite <- (app_nil_r l). apply FIRST; [exact NL|exact X|rewrite app_nil_r; exact F].
  - destruct (le_lt_dec LIM (length l)) as [LL|LT]; [apply FIRST; assumption|]. destruct I as [<-|I]; [lia|].
    assert (E : chunks fuel (l ++ x0a :: d) = (l ++ [x0a]) :: chunks (pred fuel) d).
    { destruct fuel as [|fuel]; [rewrite app_length in F; cbn in F; lia|]. destruct (l ++ x0a :: d) as [|c r] eqn:E; [destruct l; discriminate E|]. cbn [chunks]. rewrite <- E. rewrite fgets_nl; [reflexivity|exact NL|exact LT]. }
    rewrite E. destruct (IH (pred fuel) x) as (c & C1 & C2); [rewrite app_length in F; cbn in F; lia|exact I|exact X|]. exists c. split; [right; exact C1|exact C2].
Qed.

(** A file with a line of 65535 characters or more is not loaded. *)
Theorem C82_long_line : forall fs fuel f d ls l s b s', fs f = Some d -> ~ In x00 d -> is_lines d ls -> In l ls -> (65535 <= N.of_nat (length l))%N -> load fs fuel f s <> Ok b s'.
Proof.
  intros fs fuel f d ls l s b s' F NUL L I LL E. pose proof LIM_val as LV. destruct fuel as [|n]; [discriminate E|]. cbn [load] in E. rewrite F in E.
  destruct (chunks_long _ _ L (length d) l (le_n _) I ltac:(lia)) as (c & C1 & C2).
  assert (T : forall cs, In c cs -> forall t u t', load_lines (load fs n) cs t <> Ok u t').
  { induction cs as [|c0 cs IH]; intros IN t u t' X; [destruct IN|]. cbn [load_lines] in X. destruct (load_line (load fs n) c0 t) as [u1 t1|e t1| |] eqn:LL1; try discriminate X.
    destruct IN as [->|IN]; [|exact (IH IN _ _ _ X)]. unfold load_line in LL1. rewrite cstr_id in LL1 by (intros Z; apply NUL; exact (chunks_in _ _ _ _ C1 Z)). rewrite C2, Nat.eqb_refl in LL1. discriminate LL1. }
  destruct (load_lines (load fs n) (chunks (length d) d) (set_open (S (c_open s)) s)) as [u t|e t| |] eqn:X; try discriminate E. exact (T _ C1 _ _ _ X).
Qed.
Print Assumptions C82_long_line.

Lemma line_ex n : is_lines (repeat x61 (S n)) [repeat x61 (S n)].
Proof. constructor; [discriminate|]. intros I. apply repeat_spec in I. discriminate I. Qed.
Example C82_nonvacuous : exists d ls l, ~ In x00 d /\ is_lines d ls /\ In l ls /\ (65535 <= N.of_nat (length l))%N.
Proof.
  exists (repeat x61 (S LIM)), [repeat x61 (S LIM)], (repeat x61 (S LIM)). split; [intros I; apply repeat_spec in I; discriminate I|]. split; [apply line_ex|]. split; [left; reflexivity|].
  rewrite repeat_length. pose proof LIM_val. lia.
Qed.

(** ** Witnesses *)

Definition txt (s : string) : bytes := list_byte_of_string s.
Definition nl : bytes := [x0a].
Definition file_a : bytes := txt "t = hello" ++ nl ++ txt "# comment" ++ nl ++ txt "l=x" ++ nl ++ txt "conf = b" ++ nl ++ txt "n=-5" ++ nl.
Definition lines_a : list bytes := [txt "t = hello"; txt "# comment"; txt "l=x"; txt "conf = b"; txt "n=-5"].
Definition file_b : bytes := txt "l=y" ++ nl ++ txt "f=no".
Definition lines_b : list bytes := [txt "l=y"; txt "f=no"].
Definition fs_ab (f : bytes) : option bytes := if bytes_eqb f (txt "a") then Some file_a else if bytes_eqb f (txt "b") then Some file_b else None.

Lemma no_in c l : existsb (byte_eqb c) l = false -> ~ In c l.
Proof. intros E I. assert (X : existsb (byte_eqb c) l = true) by (apply existsb_exists; exists c; split; [exact I|apply byte_eqb_eq; reflexivity]). congruence. Qed.
Lemma plain_by d ls : is_lines d ls -> ~ In x00 d -> forallb (fun l => (N.of_nat (length l) <? 65534)%N) ls = true -> plain d.
Proof. intros L Z B. split; [exact Z|]. intros ls' L' l I. rewrite <- (lines_unique _ _ L _ L') in I. rewrite forallb_forall in B. apply N.ltb_lt. exact (B l I). Qed.
Lemma is_lines_a : is_lines file_a lines_a.
Proof.
  unfold file_a, lines_a. change (is_lines (txt "t = hello" ++ x0a :: txt "# comment" ++ x0a :: txt "l=x" ++ x0a :: txt "conf = b" ++ x0a :: txt "n=-5" ++ [x0a]) [txt "t = hello"; txt "# comment"; txt "l=x"; txt "conf = b"; txt "n=-5"]).
  repeat (apply il_cons; [apply no_in; vm_compute; reflexivity|]). apply il_nil.
Qed.
Lemma is_lines_b : is_lines file_b lines_b.
Proof.
  unfold file_b, lines_b. change (is_lines (txt "l=y" ++ x0a :: txt "f=no") [txt "l=y"; txt "f=no"]).
  apply il_cons; [apply no_in; vm_compute; reflexivity|]. apply il_last; [discriminate|apply no_in; vm_compute; reflexivity].
Qed.
Lemma plain_ab : forall f d, fs_ab f = Some d -> plain d.
Proof.
  intros f d. unfold fs_ab. destruct (bytes_eqb f (txt "a")); [|destruct (bytes_eqb f (txt "b")); [|discriminate]]; intros E; injection E as <-.
  - apply (plain_by _ _ is_lines_a); [apply no_in; vm_compute; reflexivity|vm_compute; reflexivity].
  - apply (plain_by _ _ is_lines_b); [apply no_in; vm_compute; reflexivity|vm_compute; reflexivity].
Qed.

(** Non-vacuous: a file that includes another, and a command line. *)
Example C77_nonvacuous : (forall f d, fs_ab f = Some d -> plain d) /\
  exists s', parse fs_ab 3 (txt "a") [GLong 1 (Some (txt "bye")); GShort x6c (Some (txt "z"))] plenty_cfg = Ok tt s' /\
  map (c_vals s') [0; 1; 2; 3; 4] = [VConf; VStr (txt "bye"); VFlag true; VVec [txt "x"; txt "y"; txt "z"]; VInt (-5)].
Proof.
  split; [exact plain_ab|]. destruct (parse fs_ab 3 (txt "a") [GLong 1 (Some (txt "bye")); GShort x6c (Some (txt "z"))] plenty_cfg) as [[] s'|e s'| |] eqn:E; try (exfalso; vm_compute in E; discriminate E).
  exists s'. split; [reflexivity|].
  assert (K : option_map (fun s => map (c_vals s) [0; 1; 2; 3; 4]) (ok_cfg (parse fs_ab 3 (txt "a") [GLong 1 (Some (txt "bye")); GShort x6c (Some (txt "z"))] plenty_cfg)) = Some [VConf; VStr (txt "bye"); VFlag true; VVec [txt "x"; txt "y"; txt "z"]; VInt (-5)]) by (vm_compute; reflexivity).
  rewrite E in K. cbn [ok_cfg option_map] in K. injection K as K. cbn [map]. congruence.
Qed.

Lemma says_by l n v : find_sub [x3d] l <> None -> trim (firstn (match find_sub [x3d] l with Some p => p | None => 0 end) l) default_space = n ->
  trim (skipn (S (match find_sub [x3d] l with Some p => p | None => 0 end)) l) default_space = v -> says l n v.
Proof.
  intros F <- <-. destruct (find_sub [x3d] l) as [p|] eqn:E; [|contradiction F; reflexivity]. apply find_eq_some in E. destruct E as (a & b & -> & A & ->).
  exists a, b. split; [reflexivity|]. split; [exact A|]. rewrite firstn_app, Nat.sub_diag, firstn_all, app_nil_r.
  replace (skipn (S (length a)) (a ++ x3d :: b)) with b by (rewrite skipn_app, skipn_all2 by lia; replace (S (length a) - length a) with 1 by lia; reflexivity).
  split; apply C68_trim.
Qed.

(** Non-vacuous: these files are ranked. *)
Definition rank_ab (f : bytes) : nat := if bytes_eqb f (txt "a") then 1 else 0.
Example C78_nonvacuous : ranked fs_ab plenty_cfg rank_ab /\ exists l n v, In l lines_a /\ says l n v /\ is_conf plenty_cfg 0 = true /\ opt_names plenty_cfg n = Some 0.
Proof.
  split.
  - intros f d ls l n v i F L I SA N C. unfold fs_ab in F. destruct (bytes_eqb f (txt "a")) eqn:FA; [|destruct (bytes_eqb f (txt "b")) eqn:FB; [|discriminate F]]; injection F as <-.
    + rewrite (lines_unique _ _ L _ is_lines_a) in I. unfold lines_a in I. unfold rank_ab. rewrite FA.
      assert (LC : l = txt "conf = b" \/ is_conf plenty_cfg i = false).
      { destruct I as [<-|[<-|[<-|[<-|[<-|[]]]]]]; auto; right.
        - destruct (says_unique _ _ _ _ _ SA (says_by (txt "t = hello") (txt "t") (txt "hello") ltac:(vm_compute; discriminate) ltac:(vm_compute; reflexivity) ltac:(vm_compute; reflexivity))) as (-> & _). vm_compute in N. injection N as <-. reflexivity.
        - exfalso. apply says_eq in SA. revert SA. apply no_in. vm_compute. reflexivity.
        - destruct (says_unique _ _ _ _ _ SA (says_by (txt "l=x") (txt "l") (txt "x") ltac:(vm_compute; discriminate) ltac:(vm_compute; reflexivity) ltac:(vm_compute; reflexivity))) as (-> & _). vm_compute in N. injection N as <-. reflexivity.
        - destruct (says_unique _ _ _ _ _ SA (says_by (txt "n=-5") (txt "n") (txt "-5") ltac:(vm_compute; discriminate) ltac:(vm_compute; reflexivity) ltac:(vm_compute; reflexivity))) as (-> & _). vm_compute in N. injection N as <-. reflexivity. }
      destruct LC as [->|X]; [|congruence]. destruct (says_unique _ _ _ _ _ SA (says_by (txt "conf = b") (txt "conf") (txt "b") ltac:(vm_compute; discriminate) ltac:(vm_compute; reflexivity) ltac:(vm_compute; reflexivity))) as (_ & ->). vm_compute. lia.
    + exfalso. rewrite (lines_unique _ _ L _ is_lines_b) in I. destruct I as [<-|[<-|[]]].
      * destruct (says_unique _ _ _ _ _ SA (says_by (txt "l=y") (txt "l") (txt "y") ltac:(vm_compute; discriminate) ltac:(vm_compute; reflexivity) ltac:(vm_compute; reflexivity))) as (-> & _). vm_compute in N. injection N as <-. discriminate C.
      * destruct (says_unique _ _ _ _ _ SA (says_by (txt "f=no") (txt "f") (txt "no") ltac:(vm_compute; discriminate) ltac:(vm_compute; reflexivity) ltac:(vm_compute; reflexivity))) as (-> & _). vm_compute in N. injection N as <-. discriminate C.
  - exists (txt "conf = b"), (txt "conf"), (txt "b"). split; [right; right; right; left; reflexivity|]. split; [apply says_by; [vm_compute; discriminate|vm_compute; reflexivity|vm_compute; reflexivity]|]. split; reflexivity.
Qed.

(** A file that includes itself: load calls itself without end. *)
Definition fs_self (f : bytes) : option bytes := if bytes_eqb f (txt "s") then Some (txt "conf=s") else None.
Theorem C78_self_refuted : exists fs f s, registered s /\ (forall f d, fs f = Some d -> plain d) /\ forall fuel, load fs fuel f s = Deep.
Proof.
  exists fs_self, (txt "s"), plenty_cfg. split; [exact plenty_reg|].
  assert (L : is_lines (txt "conf=s") [txt "conf=s"]) by (apply il_last; [discriminate|apply no_in; vm_compute; reflexivity]).
  assert (PL : forall f d, fs_self f = Some d -> plain d).
  { intros f d. unfold fs_self. destruct (bytes_eqb f (txt "s")); [|discriminate]. intros E. injection E as <-. apply (plain_by _ _ L); [apply no_in; vm_compute; reflexivity|vm_compute; reflexivity]. }
  split; [exact PL|]. assert (G : forall fuel k, load fs_self fuel (txt "s") (set_open k plenty_cfg) = Deep); [|intros fuel; exact (G fuel 0)].
  induction fuel as [|n IH]; intros k; [reflexivity|]. cbn [load]. change (fs_self (txt "s")) with (Some (txt "conf=s")). cbn iota.
  assert (C : chunks (length (txt "conf=s")) (txt "conf=s") = [txt "conf=s"]) by (vm_compute; reflexivity). rewrite C. cbn [load_lines].
  assert (SA : says (txt "conf=s") (txt "conf") (txt "s")) by (apply says_by; [vm_compute; discriminate|vm_compute; reflexivity|vm_compute; reflexivity]).
  rewrite (load_line_says _ (txt "conf=s") (txt "conf=s") _ (txt "conf") (txt "s") (or_introl eq_refl) (no_in x00 (txt "conf=s") ltac:(vm_compute; reflexivity)) ltac:(vm_compute; reflexivity) SA).
  change (lookup (txt "conf") (c_conf (set_open (S (c_open (set_open k plenty_cfg))) (set_open k plenty_cfg)))) with (Some 0). cbn iota.
  change (update_name (load fs_self n) (txt "conf") (Some (txt "s")) (set_open (S (c_open (set_open k plenty_cfg))) (set_open k plenty_cfg)))
    with (match load fs_self n (txt "s") (set_open (S k) plenty_cfg) with Ok _ s' => Ok tt s' | Throw e s' => Throw e s' | Deep => Deep | Ub => Ub end).
  rewrite IH. reflexivity.
Qed.
Print Assumptions C78_self_refuted.

(** Configurations made with the constructor that takes the name of a file. *)
Inductive with_file : cfg -> Prop :=
| wf_new vals u s : cfg_new vals = Ok u s -> with_file s
| wf_add name cell act short u s s' : with_file s -> add_opt name cell act short s = Ok u s' -> with_file s'.

(** In these "conf", and -c, name an option that includes a file, whatever else is registered. *)
Theorem C77_conf_includes : forall s, with_file s ->
  exists i, opt_names s (txt "conf") = Some i /\ opt_names s (txt "c") = Some i /\ is_conf s i = true.
Proof.
  intros s W. exists 0. induction W as [vals u s E|name cell act short u s s' W IH E].
  - unfold cfg_new, add_opt in E. cbn in E. injection E as _ <-. repeat split; reflexivity.
  - destruct IH as (A & B & C). unfold add_opt in E. destruct (lookup name (c_conf s)); [discriminate E|]. injection E as _ <-.
    unfold opt_names in *. cbn [c_conf]. rewrite !lookup_app, A, B. split; [reflexivity|]. split; [reflexivity|].
    unfold is_conf in *. cbn [c_opts c_vals]. destruct (c_opts s) as [|o os]; [discriminate C|]. exact C.
Qed.
Print Assumptions C77_conf_includes.

(** A value that is refused leaves the file open. *)
Definition fs_bad (f : bytes) : option bytes := Some (txt "n=x").
Theorem C80_leak_refuted : exists fs fuel f s e s', registered s /\ load fs fuel f s = Throw e s' /\ c_open s = 0 /\ c_open s' = 1.
Proof.
  exists fs_bad, 1, [], plenty_cfg, EInvalid. destruct (load fs_bad 1 [] plenty_cfg) as [b s'|e s'| |] eqn:E; try (exfalso; vm_compute in E; discriminate E).
  exists s'. split; [exact plenty_reg|].
  assert (K : match load fs_bad 1 [] plenty_cfg with Throw e s => Some (e, c_open s) | _ => None end = Some (EInvalid, 1)) by (vm_compute; reflexivity).
  rewrite E in K. injection K as -> K. auto.
Qed.
Print Assumptions C80_leak_refuted.
Example C80_nonvacuous : exists s', load fs_ab 3 (txt "a") plenty_cfg = Ok true s' /\ c_open s' = 0.
Proof.
  destruct (load fs_ab 3 (txt "a") plenty_cfg) as [b s'|e s'| |] eqn:E; try (exfalso; vm_compute in E; discriminate E). exists s'.
  assert (K : match load fs_ab 3 (txt "a") plenty_cfg with Ok b s => Some (b, c_open s) | _ => None end = Some (true, 0)) by (vm_compute; reflexivity).
  rewrite E in K. injection K as -> K. auto.
Qed.

(** ** C83 *)

Lemma settled_nil v w : settled v [] w -> w = v.
Proof.
  intros D. remember ([] : list bytes) as xs eqn:E. destruct D as [v|b x xs|t xs x|z xs x y B R|l xs]; try reflexivity; try discriminate E; try (destruct xs; discriminate E).
  rewrite E, app_nil_r. reflexivity.
Qed.

(** A flag that is not mentioned keeps its value. *)
Theorem C83_unmentioned_partial : forall fs fuel f s b s' c, (forall f d, fs f = Some d -> plain d) -> load fs fuel f s = Ok b s' ->
  (forall l i v, reads fs (opt_names s) (is_conf s) f l -> In (i, v) l -> cell_of s i <> c) -> c_vals s' c = c_vals s c.
Proof.
  intros fs fuel f s b s' c PL E H. destruct (C77_file _ _ _ _ _ _ PL E) as (l & R & D). specialize (D c).
  assert (X : for_cell s c l = []).
  { unfold for_cell. assert (Y : filter (fun x => Nat.eqb (cell_of s (fst x)) c) l = []); [|rewrite Y; reflexivity].
    destruct (filter (fun x => Nat.eqb (cell_of s (fst x)) c) l) as [|[i v] m] eqn:F; [reflexivity|]. exfalso.
    assert (I : In (i, v) (filter (fun x => Nat.eqb (cell_of s (fst x)) c) l)) by (rewrite F; left; reflexivity). apply filter_In in I. destruct I as (I & B). apply Nat.eqb_eq in B. exact (H l i v R I B). }
  rewrite X in D. exact (settled_nil _ _ D).
Qed.

(** "f=no" and "f=false" switch f on. *)
Definition fs_no (f : bytes) : option bytes := if bytes_eqb f (txt "no") then Some (txt "f=no") else if bytes_eqb f (txt "false") then Some (txt "f=false") else None.
Theorem C83_no_is_yes_refuted : exists fs s f1 f2 b1 b2 s1 s2, registered s /\ c_vals s 2 = VFlag false /\ fs f1 = Some (txt "f=no") /\ fs f2 = Some (txt "f=false") /\
  load fs 1 f1 s = Ok b1 s1 /\ c_vals s1 2 = VFlag true /\ load fs 1 f2 s = Ok b2 s2 /\ c_vals s2 2 = VFlag true.
Proof.
  exists fs_no, plenty_cfg, (txt "no"), (txt "false").
  destruct (load fs_no 1 (txt "no") plenty_cfg) as [b1 s1|e s1| |] eqn:E1; try (exfalso; vm_compute in E1; discriminate E1).
  destruct (load fs_no 1 (txt "false") plenty_cfg) as [b2 s2|e s2| |] eqn:E2; try (exfalso; vm_compute in E2; discriminate E2).
  exists b1, b2, s1, s2.
  assert (K1 : option_map (fun s => c_vals s 2) (ok_cfg (load fs_no 1 (txt "no") plenty_cfg)) = Some (VFlag true)) by (vm_compute; reflexivity).
  assert (K2 : option_map (fun s => c_vals s 2) (ok_cfg (load fs_no 1 (txt "false") plenty_cfg)) = Some (VFlag true)) by (vm_compute; reflexivity).
  rewrite E1 in K1. rewrite E2 in K2. cbn [ok_cfg option_map] in K1, K2. injection K1 as K1. injection K2 as K2.
  split; [exact plenty_reg|]. repeat split; auto.
Qed.
Print Assumptions C83_unmentioned_partial.
Print Assumptions C83_no_is_yes_refuted.
Example C83_nonvacuous : exists fs f b s', (forall f d, fs f = Some d -> plain d) /\ load fs 1 f plenty_cfg = Ok b s' /\ (forall l i v, reads fs (opt_names plenty_cfg) (is_conf plenty_cfg) f l -> In (i, v) l -> cell_of plenty_cfg i <> 2) /\ fs f = Some (txt "t=x").
Proof.
  set (fs := fun _ : bytes => Some (txt "t=x")). assert (L : is_lines (txt "t=x") [txt "t=x"]) by (apply il_last; [discriminate|apply no_in; vm_compute; reflexivity]).
  assert (PL : forall f d, fs f = Some d -> plain d) by (intros f d E; injection E as <-; apply (plain_by _ _ L); [apply no_in; vm_compute; reflexivity|vm_compute; reflexivity]).
  exists fs, []. destruct (load fs 1 [] plenty_cfg) as [b s'|e s'| |] eqn:E; try (exfalso; vm_compute in E; discriminate E). exists b, s'. split; [exact PL|]. split; [reflexivity|]. split; [|reflexivity].
  intros l i v R I. assert (SA : says (txt "t=x") (txt "t") (txt "x")) by (apply says_by; [vm_compute; discriminate|vm_compute; reflexivity|vm_compute; reflexivity]).
  assert (R' : reads fs (opt_names plenty_cfg) (is_conf plenty_cfg) [] [(1, txt "x")]).
  { eapply R_file; [reflexivity|exact L|]. eapply RL_set; [exact SA|reflexivity|reflexivity|constructor]. }
  rewrite (C77_settings_unique _ _ _ _ _ _ R R') in I. destruct I as [I|[]]. injection I as <- _. discriminate.
Qed.

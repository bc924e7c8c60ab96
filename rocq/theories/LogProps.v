(** C153: what a log file holds. *)
From Coq Require Import String List Arith NArith Bool Lia.
From Coq.Init Require Import Byte.
From Verif Require Import Base StreamModel UtilModel UtilProps LogModel.
Import ListNotations.

(** ** Specification *)

(** A message: the time, the kind, the text.  Its line: time, prefix and kind in brackets, text, end of line. *)
Definition msg : Type := bytes * level * bytes.
Definition kind (l : level) : string := match l with LInfo => "info" | LDebug => "debug" | LWarn => "warn" | LError => "error" end.
Definition header (p : bytes) (m : msg) : bytes := let '(dt, l, _) := m in dt ++ txt " [" ++ p ++ txt " " ++ txt (kind l) ++ txt "] ".
Definition whole (p : bytes) (m : msg) : bytes := header p m ++ snd m ++ [x0a].
(** Fewer than 1024 characters, so that formatting keeps them (C67). *)
Definition short (p : bytes) (m : msg) : Prop := length (header p m) < 1024 /\ length (snd m) < 1024.
(** Logging m with logger i, all of the line being taken by write(2). *)
Definition log (p : bytes) (i : nat) (m : msg) : lev := let '(dt, l, text) := m in LLog i dt l text (length (whole p m)).
(** All lines, in the order of the calls; [ps] are the prefixes of the loggers made so far. *)
Fixpoint logged (ps : list bytes) (es : list lev) : bytes :=
  match es with
  | [] => []
  | LOpen p :: r => logged (ps ++ [p]) r
  | LLog i dt l text _ :: r => whole (nth i ps []) (dt, l, text) ++ logged ps r
  | LClose _ :: r => logged ps r
  end.

(** ** Proofs *)

Lemma line_whole p dt l text : short p (dt, l, text) -> line dt p l text = Some (whole p (dt, l, text)).
Proof.
  intros (H & B). unfold line. assert (E : tag l = txt (kind l)) by (destruct l; reflexivity). rewrite E. cbn [header snd] in *.
  rewrite (vstringprintf_small text) by (unfold lenN; lia). rewrite vstringprintf_small by (unfold lenN; lia). unfold whole, header, snd. rewrite <- !app_assoc. reflexivity.
Qed.

Lemma skipn_skipn' {X} a b (l : list X) : skipn a (skipn b l) = skipn (a + b) l.
Proof. revert l. induction b as [|b IH]; intros l; [rewrite Nat.add_0_r; reflexivity|]. rewrite Nat.add_succ_r. destruct l as [|x l]; [rewrite !skipn_nil; reflexivity|]. cbn [skipn]. apply IH. Qed.

Lemma overwrite_next o a d f : o <= length f -> overwrite (o + length a) d (overwrite o a f) = overwrite o (a ++ d) f.
Proof.
  intros L. unfold overwrite. rewrite !app_assoc. f_equal.
  - f_equal. assert (X : length (firstn o f ++ a) = o + length a) by (rewrite app_length, firstn_length; lia).
    rewrite firstn_app, X. rewrite Nat.sub_diag. cbn [firstn]. rewrite app_nil_r. rewrite firstn_all2 by lia. reflexivity.
  - rewrite <- app_assoc. rewrite skipn_app. rewrite (skipn_all2 (firstn o f)) by (rewrite firstn_length; lia). cbn [app]. rewrite firstn_length, Nat.min_l by lia.
    rewrite skipn_app. rewrite skipn_all2 by lia. cbn [app]. rewrite skipn_skipn'. f_equal. rewrite app_length. lia.
Qed.

Lemma upd_nth {X} (x : X) i l : i < length l -> nth_error (upd i x l) i = Some x /\ length (upd i x l) = length l.
Proof. revert i. induction l as [|y l IH]; intros [|i] L; cbn in *; try lia; [auto|]. destruct (IH i ltac:(lia)) as (A & B). split; [exact A|lia]. Qed.

Lemma logs_run p i : forall ms o f logs, i < length logs -> nth_error logs i = Some (p, Some o) -> o <= length f -> (forall m, In m ms -> short p m) ->
  exists logs', lrun (map (log p i) ms) (mkLst (Some f) logs) = Some (mkLst (Some (overwrite o (concat (map (whole p) ms)) f)) logs') /\ nth_error logs' i = Some (p, Some (o + length (concat (map (whole p) ms)))) /\ length logs' = length logs.
Proof.
  induction ms as [|m ms IH]; intros o f logs LL N L S.
  - exists logs. cbn. split; [unfold overwrite; cbn [app length]; rewrite Nat.add_0_r, firstn_skipn; reflexivity|]. rewrite Nat.add_0_r. auto.
  - destruct m as [[dt l] text]. cbn [map lrun log lstep l_logs l_file content]. rewrite N. rewrite line_whole by (apply S; left; reflexivity). rewrite Nat.leb_refl. set (w := whole p (dt, l, text)). rewrite firstn_all.
    destruct (upd_nth (p, Some (o + length w)) i logs LL) as (U1 & U2).
    destruct (IH (o + length w) (overwrite o w f) (upd i (p, Some (o + length w)) logs)) as (logs' & R & N' & L'); [lia|exact U1| |intros m I; apply S; right; exact I|].
    + unfold overwrite. rewrite !app_length, firstn_length. lia.
    + exists logs'. cbn [concat map]. fold w. rewrite overwrite_next in R by exact L. split; [exact R|]. split; [rewrite N', app_length, Nat.add_assoc; reflexivity|lia].
Qed.

(** A logger that is alone writes its lines one after the other, from the
    beginning of the file, over what was there. *)
Theorem C153_written_partial : forall f p ms, (forall m, In m ms -> short p m) ->
  exists s, lrun (LOpen p :: map (log p 0) ms) (mkLst f []) = Some s /\ let new := concat (map (whole p) ms) in l_file s = Some (new ++ skipn (length new) (content f)).
Proof.
  intros f p ms S. destruct (logs_run p 0 ms 0 (content f) [(p, Some 0)]) as (logs' & R & _); [cbn; lia|reflexivity|lia|exact S|]. eexists. cbn [lrun lstep l_file l_logs app content]. split; [exact R|]. reflexivity.
Qed.

(** So a new or empty file holds all lines whole and in order, also while the
    logger is open. *)
Corollary C153_new_partial : forall f p ms, content f = [] -> (forall m, In m ms -> short p m) ->
  exists s, lrun (LOpen p :: map (log p 0) ms) (mkLst f []) = Some s /\ l_file s = Some (concat (map (whole p) ms)).
Proof. intros f p ms E S. destruct (C153_written_partial f p ms S) as (s & R & F). exists s. split; [exact R|]. rewrite F, E. rewrite skipn_nil, app_nil_r. reflexivity. Qed.
(** Several runs of a program, one after the other: in each a logger is made,
    its messages logged, and it is closed. *)
Definition one_run (i : nat) (p : bytes) (ms : list msg) : list lev := LOpen p :: map (log p i) ms ++ [LClose i].
Fixpoint runs (i : nat) (rs : list (bytes * list msg)) : list lev :=
  match rs with [] => [] | (p, ms) :: r => one_run i p ms ++ runs (S i) r end.
(** The lines of a run laid over the beginning of what was there. *)
Definition over (old : bytes) (r : bytes * list msg) : bytes :=
  let new := concat (map (whole (fst r)) (snd r)) in new ++ skipn (length new) old.

Lemma lrun_app a b s : lrun (a ++ b) s = match lrun a s with Some s' => lrun b s' | None => None end.
Proof. revert s. induction a as [|e a IH]; intros s; [reflexivity|]. cbn [app lrun]. destruct (lstep e s); [apply IH|reflexivity]. Qed.

Lemma lrun_app_some a b s s' r : lrun a s = Some s' -> lrun b s' = r -> lrun (a ++ b) s = r.
Proof. intros A B. rewrite lrun_app, A. exact B. Qed.

Lemma runs_run : forall rs f logs, (forall r m, In r rs -> In m (snd r) -> short (fst r) m) ->
  exists s, lrun (runs (length logs) rs) (mkLst f logs) = Some s /\ content (l_file s) = fold_left over rs (content f).
Proof.
  induction rs as [|[p ms] rs IH]; intros f logs S.
  - eexists. split; reflexivity.
  - cbn [runs]. unfold one_run. cbn [app lrun lstep l_file l_logs]. rewrite <- app_assoc.
    assert (N : nth_error (logs ++ [(p, Some 0)]) (length logs) = Some (p, Some 0)) by (rewrite nth_error_app2, Nat.sub_diag by lia; reflexivity).
    assert (L : length (logs ++ [(p, Some 0)]) = Datatypes.S (length logs)) by (rewrite app_length; cbn; lia).
    destruct (logs_run p (length logs) ms 0 (content f) (logs ++ [(p, Some 0)])) as (logs' & R & N' & L'); [lia|exact N|lia|intros m I; apply (S (p, ms) m); [left; reflexivity|exact I]|].
    destruct (upd_nth (p, @None nat) (length logs) logs' ltac:(lia)) as (_ & U).
    destruct (IH (Some (overwrite 0 (concat (map (whole p) ms)) (content f))) (upd (length logs) (p, None) logs')) as (s & R' & F); [intros r m I J; apply (S r m); [right; exact I|exact J]|].
    exists s. rewrite U, L', L in R'. split; [|rewrite F; reflexivity].
    apply (lrun_app_some _ _ _ _ _ R). cbn [app lrun lstep l_logs l_file]. rewrite N'. exact R'.
Qed.

(** After several runs the file holds the lines of the last, then what stuck
    out of the file before. *)
Theorem C153_runs_partial : forall rs f, (forall r m, In r rs -> In m (snd r) -> short (fst r) m) ->
  exists s, lrun (runs 0 rs) (mkLst f []) = Some s /\ content (l_file s) = fold_left over rs (content f).
Proof. intros rs f S. exact (runs_run rs f [] S). Qed.

(** So a run that logs at least as many bytes as the file had leaves nothing of
    the runs before. *)
Corollary C153_last_only : forall rs p ms f, (forall r m, In r (rs ++ [(p, ms)]) -> In m (snd r) -> short (fst r) m) ->
  let new := concat (map (whole p) ms) in length (fold_left over rs (content f)) <= length new ->
  exists s, lrun (runs 0 (rs ++ [(p, ms)])) (mkLst f []) = Some s /\ content (l_file s) = new.
Proof.
  intros rs p ms f S new L. destruct (C153_runs_partial _ f S) as (s & R & F). exists s. split; [exact R|]. rewrite F, fold_left_app. cbn [fold_left]. unfold over at 1. cbn [fst snd]. fold new. rewrite skipn_all2 by exact L. apply app_nil_r.
Qed.
Print Assumptions C153_runs_partial.
Print Assumptions C153_last_only.
Print Assumptions C153_written_partial.
Print Assumptions C153_new_partial.

Definition net : bytes := txt "net".
Definition m1 : msg := (txt "10:00", LInfo, txt "up").
Definition m2 : msg := (txt "11:00", LInfo, txt "ok").

(** The property as stated: the lines logged to a new file are in it, whole and in order. *)
Definition C153_full : Prop := forall es s, lrun es (mkLst None []) = Some s -> content (l_file s) = logged [] es.

(** The program is started again: the line of the first run is gone. *)
Theorem C153_restart_refuted : exists s, lrun [LOpen net; log net 0 m1; LClose 0; LOpen net; log net 1 m2; LClose 1] (mkLst None []) = Some s /\ l_file s = Some (whole net m2).
Proof. eexists. split; vm_compute; reflexivity. Qed.

(** Two loggers for one file: the line of the first is gone. *)
Theorem C153_two_refuted : exists s, lrun [LOpen net; LOpen net; log net 0 m1; log net 1 m2] (mkLst None []) = Some s /\ l_file s = Some (whole net m2).
Proof. eexists. split; vm_compute; reflexivity. Qed.

(** write(2) takes a part of the line (a full disk, a pipe): the rest is not written later. *)
Theorem C153_short_refuted : exists s, lrun [LOpen net; LLog 0 (txt "10:00") LInfo (txt "up") 5; log net 0 m2] (mkLst None []) = Some s /\ l_file s = Some (txt "10:00" ++ whole net m2).
Proof. eexists. split; vm_compute; reflexivity. Qed.

(** A text of 1024 characters or more: its last character becomes NUL. *)
Theorem C153_long_cut : forall p dt l text c, short p (dt, l, []) -> 1023 <= length text ->
  exists s, lrun [LOpen p; log p 0 (dt, l, text ++ [c])] (mkLst None []) = Some s /\ l_file s = Some (header p (dt, l, text) ++ text ++ [x00; x0a]).
Proof.
  intros p dt l text c (H & _) L. assert (E : tag l = txt (kind l)) by (destruct l; reflexivity).
  assert (LN : line dt p l (text ++ [c]) = Some (header p (dt, l, text) ++ text ++ [x00; x0a])).
  { unfold line. rewrite C67_stringprintf_long_truncated by (unfold lenN; lia). rewrite E. cbn [header] in *. rewrite vstringprintf_small by (unfold lenN; lia). rewrite <- (app_assoc text). reflexivity. }
  eexists. cbn [lrun lstep log l_logs l_file app nth_error content]. rewrite LN.
  replace (length (whole p (dt, l, text ++ [c])) <=? length (header p (dt, l, text) ++ text ++ [x00; x0a])) with true.
  2:{ symmetry. apply Nat.leb_le. unfold whole. cbn [header snd]. rewrite !app_length. cbn [length]. lia. }
  split; [reflexivity|]. cbn [l_file]. unfold overwrite. cbn [firstn skipn app]. rewrite skipn_nil, app_nil_r. rewrite firstn_all2; [reflexivity|]. unfold whole. cbn [header snd]. rewrite !app_length. cbn [length]. lia.
Qed.

Theorem C153_full_refuted : ~ C153_full.
Proof. intros F. destruct C153_two_refuted as (s & R & E). specialize (F _ _ R). rewrite E in F. vm_compute in F. discriminate F. Qed.
Print Assumptions C153_restart_refuted.
Print Assumptions C153_two_refuted.
Print Assumptions C153_short_refuted.
Print Assumptions C153_long_cut.
Print Assumptions C153_full_refuted.

Example C153_nonvacuous : (forall m, In m [m1; m2] -> short net m) /\ concat (map (whole net) [m1; m2]) = txt "10:00 [net info] up" ++ [x0a] ++ txt "11:00 [net info] ok" ++ [x0a].
Proof. split; [|reflexivity]. intros m [<-|[<-|[]]]; split; vm_compute; lia. Qed.
Example C153_runs_nonvacuous : (forall r m, In r [(net, [m1; m2]); (net, [m2])] -> In m (snd r) -> short (fst r) m) /\
  fold_left over [(net, [m1; m2]); (net, [m2])] [] = whole net m2 ++ whole net m2 /\ fold_left over [(net, [m1]); (net, [m2])] [] = whole net m2.
Proof. split; [|split; vm_compute; reflexivity]. intros r m [<-|[<-|[]]]; cbn [fst snd]; intros I; apply C153_nonvacuous; cbn in *; tauto. Qed.
Example C153_long_nonvacuous : short net (txt "10:00", LInfo, []) /\ 1023 <= length (repeat x61 1023).
Proof. split; [split; vm_compute; lia|]. rewrite repeat_length. apply le_n. Qed.

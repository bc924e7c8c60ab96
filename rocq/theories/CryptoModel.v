(** The wrappers around OpenSSL, include/salticidae/crypto.h, and their C
    functions, src/crypto.cpp.

    OpenSSL is the environment.  It hands out handles; the world below keeps a
    ledger of those that were not given back.  Whether a call succeeds is
    decided by the world: by the files, by the encodings, and otherwise by a
    list of answers, about which nothing is assumed.

    Simplified: memory is never short, so BN_new, RSA_new and X509_new succeed
    (150, 152, 237); reference counts inside the library (a context keeps what
    it uses) are the library's; bytes are natural numbers; file names are
    numbers.  Handles are numbers, 0 is a null pointer. *)
From Coq Require Import Arith List Bool.
Import ListNotations.

(** ** The world *)

(** Kinds of things OpenSSL and stdio hand out. *)
Inductive kind := KFile | KKey | KCert | KCtx | KSsl | KBn | KRsa | KBuf.
(** Model only: equality test. *)
Definition kind_eqb (a b : kind) : bool :=
  match a, b with
  | KFile, KFile | KKey, KKey | KCert, KCert | KCtx, KCtx | KSsl, KSsl | KBn, KBn | KRsa, KRsa | KBuf, KBuf => true
  | _, _ => false
  end.

(** What a PEM file holds: nothing usable, an object, an object under a password. *)
Inductive pem := PBad | PPlain (obj : list nat) | PEnc (pw obj : list nat).

(** An entry of the ledger: handle, kind, content (the object's encoding). *)
Definition entry : Type := nat * kind * list nat.
Definition e_h (e : entry) : nat := fst (fst e).
Definition e_kind (e : entry) : kind := snd (fst e).
Definition e_obj (e : entry) : list nat := snd e.

(** The ledger of what was handed out and is not given back, and the answers to come. *)
Record world := mkW {
  w_live : list entry;               (* handed out and not given back *)
  w_next : nat;                      (* the next handle *)
  w_ans : list (bool * list nat);    (* answers to come; none left: failure *)
  w_fs : nat -> option pem;          (* files that can be opened for reading *)
  w_wr : nat -> bool;                (* files that can be opened for writing *)
  w_out : list (nat * list nat) }.   (* objects written to files *)

(** Outcomes: a value, an exception, undefined behaviour. *)
Inductive exn := EKey | EX509 | ETls | ELoadCert | ELoadKey | EMatch | ERun.   (* util.h 85-117; std::runtime_error *)
Inductive out (A : Type) := Ret (a : A) | Thr (e : exn) | Ub.
Arguments Ret {A}. Arguments Thr {A}. Arguments Ub {A}.
Definition prog (A : Type) := world -> out A * world.

(** Model only: programs that use the ledger. *)
Definition ret {A} (a : A) : prog A := fun w => (Ret a, w).
Definition throw {A} (e : exn) : prog A := fun w => (Thr e, w).
Definition ub {A} : prog A := fun w => (Ub, w).
Definition bind {A C} (p : prog A) (f : A -> prog C) : prog C :=
  fun w => match p w with
           | (Ret a, w') => f a w'
           | (Thr e, w') => (Thr e, w')
           | (Ub, w') => (Ub, w')
           end.
Notation "x <- p ; q" := (bind p (fun x => q)) (at level 60, p at next level, right associativity).
Notation "p ;; q" := (bind p (fun _ => q)) (at level 60, right associativity).

(** Library calls. *)
Definition w_live_ l w := mkW l (w_next w) (w_ans w) (w_fs w) (w_wr w) (w_out w).
Definition lookup (h : nat) (k : kind) (w : world) : option entry :=
  find (fun e => (e_h e =? h) && kind_eqb (e_kind e) k) (w_live w).
(** A handle is handed out. *)
Definition give (k : kind) (o : list nat) : prog nat :=
  fun w => (Ret (S (w_next w)), mkW ((S (w_next w), k, o) :: w_live w) (S (w_next w)) (w_ans w) (w_fs w) (w_wr w) (w_out w)).
(** A handle is given back: *_free, fclose. *)
Definition free (k : kind) (h : nat) : prog unit :=
  fun w => match lookup h k w with
           | Some _ => (Ret tt, w_live_ (filter (fun e => negb ((e_h e =? h) && kind_eqb (e_kind e) k)) (w_live w)) w)
           | None => (Ub, w)
           end.
(** A handle is used; yields its content. *)
Definition use (k : kind) (h : nat) : prog (list nat) :=
  fun w => match lookup h k w with Some e => (Ret (e_obj e), w) | None => (Ub, w) end.
(** The library's answer to a call. *)
Definition ask : prog (bool * list nat) :=
  fun w => match w_ans w with
           | [] => (Ret (false, []), w)
           | a :: l => (Ret a, mkW (w_live w) (w_next w) l (w_fs w) (w_wr w) (w_out w))
           end.
(** A call that creates an object or returns a null pointer. *)
Definition make (k : kind) : prog nat := a <- ask; if fst a then give k (snd a) else ret 0.
(** fopen. *)
Definition open_r (f : nat) : prog nat := fun w => match w_fs w f with Some _ => give KFile [] w | None => (Ret 0, w) end.
Definition open_w (f : nat) : prog nat := fun w => if w_wr w f then give KFile [] w else (Ret 0, w).

(** ** Passwords (122-132) *)

(** Model only: equality test. *)
Definition bytes_eqb (a b : list nat) : bool := if list_eq_dec Nat.eq_dec a b then true else false.

(** c_str (175, 263): what a C function sees of a std::string. *)
Fixpoint cstr (s : list nat) : list nat :=
  match s with
  | [] => []
  | c :: s => if c =? 0 then [] else c :: cstr s
  end.

(** What the user's password function does. *)
Inductive pwres := PwNone | PwIs (s : list nat) | PwThrow.
(** _tls_pem_no_passswd (123-125), _tls_pem_with_passwd (126-132): called by
    the library with a buffer of [size] bytes. *)
Definition pw_cb (pw : option (list nat)) (size : nat) : pwres :=
  match pw with
  | None => PwNone
  | Some p => if size <? S (length (cstr p)) then PwThrow else PwIs (cstr p)
  end.

Section Crypto.
Variable bufsize : nat.                        (* PEM_BUFSIZE of the library *)
Variable is_enc : kind -> list nat -> bool.    (* the encodings of keys and of certificates *)

(** PEM_read_PrivateKey, PEM_read_X509: a null pointer if there is no object
    or the password is wrong.  An exception thrown by the callback would have
    to pass through the library, which is written in C. *)
Definition pem_read (k : kind) (f : nat) (pw : option (list nat)) : prog nat :=
  fun w => match w_fs w f with
           | Some (PPlain o) => give k o w
           | Some (PEnc p o) => match pw_cb pw bufsize with
                                | PwIs s => if bytes_eqb s p then give k o w else (Ret 0, w)
                                | PwNone => (Ret 0, w)
                                | PwThrow => (Ub, w)
                                end
           | _ => (Ret 0, w)
           end.

(** d2i: reads an encoding from the beginning of the text. *)
Fixpoint prefixes (l : list nat) : list (list nat) :=
  [] :: match l with [] => [] | x :: l => map (cons x) (prefixes l) end.
(** d2i_PrivateKey, d2i_X509 as documented. *)
Definition d2i (k : kind) (der : list nat) : prog nat :=
  match find (is_enc k) (prefixes der) with Some o => give k o | None => ret 0 end.

(** ** PKey (138-226) and X509 (228-310) *)

(** 147-164 *)
Definition key_rsa : prog nat :=
  key <- make KKey;
  if key =? 0 then throw EKey else
  e <- give KBn [];
  rsa <- give KRsa [];
  r <- ask;
  free KBn e ;;
  if fst r then free KRsa rsa ;; ret key           (* EVP_PKEY_set1_RSA keeps its own reference *)
  else free KRsa rsa ;; throw EKey.

(** 166-184, 254-272 *)
Definition from_pem (k : kind) (x : exn) (f : nat) (pw : option (list nat)) : prog nat :=
  fp <- open_r f;
  if fp =? 0 then throw x else
  h <- pem_read k f pw;
  if h =? 0 then throw x else
  free KFile fp ;; ret h.

(** 186-193, 274-281: [&der[0]] of an empty vector is undefined. *)
Definition from_der (k : kind) (x : exn) (der : list nat) : prog nat :=
  match der with
  | [] => ub
  | _ => h <- d2i k der; if h =? 0 then throw x else ret h
  end.

(** 195-204 (public key), 206-215, 290-299: the object's encoding in a buffer
    of the library, copied out. *)
Definition get_der (k : kind) (x : exn) (h : nat) : prog (list nat) :=
  o <- use k h;
  r <- ask;
  if fst r then b <- give KBuf o; c <- use KBuf b; free KBuf b ;; ret c
  else throw x.
Definition get_pub_der (h : nat) : prog (list nat) :=
  use KKey h ;;
  r <- ask;
  if fst r then b <- give KBuf (snd r); c <- use KBuf b; free KBuf b ;; ret c
  else throw EKey.

(** 217-223, 301-307: fopen is not checked. *)
Definition save (k : kind) (h f : nat) : prog unit :=
  o <- use k h;
  fp <- open_w f;
  use KFile fp ;;
  r <- ask;
  free KFile fp ;;
  if fst r then (fun w => (Ret tt, mkW (w_live w) (w_next w) (w_ans w) (w_fs w) (w_wr w) (w_out w ++ [(f, o)])))
  else throw EX509.

(** 236-252 *)
Definition self_signed (h : nat) : prog nat := use KKey h ;; r <- ask; give KCert (snd r).
(** 283-288 *)
Definition pub_of (h : nat) : prog nat :=
  use KCert h ;; k <- make KKey; if k =? 0 then throw EX509 else ret k.

(** ** TLSContext (312-358) and TLS (362-418) *)

(** 316-319 *)
Definition ctx_new : prog nat := h <- make KCtx; if h =? 0 then throw ERun else ret h.
(** 324-346: the library's answer, turned into an exception. *)
Definition ctx_set (h : nat) (x : exn) : prog unit := use KCtx h ;; r <- ask; if fst r then ret tt else throw x.
(** 353-355 *)
Definition ctx_check (h : nat) : prog bool := use KCtx h ;; r <- ask; ret (fst r).
(** 365-376 *)
Definition tls_new (ctx : nat) : prog nat :=
  use KCtx ctx ;;
  ssl <- make KSsl;
  if ssl =? 0 then throw ERun else
  r <- ask;
  if fst r then ret ssl else throw ETls.
(** 396-401 *)
Definition peer_cert (h : nat) : prog nat := use KSsl h ;; c <- make KCert; if c =? 0 then throw ETls else ret c.

(** ** Objects *)

(** A wrapper object: its kind and what it holds.  A wrapper that was moved
    from holds 0 (145, 234, 322, 379). *)
Definition slot : Type := kind * nat.

(** What the user does with objects of the classes. *)
Inductive op :=
| NewRsa | NewPem (k : kind) (f : nat) (pw : option (list nat)) | NewDer (k : kind) (der : list nat)
| NewSelf (i : nat) | PubOf (i : nat) | NewCtx | NewTls (i : nat) | PeerCert (i : nat)
| Der (i : nat) | PubDer (i : nat) | Save (i f : nat) | CtxSet (i : nat) (x : exn) | Check (i : nat)
| Move (i : nat) | Drop (i : nat).

(** What the caller sees. *)
Inductive seen := SNew | SBytes (l : list nat) | SOk (b : bool) | SThr (e : exn) | SUb.

(** Model only: one entry replaced. *)
Fixpoint repl {A} (n : nat) (v : A) (l : list A) : list A :=
  match l, n with
  | [], _ => []
  | _ :: l, O => v :: l
  | x :: l, S n => x :: repl n v l
  end.

(** Which exception the class throws. *)
Definition err (k : kind) : exn := match k with KKey => EKey | _ => EX509 end.

(** The caller may call a method only on an object that is not moved from. *)
Definition held (k : kind) (i : nat) (ss : list slot) : option nat :=
  match nth_error ss i with
  | Some (k', h) => if kind_eqb k k' && negb (h =? 0) then Some h else None
  | None => None
  end.

(** An object is made of the result of [p]. *)
Definition mk (k : kind) (p : prog nat) (ss : list slot) (w : world) : option (list slot * world * seen) :=
  match p w with
  | (Ret h, w) => Some (ss ++ [(k, h)], w, SNew)
  | (Thr e, w) => Some (ss, w, SThr e)
  | (Ub, w) => Some (ss, w, SUb)
  end.
(** Model only: a call by the user and what is seen of it. *)
Definition call {A} (f : A -> seen) (p : prog A) (ss : list slot) (w : world) : option (list slot * world * seen) :=
  match p w with
  | (Ret a, w) => Some (ss, w, f a)
  | (Thr e, w) => Some (ss, w, SThr e)
  | (Ub, w) => Some (ss, w, SUb)
  end.

Definition step (o : op) (ss : list slot) (w : world) : option (list slot * world * seen) :=
  match o with
  | NewRsa => mk KKey key_rsa ss w
  | NewPem k f pw => match k with KKey | KCert => mk k (from_pem k (err k) f pw) ss w | _ => None end
  | NewDer k d => match k with KKey | KCert => mk k (from_der k (err k) d) ss w | _ => None end
  | NewSelf i => match held KKey i ss with Some h => mk KCert (self_signed h) ss w | None => None end
  | PubOf i => match held KCert i ss with Some h => mk KKey (pub_of h) ss w | None => None end
  | NewCtx => mk KCtx ctx_new ss w
  | NewTls i => match held KCtx i ss with Some h => mk KSsl (tls_new h) ss w | None => None end
  | PeerCert i => match held KSsl i ss with Some h => mk KCert (peer_cert h) ss w | None => None end
  | Der i => match nth_error ss i with
             | Some (KKey, h) => if h =? 0 then None else call SBytes (get_der KKey EKey h) ss w
             | Some (KCert, h) => if h =? 0 then None else call SBytes (get_der KCert EX509 h) ss w
             | _ => None
             end
  | PubDer i => match held KKey i ss with Some h => call SBytes (get_pub_der h) ss w | None => None end
  | Save i f => match nth_error ss i with
                | Some (KKey, h) => if h =? 0 then None else call (fun _ => SOk true) (save KKey h f) ss w
                | Some (KCert, h) => if h =? 0 then None else call (fun _ => SOk true) (save KCert h f) ss w
                | _ => None
                end
  | CtxSet i x => match held KCtx i ss with Some h => call (fun _ => SOk true) (ctx_set h x) ss w | None => None end
  | Check i => match held KCtx i ss with Some h => call SOk (ctx_check h) ss w | None => None end
  | Move i => match nth_error ss i with Some (k, h) => Some (repl i (k, 0) ss ++ [(k, h)], w, SNew) | None => None end
  | Drop i => match nth_error ss i with    (* 225, 309, 357, 417; the place is kept so that numbers stay *)
              | Some (k, h) => if h =? 0 then Some (ss, w, SOk true)
                               else call (fun _ => SOk true) (free k h) (repl i (k, 0) ss) w
              | None => None
              end
  end.

(** A run: one event after the other; it stops where an event cannot happen.  Model only. *)
Fixpoint run (l : list op) (ss : list slot) (w : world) : option (list slot * world * list seen) :=
  match l with
  | [] => Some (ss, w, [])
  | o :: l => match step o ss w with
              | Some (ss, w, x) => match run l ss w with Some (ss, w, xs) => Some (ss, w, x :: xs) | None => None end
              | None => None
              end
  end.

(** ** C functions: x509_new_from_pem_file, pkey_new_privkey_from_pem_file
    (crypto.cpp 9-18, 40-49) *)

(** The copy of the password [tmp] and what became of it. *)
Inductive copy := NoCopy | Wiped | Left (pw : list nat).
(** Result: the object, or the error; the copy of the password when its
    memory is given back. *)
Definition c_from_pem (k : kind) (f : nat) (pw : option (list nat)) (w : world) : out nat * world * copy :=
  let tmp := match pw with Some p => Some (cstr p) | None => None end in
  match from_pem k (err k) f tmp w with
  | (Ret h, w) => (Ret h, w, match tmp with Some _ => Wiped | None => NoCopy end)
  | (r, w) => (r, w, match tmp with Some p => Left p | None => NoCopy end)
  end.

End Crypto.

(** ** Digests: SHA256 (38-78), SHA1 (80-120) *)

(** The context: what was absorbed since the last initialisation, or, after
    *_Final, which erases it, nothing usable. *)
Inductive sctx := Absorb (l : list nat) | Spent.
Definition sha_reset : sctx := Absorb [].                                  (* 44-47, 86-89 *)
Definition sha_update (c : sctx) (d : list nat) : sctx :=                  (* 58-61, 100-103 *)
  match c with Absorb l => Absorb (l ++ d) | Spent => Spent end.
(** *_Final writes as many bytes as the hash [H] has, over the beginning of
    [md]; None: an erased context. *)
Definition sha_final (H : list nat -> list nat) (c : sctx) (md : list nat) : option (list nat) :=
  match c with
  | Absorb l => Some (H l ++ skipn (length (H l)) md)
  | Spent => None
  end.
(** vector::resize *)
Definition resize (n : nat) (l : list nat) : list nat := firstn n l ++ repeat 0 (n - length l).
(** digest(md) (68-71, 110-113) and digest() (73-77, 115-119); both classes
    make room for 32 bytes. *)
Definition sha_digest_to (H : list nat -> list nat) (c : sctx) (md : list nat) : option (list nat) * sctx :=
  (sha_final H c (resize 32 md), Spent).
Definition sha_digest (H : list nat -> list nat) (c : sctx) : option (list nat) * sctx :=
  (sha_final H c (repeat 0 32), Spent).

(** Calls of SHA256 or SHA1 (crypto.h 38-120). *)
Inductive sop := SReset | SUpd (d : list nat) | SDig | SDigTo (md : list nat).
(** One of those calls. *)
Definition sstep (H : list nat -> list nat) (o : sop) (c : sctx) : sctx * list (option (list nat)) :=
  match o with
  | SReset => (sha_reset, [])
  | SUpd d => (sha_update c d, [])
  | SDig => let '(r, c) := sha_digest H c in (c, [r])
  | SDigTo md => let '(r, c) := sha_digest_to H c md in (c, [r])
  end.
(** A run: one event after the other; it stops where an event cannot happen.  Model only. *)
Fixpoint srun (H : list nat -> list nat) (l : list sop) (c : sctx) : list (option (list nat)) :=
  match l with
  | [] => []
  | o :: l => let '(c, r) := sstep H o c in r ++ srun H l c
  end.

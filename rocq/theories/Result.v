(** Results: [Result<T, Error>] of src/error.rs, plus the two outcomes a Rust
    program can have besides returning: a panic, and not returning. *)

From Coq Require Import String.
From Verif Require Import Bytes Grammar.

(** src/error.rs lines 57-62: the message of a GenericParseError.  The message of
    [unexpected_token] names the rule of the token. *)
Inductive gmsg : Type :=
| MUnexpected (r : rule)
| MText (m : string).

(** src/error.rs lines 8-52.  The payloads that come from other crates (pest's
    error, enquote's error, io::Error) are dropped. *)
Inductive error : Type :=
| EParse                                   (* ParseError *)
| EGeneric (m : gmsg)                      (* GenericParseError *)
| EUnescape                                (* UnescapeError *)
| EUnknownParse                            (* UnknownParseError *)
| ERead                                    (* ReadError *)
| EConversion (to : string).               (* ConversionError, without the debug text *)

Inductive outcome (A : Type) : Type :=
| Ok (a : A)
| Err (e : error)
| Panic
| Diverge.
Arguments Ok {A} _.
Arguments Err {A} _.
Arguments Panic {A}.
Arguments Diverge {A}.

Definition bind {A B} (x : outcome A) (f : A -> outcome B) : outcome B :=
  match x with
  | Ok a => f a
  | Err e => Err e
  | Panic => Panic
  | Diverge => Diverge
  end.

Notation "x <- m ;; k" := (bind m (fun x => k))
  (at level 61, m at next level, right associativity).
Notation "' p <- m ;; k" := (bind m (fun x => let p := x in k))
  (at level 61, p pattern, m at next level, right associativity).

(** A [for] loop over a vector whose body may leave with an error. *)
Fixpoint for_each {S A} (f : S -> A -> outcome S) (l : list A) (st : S) : outcome S :=
  match l with
  | [] => Ok st
  | x :: l' => st' <- f st x;; for_each f l' st'
  end.

(** [Option::ok_or] *)
Definition ok_or {A} (x : option A) (e : error) : outcome A :=
  match x with Some a => Ok a | None => Err e end.

(** src/error.rs lines 57-62 *)
Definition unexpected_token {A} (r : rule) : outcome A := Err (EGeneric (MUnexpected r)).

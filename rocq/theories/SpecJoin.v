(** When a document may be cut in two at a line break.  Only the characters of the
    texts are looked at: nothing here refers to the grammar, the parser or its
    results. *)

From Coq Require Import String.
From Verif Require Import Bytes Ast SpecSyntax SpecClear SpecMove.
Local Open Scope nat_scope.

(** Lines that are empty or comments, the last of them without its newline *)
Definition idle_tail (t : bytes) : Prop :=
  exists k l b, t = l ++ b /\ skipped_lines k l /\
    (blanks b \/ exists b1 c, b = b1 ++ c /\ blanks b1 /\ comment_text c).

(** Comment lines, the last of them without its newline *)
Inductive comments_only : bytes -> Prop :=
| comments_last b t : blanks b -> comment_text t -> comments_only (b ++ t)
| comments_more b t n w : blanks b -> comment_text t -> newline n -> comments_only w ->
    comments_only (b ++ t ++ n ++ w).

(** What follows is the first word of its line. *)
Definition before_first_word (x : bytes) : Prop := exists y b, x = y ++ b /\ ends_line y /\ blanks b.

(** A text that asks for no further line:
    - it does not end in a line continuation, not even with empty lines and comments
      after it;
    - it does not end in comments that follow directly on the first word of a line,
      or on ENV and a name (the parser takes such a comment, and the line after it,
      for a part of the arguments). *)
Definition complete (a : bytes) : Prop :=
  ~ ends_in_backslash a /\
  (forall x c t, a = x ++ c ++ t -> continuation c -> ~ idle_tail t) /\
  (forall x w t, a = x ++ w ++ t -> before_first_word x -> env_name_text w -> ~ comments_only t) /\
  (forall x kw b w t, a = x ++ kw ++ b ++ w ++ t -> before_first_word x -> keyword "env" kw -> blanks b -> b <> [] ->
    env_name_text w -> ~ comments_only t).

(** The characters after which the grammar looks for a quoted string *)
Definition before_string (c : N) : bool :=
  is_blank c || is_newline_byte c || (c =? EQUALS)%N || (c =? LBRACK)%N || (c =? COMMA)%N.

(** No quote in [a] that may begin a string is closed first in [r]. *)
Definition quotes_apart (a r : bytes) : Prop :=
  forall x o q v body rest, a = x ++ o :: q :: v -> before_string o = true -> q = DQUOTE \/ q = SQUOTE -> quoted_body q body ->
    v ++ r = body ++ q :: rest -> length body < length v.

(** Between [a] and [b], [n] is a line break, and not a half of one. *)
Definition breaks (a n b : bytes) : Prop :=
  newline n /\ (n = [CR] -> ~ begins_with LF b) /\ (begins_with LF n -> ~ exists a0, a = a0 ++ [CR]).

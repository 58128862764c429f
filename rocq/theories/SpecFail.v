(** Exactly which error a text that is not accepted gives.  Nothing here refers to the
    grammar, the parser or its tokens; see SpecExact.v. *)

From Coq Require Import String.
From Verif Require Import Bytes Result Ast Grammar SpecImage SpecSyntax SpecClear SpecExact.
Local Open Scope nat_scope.

(** A function that unescapes anything; what it gives does not matter. *)
Definition lenient : bytes -> option bytes := fun w => Some w.

(** FROM with an image whose digest is not accepted *)
Definition from_undigested (unq : bytes -> option bytes) (p : nat) (w : bytes) : Prop :=
  exists kw fl l k g img al a, w = kw ++ fl ++ g ++ img ++ al /\ keyword "from" kw /\
    spaced (flag_at unq) (p + length kw) fl l /\ gap k g /\ g <> [] /\ bad_digest img /\
    alias_at (p + length kw + length fl + length g + length img) al a.

(** RUN, CMD or ENTRYPOINT with a comment before the command *)
Definition command_keyword (k : string) : Prop := (k = "run" \/ k = "cmd" \/ k = "entrypoint")%string.
Definition comment_before (p : nat) (w s : bytes) : Prop :=
  exists k kw n g cmd, command_keyword k /\ w = kw ++ g ++ cmd /\ keyword k kw /\ gap (S n) g /\ gap_over g (cmd ++ s) /\
    ((exists a, array_at lenient (p + length kw + length g) cmd a) \/
     (~ begins_list (cmd ++ s) /\ exists x, breakable_reads (p + length kw + length g) cmd s x)).

(** An instruction, but for quoted strings that may not unescape, a digest or a comment *)
Definition instruction_text (p : nat) (w s : bytes) : Prop :=
  (exists i, instruction_reads lenient p w s i) \/ from_undigested lenient p w \/ comment_before p w s.

Inductive line_text : nat -> bytes -> bytes -> Prop :=
| text_blank p b s : blanks b -> ends_here s -> line_text p b s
| text_comment p b t s : blanks b -> comment_text t -> ends_here s -> line_text p (b ++ t) s
| text_instruction p b w b2 s : blanks b -> instruction_text (p + length b) w (b2 ++ s) -> blanks b2 ->
    ends_here s -> line_text p (b ++ w ++ b2) s.

(** A document without syntax errors *)
Inductive document_text : nat -> bytes -> Prop :=
| text_last p w : line_text p w [] -> document_text p w
| text_more p w n w2 : line_text p w (n ++ w2) -> newline n -> (n = [CR] -> ~ begins_with LF w2) ->
    document_text (p + length w + length n) w2 -> document_text p (w ++ n ++ w2).

Section Fail.
Variable unq : bytes -> option bytes.

(** The error of an instruction: about a digest, if the flags before it are fine; about a
    comment, if one stands before the command; otherwise a string does not unescape. *)
Definition instruction_fails (p : nat) (w s : bytes) (e : error) : Prop :=
  (from_undigested unq p w /\ e = EGeneric (MText "image reference digest is invalid")) \/
  (comment_before p w s /\ e = EGeneric (MUnexpected R_comment)) \/
  (instruction_text p w s /\ ~ from_undigested unq p w /\ ~ comment_before p w s /\
   ~ (exists i, instruction_reads unq p w s i) /\ e = EUnescape).

Inductive line_fails : nat -> bytes -> bytes -> error -> Prop :=
| fails_line p b w b2 s e : blanks b -> instruction_fails (p + length b) w (b2 ++ s) e -> blanks b2 -> ends_here s ->
    line_fails p (b ++ w ++ b2) s e.

(** The error of a document without syntax errors: that of the first line that has one *)
Inductive document_fails : nat -> bytes -> error -> Prop :=
| fails_last p w e : line_fails p w [] e -> document_fails p w e
| fails_here p w n w2 e : line_fails p w (n ++ w2) e -> newline n -> (n = [CR] -> ~ begins_with LF w2) ->
    document_text (p + length w + length n) w2 -> document_fails p (w ++ n ++ w2) e
| fails_later p w n w2 l e : line_reads unq p w (n ++ w2) l -> newline n -> (n = [CR] -> ~ begins_with LF w2) ->
    document_fails (p + length w + length n) w2 e -> document_fails p (w ++ n ++ w2) e.
End Fail.

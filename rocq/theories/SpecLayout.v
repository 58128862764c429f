(** Layout: what lies between instructions, and what a command reads as. *)

From Coq Require Import String.
From Verif Require Import Bytes Ast SpecSyntax.
Local Open Scope nat_scope.

(** ** Between instructions *)

(** Blanks, or blanks and a comment that runs to the end of the document *)
Definition last_line (w : bytes) : Prop :=
  blanks w \/ exists b t, w = b ++ t /\ blanks b /\ comment_text t.

(** Complete blank and comment lines, and the blanks before the first instruction *)
Definition filler_before (w : bytes) : Prop :=
  exists k l b, w = l ++ b /\ skipped_lines k l /\ blanks b.

(** The end of the line, complete blank and comment lines, and the blanks before the
    next instruction *)
Definition filler_between (w : bytes) : Prop :=
  exists b n f, w = b ++ n ++ f /\ blanks b /\ newline n /\ filler_before f.

(** Blanks; if more follows, the end of the line, complete blank and comment lines
    and a last line *)
Definition filler_after (w : bytes) : Prop :=
  blanks w \/
  exists b n k l r, w = b ++ n ++ l ++ r /\ blanks b /\ newline n /\ skipped_lines k l /\ last_line r.

(** A document without instructions *)
Definition only_filler (w : bytes) : Prop :=
  exists k l r, w = l ++ r /\ skipped_lines k l /\ last_line r.

(** [tiles p w sps]: the text [w], found at [p], is the texts of these spans with filler
    between them and after them. *)
Inductive tiles : nat -> bytes -> list span -> Prop :=
| tiles_last p w f : w <> [] -> filler_after f -> tiles p (w ++ f) [at_ p w]
| tiles_more p w f rest sps : w <> [] -> filler_between f -> tiles (p + length w + length f) rest sps ->
    tiles p (w ++ f ++ rest) (at_ p w :: sps).

Definition tiled (input : bytes) (sps : list span) : Prop :=
  match sps with
  | [] => only_filler input
  | _ => exists f rest, input = f ++ rest /\ filler_before f /\ tiles (length f) rest sps
  end.

(** ** The logical line of a command *)

(** [logical_line w v]: [v] is [w] without its continuations and comment lines. *)
Inductive logical_line : bytes -> bytes -> Prop :=
| logical_text w : no_newline w -> ~ comment_like w -> logical_line w w
| logical_continued w c w2 v : no_newline w -> ~ comment_like w -> continuation c -> logical_line w2 v ->
    logical_line (w ++ c ++ w2) (w ++ v)
| logical_comment b t : blanks b -> comment_text t -> logical_line (b ++ t) []
| logical_comment_line b t n w v : blanks b -> comment_text t -> newline n ->
    logical_line w v -> logical_line (b ++ t ++ n ++ w) v.

(** ** The components of a command *)

(** [laid_out p w sps]: [w], found at [p], is the texts of these spans, each after
    blanks, with a continuation or the end of a line between them; the last one may
    be followed by the end of its line. *)
Inductive laid_out : nat -> bytes -> list span -> Prop :=
| laid_out_last p b t e : blanks b -> t <> [] -> (e = [] \/ newline e) ->
    laid_out p (b ++ t ++ e) [at_ (p + length b) t]
| laid_out_more p b t c w sps : blanks b -> t <> [] -> (continuation c \/ newline c) ->
    laid_out (p + length b + length t + length c) w sps ->
    laid_out p (b ++ t ++ c ++ w) (at_ (p + length b) t :: sps).

(** ** Where an instruction may go on to the next line *)

(** Every newline of the text belongs to a continuation, to blank and comment lines
    right after one, or (if [quotes]) to a quoted string. *)
Inductive joined (quotes : bool) : bytes -> Prop :=
| joined_nil : joined quotes []
| joined_char c w : is_newline_byte c = false -> joined quotes w -> joined quotes (c :: w)
| joined_continued c k l w : continuation c -> skipped_lines k l -> joined quotes w ->
    joined quotes (c ++ l ++ w)
| joined_last c k l b t : continuation c -> skipped_lines k l -> blanks b -> comment_text t ->
    joined quotes (c ++ l ++ b ++ t)
| joined_quoted q w : quotes = true -> quoted_text q -> joined quotes w -> joined quotes (q ++ w).

(** The shell texts of an instruction *)
Definition shell_texts_of (i : instruction) : list breakable_string :=
  match i with
  | IRun x => match run_expr x with Shell s => [s] | Exec _ => [] end
  | IEntrypoint x => match entrypoint_expr x with Shell s => [s] | Exec _ => [] end
  | ICmd x => match cmd_expr x with Shell s => [s] | Exec _ => [] end
  | IEnv x => map ev_value (env_vars x)
  | IMisc x => [misc_arguments x]
  | _ => []
  end.

(** The text begins with a comment. *)
Definition comment_first (s : breakable_string) : Prop :=
  match br_components s with BComment _ :: _ => True | _ => False end.

(** Lines that are comments, at least one *)
Inductive comment_lines : bytes -> Prop :=
| comment_lines_one b t n : blanks b -> comment_text t -> newline n -> comment_lines (b ++ t ++ n)
| comment_lines_more b t n w : blanks b -> comment_text t -> newline n -> comment_lines w ->
    comment_lines (b ++ t ++ n ++ w).

(** The text [w] of an instruction at [p] goes on after a line that does not end in a
    continuation: [s], one of its shell texts, begins with comment lines [c], and what
    is after them is in it as well. *)
Definition goes_on_after_comments (quotes : bool) (p : nat) (w : bytes) (s : breakable_string) : Prop :=
  exists h c r, w = h ++ c ++ r /\ joined quotes h /\ comment_lines c /\ joined quotes r /\
    comment_first s /\ br_span s = at_ (p + length h) (c ++ r).

(** The forms that have quoted strings, in which a newline may stand *)
Definition has_quotes (i : instruction) : bool :=
  match i with
  | IRun x => match run_expr x with Shell _ => false | Exec _ => true end
  | IEntrypoint x => match entrypoint_expr x with Shell _ => false | Exec _ => true end
  | ICmd x => match cmd_expr x with Shell _ => false | Exec _ => true end
  | IArg _ | ILabel _ | IEnv _ => true
  | _ => false
  end.

(** The value of an ENV variable that is one word or one quoted string *)
Definition one_string (s : breakable_string) : Prop :=
  exists x, br_components s = [BString x] /\ ss_span x = br_span s.

(** The exec form of an instruction *)
Definition exec_of (i : instruction) : option string_array :=
  match i with
  | IRun x => as_exec (run_expr x)
  | IEntrypoint x => as_exec (entrypoint_expr x)
  | ICmd x => as_exec (cmd_expr x)
  | _ => None
  end.

Definition flags_of (i : instruction) : list flag :=
  match i with IFrom x => from_flags x | ICopy x => copy_flags x | _ => [] end.

Definition component_span (c : breakable_component) : span :=
  match c with BString s => ss_span s | BComment s => sc_span s end.

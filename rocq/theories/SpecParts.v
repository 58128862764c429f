(** The parts of an instruction: every span in it, with the text it carries. *)

From Coq Require Import String.
From Verif Require Import Bytes Ast SpecSplice SpecSyntax.
Local Open Scope nat_scope.

(** What a part carries: nothing, a string, or a comment. *)
Inductive carried : Type :=
| Nothing
| AString (content : bytes)
| AComment (content : bytes).

Inductive part : Type := Part (s : span) (c : carried) (sub : list part).

Definition part_span (x : part) : span := let 'Part s _ _ := x in s.
Definition part_carried (x : part) : carried := let 'Part _ c _ := x in c.
Definition part_sub (x : part) : list part := let 'Part _ _ l := x in l.

(** The part and everything in it *)
Fixpoint within (x : part) : list part := let 'Part _ _ l := x in x :: flat_map within l.

Definition string_part (s : spanned_string) : part := Part (ss_span s) (AString (ss_content s)) [].
Definition comment_part_of (s : spanned_comment) : part := Part (sc_span s) (AComment (sc_content s)) [].
Definition component_part (c : breakable_component) : part :=
  match c with BString s => string_part s | BComment s => comment_part_of s end.
Definition breakable_part (b : breakable_string) : part :=
  Part (br_span b) Nothing (map component_part (br_components b)).
Definition array_part (a : string_array) : part := Part (sa_span a) Nothing (map string_part (sa_elements a)).
Definition command_part (e : shell_or_exec) : part :=
  match e with Shell s => breakable_part s | Exec a => array_part a end.
Definition flag_part (f : flag) : part :=
  Part (fl_span f) Nothing [string_part (fl_name f); string_part (fl_value f)].
Definition label_part (l : label) : part :=
  Part (lb_span l) Nothing [string_part (lb_name l); string_part (lb_value l)].
Definition var_part (v : env_var) : part :=
  Part (ev_span v) Nothing [string_part (ev_key v); breakable_part (ev_value v)].
Definition maybe (x : option spanned_string) : list part :=
  match x with Some s => [string_part s] | None => [] end.

Definition parts (i : instruction) : list part :=
  match i with
  | IFrom x => map flag_part (from_flags x) ++ [string_part (from_image x)] ++ maybe (from_alias x)
  | IArg x => string_part (arg_name x) :: maybe (arg_value x)
  | ILabel x => map label_part (label_labels x)
  | IRun x => [command_part (run_expr x)]
  | IEntrypoint x => [command_part (entrypoint_expr x)]
  | ICmd x => [command_part (cmd_expr x)]
  | ICopy x => map flag_part (copy_flags x) ++ map string_part (copy_sources x) ++ [string_part (copy_destination x)]
  | IEnv x => map var_part (env_vars x)
  | IMisc x => [string_part (misc_name x); breakable_part (misc_arguments x)]
  end.

Definition instruction_part (i : instruction) : part := Part (instruction_span i) Nothing (parts i).

(** A span that can be sliced out of the text *)
Definition sliceable (src : bytes) (sp : span) : Prop :=
  s_start sp <= s_end sp /\ s_end sp <= length src /\ on_boundaries src sp.

(** The text of the document at a span *)
Definition text_at (src : bytes) (sp : span) : bytes := slice src (s_start sp) (s_end sp).

(** A string is the text, or what a quoted text unescapes to; in labels, after
    escaped line breaks are removed. *)
Definition read_as (unq : bytes -> option bytes) (text content : bytes) : Prop :=
  content = text \/
  begins_quoted text /\
    (unq text = Some content \/ exists u, without_breaks text u /\ unq u = Some content).

(** A selection of parts, none of them inside another: of each part nothing, the part
    itself, or a selection from its own parts. *)
Inductive selection : list part -> list span -> Prop :=
| select_end : selection [] []
| select_skip x l sps : selection l sps -> selection (x :: l) sps
| select_part x l sps : selection l sps -> selection (x :: l) (part_span x :: sps)
| select_inside x l sps1 sps2 : selection (part_sub x) sps1 -> selection l sps2 ->
    selection (x :: l) (sps1 ++ sps2).

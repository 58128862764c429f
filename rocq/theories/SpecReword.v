(** Rewording: a piece of the text replaced by another, the offsets of a parse result
    moved accordingly, and the new words in the texts of the parts around the piece. *)

From Coq Require Import String.
From Verif Require Import Bytes Ast SpecSyntax SpecSplice SpecClear SpecMove.
Local Open Scope nat_scope.

(** A byte that neither ends a word nor has a meaning inside quotes *)
Definition plain_byte (c : N) : bool :=
  negb (is_blank c || is_newline_byte c || (c =? BSLASH)%N || (c =? DQUOTE)%N || (c =? SQUOTE)%N || (c =? 0)%N || (c =? 31)%N).

(** A word without such bytes, that does not look quoted *)
Definition plain_text (w : bytes) : Prop :=
  valid_utf8 w = true /\ w <> [] /\ Forall (fun c => plain_byte c = true) w /\ ~ begins_with BACKTICK w.

Section Reword.
(** The text from [a] to [b] is replaced by [new]. *)
Variables a b : nat.
Variable new : bytes.
Notation g := (replacement a b (length new)).

Definition around (sp : span) : bool := (s_start sp <=? a) && (b <=? s_end sp).

(** The text of a part with the new words in it, if the part is around them *)
Definition reword_text (sp : span) (t : bytes) : bytes :=
  if around sp then firstn (a - s_start sp) t ++ new ++ skipn (b - s_start sp) t else t.

Definition reword_string (x : spanned_string) : spanned_string :=
  SpannedString (move_span g (ss_span x)) (reword_text (ss_span x) (ss_content x)).
Definition reword_comment (x : spanned_comment) : spanned_comment :=
  SpannedComment (move_span g (sc_span x)) (reword_text (sc_span x) (sc_content x)).
Definition reword_component (c : breakable_component) : breakable_component :=
  match c with
  | BString s => BString (reword_string s)
  | BComment c => BComment (reword_comment c)
  end.
Definition reword_breakable (x : breakable_string) : breakable_string :=
  BreakableString (move_span g (br_span x)) (map reword_component (br_components x)).
Definition reword_array (x : string_array) : string_array :=
  StringArray (move_span g (sa_span x)) (map reword_string (sa_elements x)).
Definition reword_command (x : shell_or_exec) : shell_or_exec :=
  match x with
  | Shell s => Shell (reword_breakable s)
  | Exec a => Exec (reword_array a)
  end.
Definition reword_flag (x : flag) : flag :=
  Flag (move_span g (fl_span x)) (reword_string (fl_name x)) (reword_string (fl_value x)).
Definition reword_from (x : from_instruction) : from_instruction :=
  FromInstruction (move_span g (from_span x)) (map reword_flag (from_flags x)) (reword_string (from_image x))
    (from_image_parsed x) (from_index x) (option_map reword_string (from_alias x)).
Definition reword_arg (x : arg_instruction) : arg_instruction :=
  ArgInstruction (move_span g (arg_span x)) (reword_string (arg_name x)) (option_map reword_string (arg_value x)).
Definition reword_label (x : label) : label :=
  Label (move_span g (lb_span x)) (reword_string (lb_name x)) (reword_string (lb_value x)).
Definition reword_env (x : env_var) : env_var :=
  EnvVar (move_span g (ev_span x)) (reword_string (ev_key x)) (reword_breakable (ev_value x)).
Definition reword_instruction (i : instruction) : instruction :=
  match i with
  | IFrom x => IFrom (reword_from x)
  | IArg x => IArg (reword_arg x)
  | ILabel x => ILabel (LabelInstruction (move_span g (label_span x)) (map reword_label (label_labels x)))
  | IRun x => IRun (RunInstruction (move_span g (run_span x)) (reword_command (run_expr x)))
  | IEntrypoint x => IEntrypoint (EntrypointInstruction (move_span g (entrypoint_span x)) (reword_command (entrypoint_expr x)))
  | ICmd x => ICmd (CmdInstruction (move_span g (cmd_span x)) (reword_command (cmd_expr x)))
  | ICopy x => ICopy (CopyInstruction (move_span g (copy_span x)) (map reword_flag (copy_flags x))
      (map reword_string (copy_sources x)) (reword_string (copy_destination x)))
  | IEnv x => IEnv (EnvInstruction (move_span g (env_span x)) (map reword_env (env_vars x)))
  | IMisc x => IMisc (MiscInstruction (move_span g (misc_span x)) (reword_string (misc_name x)) (reword_breakable (misc_arguments x)))
  end.
Definition reword_dockerfile (content : bytes) (d : dockerfile) : dockerfile :=
  Dockerfile content (map reword_arg (d_global_args d)) (map reword_instruction (d_instructions d)).

End Reword.

(** The places of the strings of an instruction that may be quoted: all of them but the
    pieces of the shell forms and of the arguments of other instructions *)
Definition string_places (l : list spanned_string) : list span := map ss_span l.
Definition flag_places (x : flag) : list span := [ss_span (fl_name x); ss_span (fl_value x)].
Definition command_places (x : shell_or_exec) : list span :=
  match x with
  | Shell _ => []
  | Exec a => string_places (sa_elements a)
  end.
Definition option_places (x : option spanned_string) : list span :=
  match x with
  | Some s => [ss_span s]
  | None => []
  end.
Definition quotable_places (i : instruction) : list span :=
  match i with
  | IFrom x => flat_map flag_places (from_flags x) ++ ss_span (from_image x) :: option_places (from_alias x)
  | IArg x => ss_span (arg_name x) :: option_places (arg_value x)
  | ILabel x => flat_map (fun l => [ss_span (lb_name l); ss_span (lb_value l)]) (label_labels x)
  | IRun x => command_places (run_expr x)
  | IEntrypoint x => command_places (entrypoint_expr x)
  | ICmd x => command_places (cmd_expr x)
  | ICopy x => flat_map flag_places (copy_flags x) ++ string_places (copy_sources x) ++ [ss_span (copy_destination x)]
  | IEnv x => flat_map (fun v => [ss_span (ev_key v); br_span (ev_value v)]) (env_vars x)
  | IMisc x => [ss_span (misc_name x)]
  end.

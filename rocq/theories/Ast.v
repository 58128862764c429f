(** The public data types of the crate. *)

From Coq Require Import String.
From Verif Require Import Bytes.

(** src/splicer.rs lines 16-21 *)
Record span : Type := Span { s_start : nat; s_end : nat }.

(** src/util.rs lines 125-130 *)
Record spanned_string : Type := SpannedString { ss_span : span; ss_content : bytes }.

(** src/util.rs lines 118-123 *)
Record spanned_comment : Type := SpannedComment { sc_span : span; sc_content : bytes }.

(** src/util.rs lines 144-149 *)
Inductive breakable_component : Type :=
| BString (s : spanned_string)
| BComment (c : spanned_comment).

(** src/util.rs lines 186-190 *)
Record breakable_string : Type := BreakableString {
  br_span : span;
  br_components : list breakable_component
}.

(** src/util.rs lines 105-110 *)
Record string_array : Type := StringArray {
  sa_span : span;
  sa_elements : list spanned_string
}.

(** src/util.rs lines 56-61 *)
Inductive shell_or_exec : Type :=
| Shell (s : breakable_string)
| Exec (a : string_array).

(** src/image.rs lines 25-39 *)
Record image_ref : Type := ImageRef {
  i_registry : option bytes;
  i_image : bytes;
  i_tag : option bytes;
  i_hash : option bytes
}.

(** src/instructions/from.rs lines 19-24 and src/instructions/copy.rs lines 16-21
    (FromFlag and CopyFlag have the same fields; one type models both) *)
Record flag : Type := Flag {
  fl_span : span;
  fl_name : spanned_string;
  fl_value : spanned_string
}.

(** src/instructions/from.rs lines 61-70 *)
Record from_instruction : Type := FromInstruction {
  from_span : span;
  from_flags : list flag;
  from_image : spanned_string;
  from_image_parsed : image_ref;
  from_index : nat;
  from_alias : option spanned_string
}.

(** src/instructions/arg.rs lines 15-29 *)
Record arg_instruction : Type := ArgInstruction {
  arg_span : span;
  arg_name : spanned_string;
  arg_value : option spanned_string
}.

(** src/instructions/label.rs lines 15-20 *)
Record label : Type := Label {
  lb_span : span;
  lb_name : spanned_string;
  lb_value : spanned_string
}.

(** src/instructions/label.rs lines 83-87 *)
Record label_instruction : Type := LabelInstruction {
  label_span : span;
  label_labels : list label
}.

(** src/instructions/run.rs lines 17-21 *)
Record run_instruction : Type := RunInstruction { run_span : span; run_expr : shell_or_exec }.

(** src/instructions/entrypoint.rs lines 17-21 *)
Record entrypoint_instruction : Type :=
  EntrypointInstruction { entrypoint_span : span; entrypoint_expr : shell_or_exec }.

(** src/instructions/cmd.rs lines 17-21 *)
Record cmd_instruction : Type := CmdInstruction { cmd_span : span; cmd_expr : shell_or_exec }.

(** src/instructions/copy.rs lines 54-60 *)
Record copy_instruction : Type := CopyInstruction {
  copy_span : span;
  copy_flags : list flag;
  copy_sources : list spanned_string;
  copy_destination : spanned_string
}.

(** src/instructions/env.rs lines 15-20 *)
Record env_var : Type := EnvVar {
  ev_span : span;
  ev_key : spanned_string;
  ev_value : breakable_string
}.

(** src/instructions/env.rs lines 35-39 *)
Record env_instruction : Type := EnvInstruction { env_span : span; env_vars : list env_var }.

(** src/instructions/misc.rs lines 18-23 *)
Record misc_instruction : Type := MiscInstruction {
  misc_span : span;
  misc_name : spanned_string;
  misc_arguments : breakable_string
}.

(** src/dockerfile_parser.rs lines 35-46 *)
Inductive instruction : Type :=
| IFrom (i : from_instruction)
| IArg (i : arg_instruction)
| ILabel (i : label_instruction)
| IRun (i : run_instruction)
| IEntrypoint (i : entrypoint_instruction)
| ICmd (i : cmd_instruction)
| ICopy (i : copy_instruction)
| IEnv (i : env_instruction)
| IMisc (i : misc_instruction).

(** src/dockerfile_parser.rs lines 212-224: [Instruction::span] *)
Definition instruction_span (i : instruction) : span :=
  match i with
  | IFrom x => from_span x
  | IArg x => arg_span x
  | ILabel x => label_span x
  | IRun x => run_span x
  | IEntrypoint x => entrypoint_span x
  | ICmd x => cmd_span x
  | ICopy x => copy_span x
  | IEnv x => env_span x
  | IMisc x => misc_span x
  end.

(** src/dockerfile_parser.rs lines 304-314 *)
Record dockerfile : Type := Dockerfile {
  d_content : bytes;
  d_global_args : list arg_instruction;
  d_instructions : list instruction
}.

(** ** Accessors *)

(** src/dockerfile_parser.rs lines 48-209: [as_x] and [into_x] differ only in
    ownership; one function models both. *)
Definition as_from (i : instruction) := match i with IFrom x => Some x | _ => None end.
Definition as_arg (i : instruction) := match i with IArg x => Some x | _ => None end.
Definition as_label (i : instruction) := match i with ILabel x => Some x | _ => None end.
Definition as_run (i : instruction) := match i with IRun x => Some x | _ => None end.
Definition as_entrypoint (i : instruction) := match i with IEntrypoint x => Some x | _ => None end.
Definition as_cmd (i : instruction) := match i with ICmd x => Some x | _ => None end.
Definition as_copy (i : instruction) := match i with ICopy x => Some x | _ => None end.
Definition as_env (i : instruction) := match i with IEnv x => Some x | _ => None end.
Definition as_misc (i : instruction) := match i with IMisc x => Some x | _ => None end.

(** src/util.rs lines 63-103 *)
Definition as_shell (e : shell_or_exec) := match e with Shell s => Some s | Exec _ => None end.
Definition as_exec (e : shell_or_exec) := match e with Shell _ => None | Exec a => Some a end.

(** src/instructions/run.rs lines 41-63, cmd.rs lines 41-63, entrypoint.rs lines 41-63: the
    same for the instructions *)
Definition run_as_shell (x : run_instruction) := as_shell (run_expr x).
Definition run_as_exec (x : run_instruction) := as_exec (run_expr x).
Definition cmd_as_shell (x : cmd_instruction) := as_shell (cmd_expr x).
Definition cmd_as_exec (x : cmd_instruction) := as_exec (cmd_expr x).
Definition entrypoint_as_shell (x : entrypoint_instruction) := as_shell (entrypoint_expr x).
Definition entrypoint_as_exec (x : entrypoint_instruction) := as_exec (entrypoint_expr x).

(** src/dockerfile_parser.rs lines 228-247: [From<XInstruction>] for [Instruction] *)
Definition instruction_from_from (x : from_instruction) : instruction := IFrom x.
Definition instruction_from_arg (x : arg_instruction) : instruction := IArg x.
Definition instruction_from_label (x : label_instruction) : instruction := ILabel x.
Definition instruction_from_run (x : run_instruction) : instruction := IRun x.
Definition instruction_from_entrypoint (x : entrypoint_instruction) : instruction := IEntrypoint x.
Definition instruction_from_cmd (x : cmd_instruction) : instruction := ICmd x.
Definition instruction_from_copy (x : copy_instruction) : instruction := ICopy x.
Definition instruction_from_env (x : env_instruction) : instruction := IEnv x.
Definition instruction_from_misc (x : misc_instruction) : instruction := IMisc x.

(** src/util.rs lines 132-143: [AsRef<str>] and Display for [SpannedString] *)
Definition display_spanned (s : spanned_string) : bytes := ss_content s.

(** src/util.rs lines 113-115: [StringArray::as_str_vec] *)
Definition as_str_vec (a : string_array) : list bytes := map ss_content (sa_elements a).

(** src/util.rs lines 194-204: Display for BreakableString *)
Fixpoint display_components (l : list breakable_component) : bytes :=
  match l with
  | [] => []
  | BString s :: l' => ss_content s ++ display_components l'
  | BComment _ :: l' => display_components l'
  end.
Definition display_breakable (b : breakable_string) : bytes := display_components (br_components b).

(** src/util.rs lines 207-236: [BreakableString::new], [add], [add_string],
    [add_comment] *)
Definition breakable_new (s : span) : breakable_string := BreakableString s [].
Definition breakable_add (b : breakable_string) (c : breakable_component) : breakable_string :=
  BreakableString (br_span b) (br_components b ++ [c]).
Definition add_string (b : breakable_string) (s : span) (c : bytes) : breakable_string :=
  breakable_add b (BString (SpannedString s c)).
Definition add_comment (b : breakable_string) (s : span) (c : bytes) : breakable_string :=
  breakable_add b (BComment (SpannedComment s c)).

(** src/util.rs lines 151-174: [From] of a string, of a comment and of a position
    with a text for [BreakableStringComponent] *)
Definition component_from_string (s : spanned_string) : breakable_component := BString s.
Definition component_from_comment (c : spanned_comment) : breakable_component := BComment c.
Definition component_from_text (start stop : nat) (content : bytes) : breakable_component :=
  BString (SpannedString (Span start stop) content).

(** src/util.rs lines 243-250: [From<((usize, usize), &str)>] for [BreakableString] *)
Definition breakable_from_text (start stop : nat) (content : bytes) : breakable_string :=
  add_string (breakable_new (Span start stop)) (Span start stop) content.

(** Moving parse results: every offset of a result replaced by its image under a
    function.  Used to say that an edit of the text moves the instructions and
    changes nothing else about them. *)

From Coq Require Import String.
From Verif Require Import Bytes Ast SpecImage SpecSyntax SpecClear SpecSplice.
Local Open Scope nat_scope.

Section Move.
Variable g : nat -> nat.

Definition move_span (s : span) : span := Span (g (s_start s)) (g (s_end s)).
Definition move_string (x : spanned_string) : spanned_string :=
  SpannedString (move_span (ss_span x)) (ss_content x).
Definition move_comment (x : spanned_comment) : spanned_comment :=
  SpannedComment (move_span (sc_span x)) (sc_content x).
Definition move_component (c : breakable_component) : breakable_component :=
  match c with
  | BString s => BString (move_string s)
  | BComment c => BComment (move_comment c)
  end.
Definition move_breakable (x : breakable_string) : breakable_string :=
  BreakableString (move_span (br_span x)) (map move_component (br_components x)).
Definition move_array (x : string_array) : string_array :=
  StringArray (move_span (sa_span x)) (map move_string (sa_elements x)).
Definition move_command (x : shell_or_exec) : shell_or_exec :=
  match x with
  | Shell s => Shell (move_breakable s)
  | Exec a => Exec (move_array a)
  end.
Definition move_flag (x : flag) : flag :=
  Flag (move_span (fl_span x)) (move_string (fl_name x)) (move_string (fl_value x)).
Definition move_from (x : from_instruction) : from_instruction :=
  FromInstruction (move_span (from_span x)) (map move_flag (from_flags x)) (move_string (from_image x))
    (from_image_parsed x) (from_index x) (option_map move_string (from_alias x)).
Definition move_arg (x : arg_instruction) : arg_instruction :=
  ArgInstruction (move_span (arg_span x)) (move_string (arg_name x)) (option_map move_string (arg_value x)).
Definition move_label (x : label) : label :=
  Label (move_span (lb_span x)) (move_string (lb_name x)) (move_string (lb_value x)).
Definition move_env (x : env_var) : env_var :=
  EnvVar (move_span (ev_span x)) (move_string (ev_key x)) (move_breakable (ev_value x)).
Definition move_instruction (i : instruction) : instruction :=
  match i with
  | IFrom x => IFrom (move_from x)
  | IArg x => IArg (move_arg x)
  | ILabel x => ILabel (LabelInstruction (move_span (label_span x)) (map move_label (label_labels x)))
  | IRun x => IRun (RunInstruction (move_span (run_span x)) (move_command (run_expr x)))
  | IEntrypoint x => IEntrypoint (EntrypointInstruction (move_span (entrypoint_span x)) (move_command (entrypoint_expr x)))
  | ICmd x => ICmd (CmdInstruction (move_span (cmd_span x)) (move_command (cmd_expr x)))
  | ICopy x => ICopy (CopyInstruction (move_span (copy_span x)) (map move_flag (copy_flags x))
      (map move_string (copy_sources x)) (move_string (copy_destination x)))
  | IEnv x => IEnv (EnvInstruction (move_span (env_span x)) (map move_env (env_vars x)))
  | IMisc x => IMisc (MiscInstruction (move_span (misc_span x)) (move_string (misc_name x)) (move_breakable (misc_arguments x)))
  end.
Definition move_dockerfile (content : bytes) (d : dockerfile) : dockerfile :=
  Dockerfile content (map move_arg (d_global_args d)) (map move_instruction (d_instructions d)).

End Move.

(** Offsets after inserting [n] bytes at [a], and before [a] unchanged *)
Definition insertion (a n : nat) (x : nat) : nat := if x <? a then x else x + n.

(** Offsets after replacing the text from [a] to [b] by [n] bytes *)
Definition replacement (a b n : nat) (x : nat) : nat := if x <=? a then x else x - b + (a + n).

(** Offsets and numbers of FROM after [n] bytes and [m] FROM instructions were put in front *)
Definition later (n m : nat) (i : instruction) : instruction :=
  match move_instruction (fun x => n + x) i with
  | IFrom x => IFrom (FromInstruction (from_span x) (from_flags x) (from_image x) (from_image_parsed x)
      (m + from_index x) (from_alias x))
  | j => j
  end.

(** The FROM with another image *)
Definition with_image (x : from_instruction) (text : bytes) (r : image_ref) : from_instruction :=
  FromInstruction (from_span x) (from_flags x) (SpannedString (ss_span (from_image x)) text) r
    (from_index x) (from_alias x).

(** ** Texts *)

(** A text that stands for an image in a FROM, and what it is read as *)
Definition image_ok (new : bytes) (r : image_ref) : Prop :=
  image_text new /\ ~ begins_with DASH new /\ image_ref_of new r /\
  forall h, i_hash r = Some h -> digest_accepted h.

(** The same without the condition on the first character *)
Definition image_accepted (new : bytes) (r : image_ref) : Prop :=
  image_text new /\ image_ref_of new r /\ forall h, i_hash r = Some h -> digest_accepted h.

(** A new line may begin after this text. *)
Definition ends_line (pre : bytes) : Prop :=
  pre = [] \/ exists t c, pre = t ++ [c] /\ is_newline_byte c = true.

(** No instruction has begun before [a] and not ended before it. *)
Definition outside (a : nat) (i : instruction) : Prop :=
  a <= s_start (instruction_span i) \/ s_end (instruction_span i) < a.

(** Offsets after removing [n] bytes at [a] *)
Definition deletion (a n : nat) (x : nat) : nat := if x <? a then x else x - n.

(** The text can be read in one way only. *)
Definition clearly_written (unq : bytes -> option bytes) (input : bytes) : Prop :=
  valid_utf8 input = true /\ exists l, clear_document unq input l.

(** ** Several images at once *)
Section Images.

(** For each FROM possibly a new image: its text, and what that is read as *)
Variable choose : from_instruction -> option (bytes * image_ref).

Definition image_edit (i : instruction) : list edit :=
  match i with
  | IFrom f => match choose f with Some (t, _) => [(ss_span (from_image f), t)] | None => [] end
  | _ => []
  end.
Definition image_edits (l : list instruction) : list edit := flat_map image_edit l.

(** Where an offset is after these edits, which are in increasing order *)
Definition after_edits (edits : list edit) (x : nat) : nat :=
  fold_right (fun e x => replacement (s_start (fst e)) (s_end (fst e)) (length (snd e)) x) x edits.

Definition with_new_image (g : nat -> nat) (i : instruction) : instruction :=
  match i with
  | IFrom f =>
    match choose f with
    | Some (t, r) => IFrom (with_image (move_from g f) t r)
    | None => IFrom (move_from g f)
    end
  | i => move_instruction g i
  end.

End Images.

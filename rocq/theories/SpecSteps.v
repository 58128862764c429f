(** Values put in several places, and the changes of SpecChanges.v, made through one
    splicer: what may be done, and what comes of it. *)

From Coq Require Import String.
From Verif Require Import Bytes Ast SpecSyntax SpecClear SpecMove SpecSplice SpecJoin SpecChanges SpecValues.
Local Open Scope nat_scope.

Inductive step : Type :=
  (** a change of SpecChanges.v *)
  | Change (c : change)
  (** the value [v], written as [t], at [sp] *)
  | NewValue (sp : span) (t v : bytes).

Definition step_span (s : step) : span := match s with Change c => change_span c | NewValue sp _ _ => sp end.
Definition step_text (s : step) : bytes := match s with Change c => change_text c | NewValue _ t _ => t end.
(** The call of the splicer for a step *)
Definition step_edit (s : step) : edit := (step_span s, step_text s).

(** No quote that is opened in [a] is closed after it. *)
Definition closed_quotes (a : bytes) : Prop := forall r, quotes_apart a r.

(** The text [pre] consists of whole lines and blanks, whatever comes after it that does
    not begin with a line feed. *)
Definition closed_lines (pre : bytes) : Prop :=
  exists b, blanks b /\
    (pre = b \/ exists a n, pre = a ++ n ++ b /\ complete a /\ closed_quotes a /\ newline n /\
      (begins_with LF n -> ~ exists a0, a = a0 ++ [CR])).

(** When a step can be taken.  Nothing is said about the text after the place. *)
Definition can_take (unq : bytes -> option bytes) (d : dockerfile) (s : step) : Prop :=
  match s with
  | Change c => can_make d c
  | NewValue sp t v =>
    valid_utf8 t = true /\ closed_quotes (firstn (s_start sp) (d_content d)) /\
    exists i, In i (d_instructions d) /\ value_place i sp /\ value_text unq (firstn (s_start sp) (d_content d)) i t v /\
      closed_lines (firstn (s_start (instruction_span i)) (d_content d))
  end.

(** What one step makes of a document *)
Definition step_offset (s : step) : nat -> nat :=
  replacement (s_start (step_span s)) (s_end (step_span s)) (length (step_text s)).
Definition step_content (s : step) (text : bytes) : bytes :=
  firstn (s_start (step_span s)) text ++ step_text s ++ skipn (s_end (step_span s)) text.
Definition step_instruction (s : step) (i : instruction) : instruction :=
  match s with
  | Change c => changed_instruction c i
  | NewValue sp t v => move_instruction (step_offset s) (with_value sp v i)
  end.
Definition taken (s : step) (d : dockerfile) : dockerfile :=
  match s with
  | Change c => changed c d
  | NewValue sp t v => value_changed sp t v (step_content s (d_content d)) d
  end.

(** Several steps, in the order of their spans: the last one first, so that the spans of
    the others stay right. *)
Definition all_taken (ss : list step) (d : dockerfile) : dockerfile := fold_right taken d ss.

(** ** Values only *)

(** A place, the text put there and its value *)
Definition placed_value : Type := span * bytes * bytes.
Definition pv_step (x : placed_value) : step := let '(sp, t, v) := x in NewValue sp t v.
Definition pv_edit (x : placed_value) : edit := let '(sp, t, _) := x in (sp, t).

(** The value put at a place, if any *)
Fixpoint value_for (vs : list placed_value) (y : span) : option bytes :=
  match vs with
  | [] => None
  | (sp, _, v) :: vs => if span_eq_dec y sp then Some v else value_for vs y
  end.

(** All the values put at their places, the offsets left as they are *)
Section All.
Variable vs : list placed_value.

Definition put_strings (s : spanned_string) : spanned_string :=
  match value_for vs (ss_span s) with Some v => SpannedString (ss_span s) v | None => s end.
Definition put_values (b : breakable_string) : breakable_string :=
  match value_for vs (br_span b) with Some v => BreakableString (br_span b) [BString (SpannedString (br_span b) v)] | None => b end.
Definition put_commands (e : shell_or_exec) : shell_or_exec :=
  match e with
  | Exec a => Exec (StringArray (sa_span a) (map put_strings (sa_elements a)))
  | Shell s => Shell s
  end.
Definition put_args (x : arg_instruction) : arg_instruction :=
  ArgInstruction (arg_span x) (arg_name x) (option_map put_strings (arg_value x)).
Definition with_values (i : instruction) : instruction :=
  match i with
  | IArg x => IArg (put_args x)
  | ILabel x => ILabel (LabelInstruction (label_span x) (map (fun l => Label (lb_span l) (lb_name l) (put_strings (lb_value l))) (label_labels x)))
  | IEnv x => IEnv (EnvInstruction (env_span x) (map (fun e => EnvVar (ev_span e) (ev_key e) (put_values (ev_value e))) (env_vars x)))
  | IRun x => IRun (RunInstruction (run_span x) (put_commands (run_expr x)))
  | IEntrypoint x => IEntrypoint (EntrypointInstruction (entrypoint_span x) (put_commands (entrypoint_expr x)))
  | ICmd x => ICmd (CmdInstruction (cmd_span x) (put_commands (cmd_expr x)))
  | IFrom _ | ICopy _ | IMisc _ => i
  end.

Definition values_changed (content : bytes) (d : dockerfile) : dockerfile :=
  let g := after_edits (map pv_edit vs) in
  Dockerfile content (map (fun x => move_arg g (put_args x)) (d_global_args d))
    (map (fun i => move_instruction g (with_values i)) (d_instructions d)).
End All.

(** Names put in several places, together with the values and the changes of SpecSteps.v,
    through one splicer: what may be done, and what comes of it. *)

From Coq Require Import String.
From Verif Require Import Bytes Ast SpecSyntax SpecClear SpecMove SpecSplice SpecJoin SpecChanges SpecValues SpecSteps SpecKeys.
Local Open Scope nat_scope.

Inductive act : Type :=
  (** a value or a change of SpecSteps.v *)
  | Step (s : step)
  (** the name [v], written as [t], at [sp] *)
  | NewName (sp : span) (t v : bytes).

Definition act_span (a : act) : span := match a with Step s => step_span s | NewName sp _ _ => sp end.
Definition act_text (a : act) : bytes := match a with Step s => step_text s | NewName _ t _ => t end.
(** The call of the splicer *)
Definition act_edit (a : act) : edit := (act_span a, act_text a).

(** When it can be done.  Of the text after a name only the first byte is looked at. *)
Definition can_do (unq : bytes -> option bytes) (d : dockerfile) (a : act) : Prop :=
  match a with
  | Step s => can_take unq d s
  | NewName sp t v =>
    valid_utf8 t = true /\ closed_quotes (firstn (s_start sp) (d_content d)) /\
    exists i, In i (d_instructions d) /\ name_place i sp /\ name_text unq (skipn (s_end sp) (d_content d)) i t v /\
      closed_lines (firstn (s_start (instruction_span i)) (d_content d))
  end.

(** What becomes of a document *)
Definition act_offset (a : act) : nat -> nat :=
  replacement (s_start (act_span a)) (s_end (act_span a)) (length (act_text a)).
Definition act_content (a : act) (text : bytes) : bytes :=
  firstn (s_start (act_span a)) text ++ act_text a ++ skipn (s_end (act_span a)) text.
Definition act_instruction (a : act) (i : instruction) : instruction :=
  match a with
  | Step s => step_instruction s i
  | NewName sp t v => move_instruction (act_offset a) (with_name sp v i)
  end.
Definition done (a : act) (d : dockerfile) : dockerfile :=
  match a with
  | Step s => taken s d
  | NewName sp t v => name_changed sp t v (act_content a (d_content d)) d
  end.

(** Several of them, in the order of their spans: the last one first, so that the spans of
    the others stay right. *)
Definition all_done (l : list act) (d : dockerfile) : dockerfile := fold_right done d l.

(** ** Names and values only *)

(** All the names put at their places, and all the names and values; the offsets are left
    as they are.  No two names or values have the same span, so one list serves for both. *)
Section All.
Variable ps : list placed_value.

Definition put_names (i : instruction) : instruction :=
  match i with
  | IArg x => IArg (ArgInstruction (arg_span x) (put_strings ps (arg_name x)) (arg_value x))
  | ILabel x => ILabel (LabelInstruction (label_span x) (map (fun l => Label (lb_span l) (put_strings ps (lb_name l)) (lb_value l)) (label_labels x)))
  | IEnv x => IEnv (EnvInstruction (env_span x) (map (fun e => EnvVar (ev_span e) (put_strings ps (ev_key e)) (ev_value e)) (env_vars x)))
  | _ => i
  end.
Definition with_strings (i : instruction) : instruction := with_values ps (put_names i).
Definition with_arg_strings (x : arg_instruction) : arg_instruction :=
  ArgInstruction (arg_span x) (put_strings ps (arg_name x)) (option_map (put_strings ps) (arg_value x)).

Definition strings_changed (content : bytes) (d : dockerfile) : dockerfile :=
  let g := after_edits (map pv_edit ps) in
  Dockerfile content (map (fun x => move_arg g (with_arg_strings x)) (d_global_args d))
    (map (fun i => move_instruction g (with_strings i)) (d_instructions d)).
End All.

(** [x] can be put at its place, as a name or as a value. *)
Definition can_put (unq : bytes -> option bytes) (d : dockerfile) (x : placed_value) : Prop :=
  let '(sp, t, v) := x in can_do unq d (NewName sp t v) \/ can_do unq d (Step (NewValue sp t v)).

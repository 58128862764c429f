(** Another name of an ARG, of a label or of an environment variable: which texts may stand
    there, what they are read as, and what becomes of the instruction. *)

From Coq Require Import String.
From Verif Require Import Bytes Ast SpecSyntax SpecClear SpecExact SpecMove SpecSplice SpecJoin SpecValues.
Local Open Scope nat_scope.

Section Names.
Variable unq : bytes -> option bytes.

(** [t], followed by [after], may be the name of a label, and then stands for [v]: a quoted
    text, or a word that cannot be taken for a comment, a quoted string or a line
    continuation and that ends there. *)
Definition label_name_text (after t v : bytes) : Prop :=
  (exists u, quoted_text t /\ without_breaks t u /\ unq u = Some v) \/
  (label_word t /\ begins_solid t /\ ~ begins_with_quote t /\ label_over after /\ stands_for unq t v).

(** As a name in [i], followed by [after], [t] means [v]. *)
Definition name_text (after : bytes) (i : instruction) (t v : bytes) : Prop :=
  match i with
  | IArg _ => arg_name_text t /\ v = t
  | ILabel _ => label_name_text after t v
  | IEnv _ => env_name_text t /\ v = t
  | _ => False
  end.

End Names.

(** At [sp] the instruction [i] has the name of an ARG, of a label or of a variable. *)
Definition name_place (i : instruction) (sp : span) : Prop :=
  match i with
  | IArg x => ss_span (arg_name x) = sp
  | ILabel x => exists l, In l (label_labels x) /\ ss_span (lb_name l) = sp
  | IEnv x => exists e, In e (env_vars x) /\ ss_span (ev_key e) = sp
  | _ => False
  end.

(** The instruction with the name [v] at [sp]; offsets are not changed. *)
Section With.
Variable sp : span.
Variable v : bytes.

Definition rename_label (l : label) : label := Label (lb_span l) (put_string sp v (lb_name l)) (lb_value l).
Definition rename_env (e : env_var) : env_var := EnvVar (ev_span e) (put_string sp v (ev_key e)) (ev_value e).
Definition rename_arg (x : arg_instruction) : arg_instruction :=
  ArgInstruction (arg_span x) (put_string sp v (arg_name x)) (arg_value x).
Definition with_name (i : instruction) : instruction :=
  match i with
  | IArg x => IArg (rename_arg x)
  | ILabel x => ILabel (LabelInstruction (label_span x) (map rename_label (label_labels x)))
  | IEnv x => IEnv (EnvInstruction (env_span x) (map rename_env (env_vars x)))
  | _ => i
  end.

End With.

(** The result with the name [v], written as [t], at [sp] *)
Definition name_changed (sp : span) (t v content : bytes) (d : dockerfile) : dockerfile :=
  let g := replacement (s_start sp) (s_end sp) (length t) in
  Dockerfile content (map (fun x => move_arg g (rename_arg sp v x)) (d_global_args d))
    (map (fun i => move_instruction g (with_name sp v i)) (d_instructions d)).

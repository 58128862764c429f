(** Another value in an ARG, a LABEL or an ENV, and another string in an exec form: which
    texts may stand there, what they are read as, and what becomes of the instruction. *)

From Coq Require Import String.
From Verif Require Import Bytes Ast SpecSyntax SpecClear SpecMove SpecSplice SpecJoin.
Local Open Scope nat_scope.

(** A word that cannot be taken for a comment, a quoted string or a line continuation *)
Definition new_word (t : bytes) : Prop := clear_value t /\ begins_solid t.

Section Values.
Variable unq : bytes -> option bytes.

(** [t] may be the value of an ARG, and then stands for [v]; and so on. *)
Definition arg_text (t v : bytes) : Prop := (quoted_text t \/ new_word t) /\ stands_for unq t v.
Definition label_text (t v : bytes) : Prop :=
  (exists u, quoted_text t /\ without_breaks t u /\ unq u = Some v) \/ (new_word t /\ stands_for unq t v).
(** In ENV name value, without an equals sign, only a quoted text is a value that ends
    before the end of the line. *)
Definition env_text (before t v : bytes) : Prop :=
  (quoted_text t /\ unq t = Some v) \/ (new_word t /\ v = t /\ exists a, before = a ++ [EQUALS]).
Definition element_text (t v : bytes) : Prop := quoted_text t /\ unq t = Some v.

Definition element_place (e : shell_or_exec) (sp : span) : Prop :=
  match e with
  | Exec a => exists s, In s (sa_elements a) /\ ss_span s = sp
  | Shell _ => False
  end.

(** At [sp] the instruction [i] has a value. *)
Definition value_place (i : instruction) (sp : span) : Prop :=
  match i with
  | IArg x => exists s, arg_value x = Some s /\ ss_span s = sp
  | ILabel x => exists l, In l (label_labels x) /\ ss_span (lb_value l) = sp
  | IEnv x => exists e, In e (env_vars x) /\ br_span (ev_value e) = sp
  | IRun x => element_place (run_expr x) sp
  | IEntrypoint x => element_place (entrypoint_expr x) sp
  | ICmd x => element_place (cmd_expr x) sp
  | IFrom _ | ICopy _ | IMisc _ => False
  end.

(** As a value of [i], after the text [before], [t] means [v]. *)
Definition value_text (before : bytes) (i : instruction) (t v : bytes) : Prop :=
  match i with
  | IArg _ => arg_text t v
  | ILabel _ => label_text t v
  | IEnv _ => env_text before t v
  | IRun _ | IEntrypoint _ | ICmd _ => element_text t v
  | IFrom _ | ICopy _ | IMisc _ => False
  end.

End Values.

(** The instruction with the value [v] at [sp]; offsets are not changed. *)
Section With.
Variable sp : span.
Variable v : bytes.

Definition put_string (s : spanned_string) : spanned_string :=
  if span_eq_dec (ss_span s) sp then SpannedString sp v else s.
Definition put_value (b : breakable_string) : breakable_string :=
  if span_eq_dec (br_span b) sp then BreakableString sp [BString (SpannedString sp v)] else b.
Definition put_label (l : label) : label := Label (lb_span l) (lb_name l) (put_string (lb_value l)).
Definition put_env (e : env_var) : env_var := EnvVar (ev_span e) (ev_key e) (put_value (ev_value e)).
Definition put_command (e : shell_or_exec) : shell_or_exec :=
  match e with
  | Exec a => Exec (StringArray (sa_span a) (map put_string (sa_elements a)))
  | Shell s => Shell s
  end.
Definition with_value (i : instruction) : instruction :=
  match i with
  | IArg x => IArg (ArgInstruction (arg_span x) (arg_name x) (option_map put_string (arg_value x)))
  | ILabel x => ILabel (LabelInstruction (label_span x) (map put_label (label_labels x)))
  | IEnv x => IEnv (EnvInstruction (env_span x) (map put_env (env_vars x)))
  | IRun x => IRun (RunInstruction (run_span x) (put_command (run_expr x)))
  | IEntrypoint x => IEntrypoint (EntrypointInstruction (entrypoint_span x) (put_command (entrypoint_expr x)))
  | ICmd x => ICmd (CmdInstruction (cmd_span x) (put_command (cmd_expr x)))
  | IFrom _ | ICopy _ | IMisc _ => i
  end.

Definition put_arg (x : arg_instruction) : arg_instruction :=
  ArgInstruction (arg_span x) (arg_name x) (option_map put_string (arg_value x)).

End With.

(** The result with the value [v], written as [t], at [sp] *)
Definition value_changed (sp : span) (t v content : bytes) (d : dockerfile) : dockerfile :=
  let g := replacement (s_start sp) (s_end sp) (length t) in
  Dockerfile content (map (fun x => move_arg g (put_arg sp v x)) (d_global_args d))
    (map (fun i => move_instruction g (with_value sp v i)) (d_instructions d)).

(** The text [pre] consists of whole lines, which can be read without looking at [rest],
    and blanks. *)
Definition lines_before (pre rest : bytes) : Prop :=
  exists b, blanks b /\
    (pre = b \/ exists a n, pre = a ++ n ++ b /\ complete a /\ quotes_apart a (n ++ b ++ rest) /\ breaks a n (b ++ rest)).

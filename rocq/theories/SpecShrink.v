(** Labels or environment variables taken out of an instruction: what becomes of it. *)

From Coq Require Import String.
From Verif Require Import Bytes Ast SpecSyntax SpecExact SpecMove SpecSplice.
Local Open Scope nat_scope.

(** From [a], the end of a pair of [i], to [e], the end of a later pair: without the pairs that
    lie there, [i] is [i']. *)
Inductive drops (a e : nat) : instruction -> instruction -> Prop :=
| drops_label x l1 l out m l2 :
    label_labels x = l1 ++ l :: out ++ m :: l2 -> s_end (lb_span l) = a -> s_end (lb_span m) = e ->
    drops a e (ILabel x) (ILabel (LabelInstruction (label_span x) (l1 ++ l :: l2)))
| drops_var x l1 l out m l2 :
    env_vars x = l1 ++ l :: out ++ m :: l2 -> s_end (ev_span l) = a -> s_end (ev_span m) = e ->
    drops a e (IEnv x) (IEnv (EnvInstruction (env_span x) (l1 ++ l :: l2))).

(** From [a], the start of a pair of [i], to [e], the start of a later pair: without the pairs
    that lie there, [i] is [i']. *)
Inductive drops_front (a e : nat) : instruction -> instruction -> Prop :=
| front_label x l1 l out m l2 :
    label_labels x = l1 ++ l :: out ++ m :: l2 -> s_start (lb_span l) = a -> s_start (lb_span m) = e ->
    drops_front a e (ILabel x) (ILabel (LabelInstruction (label_span x) (l1 ++ m :: l2)))
| front_var x l1 l out m l2 :
    env_vars x = l1 ++ l :: out ++ m :: l2 -> s_start (ev_span l) = a -> s_start (ev_span m) = e ->
    drops_front a e (IEnv x) (IEnv (EnvInstruction (env_span x) (l1 ++ m :: l2))).

(** The last byte is a backslash. *)
Definition ends_with_backslash (w : bytes) : Prop := exists u, w = u ++ [BSLASH].

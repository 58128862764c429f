(** One more label, or one more environment variable, in an instruction that has some: what
    is written, and what becomes of the instruction. *)

From Coq Require Import String.
From Verif Require Import Bytes Ast SpecSyntax SpecExact SpecMove SpecSplice SpecKeys.
Local Open Scope nat_scope.

(** A blank, the name [t], an equals sign and the value [u] *)
Definition more_text (t u : bytes) : bytes := SP :: t ++ EQUALS :: u.

(** Everything [n] bytes later *)
Definition further (n : nat) : nat -> nat := fun x => n + x.

(** The new pair, written at [a], with the name [v] and the value [y] *)
Definition new_label (a : nat) (t u v y : bytes) : label :=
  Label (at_ (S a) (t ++ EQUALS :: u)) (SpannedString (at_ (S a) t) v) (SpannedString (at_ (S a + length t + 1) u) y).
Definition new_var (a : nat) (t u v y : bytes) : env_var :=
  EnvVar (at_ (S a) (t ++ EQUALS :: u)) (SpannedString (at_ (S a) t) v)
    (BreakableString (at_ (S a + length t + 1) u) [BString (SpannedString (at_ (S a + length t + 1) u) y)]).

(** Its end is [n] bytes later. *)
Definition longer (n : nat) (sp : span) : span := Span (s_start sp) (s_end sp + n).

(** In the text [content] the pair of [t] and [u], meaning [v] and [y], can be written at
    [a], the end of a pair of [i]; [i] then becomes [i'].  The pair before it has an equals
    sign, and the new value is quoted. *)
Inductive adds (unq : bytes -> option bytes) (content : bytes) (a : nat) (t u v y : bytes) : instruction -> instruction -> Prop :=
| adds_label x l1 l l2 :
    label_labels x = l1 ++ l :: l2 -> s_end (lb_span l) = a -> nth_error content (s_end (ss_span (lb_name l))) = Some EQUALS ->
    label_name_text unq [EQUALS] t v -> (exists w, quoted_text u /\ without_breaks u w /\ unq w = Some y) ->
    adds unq content a t u v y (ILabel x) (ILabel (LabelInstruction (longer (length (more_text t u)) (label_span x))
      (l1 ++ l :: new_label a t u v y :: map (move_label (further (length (more_text t u)))) l2)))
| adds_var x l1 e l2 :
    env_vars x = l1 ++ e :: l2 -> s_end (ev_span e) = a -> nth_error content (s_end (ss_span (ev_key e))) = Some EQUALS ->
    env_name_text t -> v = t -> quoted_text u -> unq u = Some y ->
    adds unq content a t u v y (IEnv x) (IEnv (EnvInstruction (longer (length (more_text t u)) (env_span x))
      (l1 ++ e :: new_var a t u v y :: map (move_env (further (length (more_text t u)))) l2))).

(** Splicing spans that lie inside one another: what the text should be. *)

From Verif Require Import Bytes Result Ast Splicer SpecSplice.
Local Open Scope nat_scope.

(** A span that is spliced after another one is apart from it or contains it. *)
Definition inside_out (ops : list edit) : Prop :=
  forall ops1 op ops2 op', ops = ops1 ++ op :: ops2 -> In op' ops2 ->
    inside (fst op) (fst op') \/ s_end (fst op) <= s_start (fst op') \/ s_end (fst op') <= s_start (fst op).

(** Put an edit among edits that are in order; those inside it are gone. *)
Fixpoint lay (op : edit) (edits : list edit) : list edit :=
  match edits with
  | [] => [op]
  | e :: edits' =>
    if s_end (fst e) <=? s_start (fst op) then e :: lay op edits'
    else if s_end (fst op) <=? s_start (fst e) then op :: edits
    else lay op edits'
  end.
Definition laid (ops : list edit) : list edit := fold_left (fun edits op => lay op edits) ops [].

Definition inside_b (a b : span) : bool := ((s_start b <=? s_start a) && (s_end a <=? s_end b))%bool.

(** What stands at a span after these edits *)
Definition text_now (doc : bytes) (edits : list edit) (sp : span) : bytes :=
  replaced (firstn (s_end sp) doc) (s_start sp) (filter (fun e => inside_b (fst e) sp) edits).

(** No text is given for a span at which nothing is left. *)
Definition never_emptied (doc : bytes) (ops : list edit) : Prop :=
  forall ops1 sp r ops2, ops = ops1 ++ (sp, r) :: ops2 -> r <> [] -> text_now doc (laid ops1) sp <> [].

(** Where the splicer looks for [inner] after [outer], which contains it, was replaced by
    [n] bytes: counted from the end of [outer]; a start in common stays. *)
Definition slid (outer inner : span) (n : nat) : span :=
  Span (if s_start outer <? s_start inner then s_start inner + n - (s_end outer - s_start outer) else s_start inner)
       (s_end inner + n - (s_end outer - s_start outer)).

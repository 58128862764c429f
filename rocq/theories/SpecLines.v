(** Texts that differ only in how their line ends are written: LF, CR LF or CR. *)

From Verif Require Import Bytes SpecSyntax.
Local Open Scope nat_scope.

(** Two texts side by side: a byte that both have, or a line end that the first
    writes as [n] and the second as [m]. *)
Inductive mark : Type :=
| Same (c : N)
| Ends (n m : bytes).

Definition mark_left (x : mark) : bytes := match x with Same c => [c] | Ends n _ => n end.
Definition mark_right (x : mark) : bytes := match x with Same c => [c] | Ends _ m => m end.

Definition left_text (l : list mark) : bytes := flat_map mark_left l.
Definition right_text (l : list mark) : bytes := flat_map mark_right l.

Definition mark_ok (x : mark) : Prop :=
  match x with Same c => is_newline_byte c = false | Ends n m => newline n /\ newline m end.

(** A CR before LF is one line end with it, so a line end that is written CR is not
    followed by LF, on either side. *)
Fixpoint apart (l : list mark) : Prop :=
  match l with
  | [] => True
  | x :: l' =>
    (mark_left x = [CR] -> forall t, left_text l' <> LF :: t) /\
    (mark_right x = [CR] -> forall t, right_text l' <> LF :: t) /\ apart l'
  end.

Definition side_by_side (l : list mark) : Prop := Forall mark_ok l /\ apart l.

(** Two texts with the same lines *)
Definition same_lines (s t : bytes) : Prop :=
  exists l, side_by_side l /\ left_text l = s /\ right_text l = t.

(** The offset in the second text of an offset in the first *)
Fixpoint across (l : list mark) (x : nat) : nat :=
  match l with
  | [] => x
  | m :: l' => if x <? length (mark_left m) then 0 else length (mark_right m) + across l' (x - length (mark_left m))
  end.

(** [str::replace("\n", "\r\n")] *)
Definition with_crlf (s : bytes) : bytes := flat_map (fun c => if (c =? LF)%N then [CR; LF] else [c]) s.

(** The number of LF among the first [x] bytes *)
Definition breaks_before (s : bytes) (x : nat) : nat := length (filter (N.eqb LF) (firstn x s)).

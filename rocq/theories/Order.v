(** The derived [Ord] (and [PartialOrd]) of the public types: fields in the order of
    their declaration, variants of an enum in the order of theirs. *)

From Verif Require Import Bytes Ast.
Local Open Scope nat_scope.

Definition then_cmp (a b : comparison) : comparison := match a with Eq => b | _ => a end.

(** [Ord] of [Vec] and of [str] (by bytes): lexicographic, a proper prefix is less *)
Fixpoint list_cmp {A} (cmp : A -> A -> comparison) (l1 l2 : list A) : comparison :=
  match l1, l2 with
  | [], [] => Eq
  | [], _ :: _ => Lt
  | _ :: _, [] => Gt
  | x :: l1', y :: l2' => then_cmp (cmp x y) (list_cmp cmp l1' l2')
  end.
Definition str_cmp : bytes -> bytes -> comparison := list_cmp N.compare.

(** src/splicer.rs lines 17-21 *)
Definition span_cmp (a b : span) : comparison :=
  then_cmp (Nat.compare (s_start a) (s_start b)) (Nat.compare (s_end a) (s_end b)).

(** src/util.rs lines 126-130 *)
Definition string_cmp (a b : spanned_string) : comparison :=
  then_cmp (span_cmp (ss_span a) (ss_span b)) (str_cmp (ss_content a) (ss_content b)).

(** src/util.rs lines 119-123 *)
Definition comment_cmp (a b : spanned_comment) : comparison :=
  then_cmp (span_cmp (sc_span a) (sc_span b)) (str_cmp (sc_content a) (sc_content b)).

(** src/util.rs lines 145-149: every String is less than every Comment *)
Definition component_cmp (a b : breakable_component) : comparison :=
  match a, b with
  | BString x, BString y => string_cmp x y
  | BString _, BComment _ => Lt
  | BComment _, BString _ => Gt
  | BComment x, BComment y => comment_cmp x y
  end.

(** src/util.rs lines 186-190 *)
Definition breakable_cmp (a b : breakable_string) : comparison :=
  then_cmp (span_cmp (br_span a) (br_span b)) (list_cmp component_cmp (br_components a) (br_components b)).

(** src/util.rs lines 106-110 *)
Definition array_cmp (a b : string_array) : comparison :=
  then_cmp (span_cmp (sa_span a) (sa_span b)) (list_cmp string_cmp (sa_elements a) (sa_elements b)).

(** Specification of comparison and sorting. *)

From Coq Require Import Sorted.
From Verif Require Import Bytes.

(** What Rust asks of [Ord]: equal exactly if the same, antisymmetric, transitive *)
Definition total_order {A} (cmp : A -> A -> comparison) : Prop :=
  (forall a b, cmp a b = Eq <-> a = b) /\
  (forall a b, cmp b a = CompOpp (cmp a b)) /\
  (forall a b c, cmp a b = Lt -> cmp b c = Lt -> cmp a c = Lt).

(** In increasing order: no element is greater than a later one *)
Definition sorted_by {A} (cmp : A -> A -> comparison) (l : list A) : Prop :=
  StronglySorted (fun a b => cmp a b <> Gt) l.

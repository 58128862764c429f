(** Specification of build stages. *)

From Coq Require Import String.
From Verif Require Import Bytes Ast Stage.
Local Open Scope nat_scope.

Definition is_from (i : instruction) : Prop := exists f, i = IFrom f.

(** Equal up to ASCII letter case. *)
Definition same_nocase (a b : bytes) : Prop := to_lower a = to_lower b.

(** [f] is the FROM that the stage begins with; no other FROM follows in it. *)
Definition stage_from (s : stage) (f : from_instruction) : Prop :=
  exists rest, st_instructions s = IFrom f :: rest /\ Forall (fun i => ~ is_from i) rest.

(** The alias of the stage's FROM equals [name] up to case. *)
Definition alias_matches (s : stage) (name : bytes) : Prop :=
  exists f a, stage_from s f /\ from_alias f = Some a /\ same_nocase (ss_content a) name.

(** [p] is the parent of stage number [i], whose FROM is [f]. *)
Inductive parent_spec (ss : list stage) (i : nat) (f : from_instruction) : stage_parent -> Prop :=
| parent_scratch :
    same_nocase (ss_content (from_image f)) (bs "scratch") ->
    parent_spec ss i f PScratch
| parent_stage j s :
    ~ same_nocase (ss_content (from_image f)) (bs "scratch") ->
    j < i -> nth_error ss j = Some s -> alias_matches s (ss_content (from_image f)) ->
    (forall k t, k < j -> nth_error ss k = Some t -> ~ alias_matches t (ss_content (from_image f))) ->
    parent_spec ss i f (PStage j)
| parent_image :
    ~ same_nocase (ss_content (from_image f)) (bs "scratch") ->
    (forall k t, k < i -> nth_error ss k = Some t -> ~ alias_matches t (ss_content (from_image f))) ->
    parent_spec ss i f (PImage (from_image_parsed f)).

(** Following the parents of stage [i] until one is not a stage ends in [r]. *)
Inductive chain_ends (ss : list stage) : nat -> stage_parent -> Prop :=
| chain_stop i s : nth_error ss i = Some s -> (forall j, st_parent s <> PStage j) ->
    chain_ends ss i (st_parent s)
| chain_up i s j r : nth_error ss i = Some s -> st_parent s = PStage j -> chain_ends ss j r ->
    chain_ends ss i r.

(** Decimal numbers *)
Inductive decimal : bytes -> N -> Prop :=
| decimal_one c : is_digit c = true -> decimal [c] (c - 48)
| decimal_more s n c : decimal s n -> is_digit c = true -> decimal (s ++ [c]) (10 * n + (c - 48)).

(** [s] is accepted as a [usize]: digits, possibly after a plus sign, of value [n]
    below 2^64. *)
Definition usize_text (s : bytes) (n : N) : Prop :=
  (decimal s n \/ exists t, s = PLUS :: t /\ decimal t n) /\ (n < 18446744073709551616)%N.

(** [r] is the first stage of the list with property [P]. *)
Definition first_such (P : stage -> Prop) (ss : list stage) (r : option stage) : Prop :=
  match r with
  | Some s => exists l1 l2, ss = l1 ++ s :: l2 /\ P s /\ Forall (fun t => ~ P t) l1
  | None => Forall (fun t => ~ P t) ss
  end.

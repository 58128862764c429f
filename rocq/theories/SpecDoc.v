(** Specification of the document level: order of instructions, global arguments,
    lines, readers. *)

From Verif Require Import Bytes Ast Dockerfile.
Local Open Scope nat_scope.

Definition is_from_b (i : instruction) : bool := match i with IFrom _ => true | _ => false end.

(** The FROM instructions among these. *)
Definition count_from (l : list instruction) : nat := length (filter is_from_b l).

(** The ARG instructions among these, in order. *)
Definition args_among (l : list instruction) : list arg_instruction :=
  flat_map (fun i => match i with IArg a => [a] | _ => [] end) l.

(** [pre] are the instructions before the first FROM. *)
Definition before_first_from (l pre : list instruction) : Prop :=
  exists post, l = pre ++ post /\ Forall (fun i => is_from_b i = false) pre /\
    match post with [] => True | i :: _ => is_from_b i = true end.

(** Newlines in a text *)
Definition count_lf (s : bytes) : nat := length (filter (fun c => (c =? LF)%N) s).

(** [pre] consists of complete lines. *)
Definition whole_lines (pre : bytes) : Prop := pre = [] \/ exists p, pre = p ++ [LF].

(** The bytes a reader delivers that never fails and has no empty read. *)
Definition steady (evs : list read_event) : Prop :=
  Forall (fun e => match e with Chunk (_ :: _) | Interrupted => True | _ => False end) evs.
Definition delivered (evs : list read_event) : bytes :=
  flat_map (fun e => match e with Chunk b => b | _ => [] end) evs.

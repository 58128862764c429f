(** The programs of examples/.  Opening the file named on the command line is left
    out: a program starts from what reading that file gives. *)

From Coq Require Import String.
From Verif Require Import Bytes Result Ast Splicer Dockerfile Stage.
Local Open Scope nat_scope.

(** examples/splice.rs lines 17-21: the loop over the instructions *)
Definition splice_step (st : splicer) (i : instruction) : outcome splicer :=
  match i with
  | IFrom f => splice st (ss_span (from_image f)) (bs "splice:test")
  | _ => Ok st
  end.

(** examples/splice.rs lines 9-26: [wrap].  The result is what is printed; [println!]
    adds a line feed. *)
Definition splice_program (unq : bytes -> option bytes) (evs : list read_event) : outcome bytes :=
  d <- from_reader unq evs;;
  st <- for_each splice_step (d_instructions d) (splicer_from d);;
  Ok (sp_content st ++ [LF]).

(** examples/stages.rs.  The derived [Debug] of a parent and of an instruction is not
    modelled: it is any function to texts. *)
Section Stages.

Variable debug_parent : stage_parent -> bytes.
Variable debug_instruction : instruction -> bytes.

(** examples/stages.rs lines 16-19 *)
Definition stage_heading (s : stage) : bytes :=
  bs "stage #" ++ display_usize (N.of_nat (st_index s)) ++ bs " (parent: " ++ debug_parent (st_parent s) ++
  bs ", root: " ++ debug_parent (st_root s) ++ bs ")" ++ [LF].

(** examples/stages.rs line 22 *)
Definition stage_line (i : instruction) : bytes := bs "  " ++ debug_instruction i ++ [LF].

(** examples/stages.rs lines 9-27: [wrap]; the result is what is printed *)
Definition stages_program (unq : bytes -> option bytes) (evs : list read_event) : outcome bytes :=
  d <- from_reader unq evs;;
  ss <- stages_new d;;
  Ok (flat_map (fun s => stage_heading s ++ flat_map stage_line (st_instructions s)) ss).

End Stages.

(** src/dockerfile_parser.rs: parsing a document, and the API of [Dockerfile]. *)

From Coq Require Import String.
From Verif Require Import Bytes Grammar Peg Result Ast Splicer Image Convert.
Local Open Scope nat_scope.

(** The local variables of [parse_dockerfile] (lines 322-325). *)
Record doc_state : Type := DocState {
  ds_instructions : list instruction;
  ds_global_args : list arg_instruction;
  ds_from_found : bool;
  ds_from_index : nat
}.

(** src/dockerfile_parser.rs line 341: [from.index = from_index] *)
Definition set_index (f : from_instruction) (n : nat) : from_instruction :=
  FromInstruction (from_span f) (from_flags f) (from_image f) (from_image_parsed f) n (from_alias f).

Section Parse.
Variable unq : bytes -> option bytes.

(** src/dockerfile_parser.rs lines 327-356: the body of the loop *)
Definition doc_step (src : bytes) (st : doc_state) (record : tree) : outcome doc_state :=
  match t_rule record with
  | R_EOI => Ok st
  | R_comment => Ok st
  | _ =>
    instruction <- instruction_of unq src record;;
    match instruction with
    | IFrom f =>
      Ok (DocState (ds_instructions st ++ [IFrom (set_index f (ds_from_index st))])
                   (ds_global_args st) true (S (ds_from_index st)))
    | IArg a =>
      Ok (DocState (ds_instructions st ++ [IArg a])
                   (if ds_from_found st then ds_global_args st else ds_global_args st ++ [a])
                   (ds_from_found st) (ds_from_index st))
    | i =>
      Ok (DocState (ds_instructions st ++ [i])
                   (ds_global_args st) (ds_from_found st) (ds_from_index st))
    end
  end.

(** src/dockerfile_parser.rs lines 316-362: [parse_dockerfile], and lines 364-368:
    [Dockerfile::parse].  [into_inner] of the first pair; the parse of the rule
    [dockerfile] yields exactly one. *)
Definition parse (input : bytes) : outcome dockerfile :=
  match pest_parse R_dockerfile input with
  | OutOfFuel => Diverge
  | Fail => Err EParse
  | Done _ _ [] => Err EUnknownParse
  | Done _ _ (top :: _) =>
    st <- for_each (doc_step input) (t_children top) (DocState [] [] false 0);;
    Ok (Dockerfile input (ds_global_args st) (ds_instructions st))
  end.

(** src/dockerfile_parser.rs lines 419-425: [FromStr::from_str] *)
Definition from_str (input : bytes) : outcome dockerfile := parse input.

(** What a [Read] may do at each call: deliver bytes, be interrupted (the standard
    library retries), or fail.  An empty delivery, and the end of the list, is the
    end of the stream. *)
Inductive read_event : Type :=
| Chunk (b : bytes)
| Interrupted
| ReadFails.

(** [Read::read_to_end] *)
Fixpoint read_all (evs : list read_event) (buf : bytes) : option bytes :=
  match evs with
  | [] => Some buf
  | Chunk [] :: _ => Some buf
  | Chunk b :: evs' => read_all evs' (buf ++ b)
  | Interrupted :: evs' => read_all evs' buf
  | ReadFails :: _ => None
  end.

(** src/dockerfile_parser.rs lines 370-380: [Dockerfile::from_reader].
    [read_to_string] fails if the bytes are not UTF-8. *)
Definition from_reader (evs : list read_event) : outcome dockerfile :=
  match read_all evs [] with
  | None => Err ERead
  | Some buf => if valid_utf8 buf then parse buf else Err ERead
  end.

(** src/test_util.rs lines 17-24: [parse_single] (used only by the crate's tests;
    here for the conformance tests) *)
Definition parse_single (input : bytes) (r : rule) : outcome instruction :=
  match pest_parse r input with
  | OutOfFuel => Diverge
  | Fail => Err EParse
  | Done _ _ [] => Err EUnknownParse
  | Done _ _ (t :: _) => instruction_of unq input t
  end.

End Parse.

(** src/dockerfile_parser.rs lines 401-416: [Dockerfile::get_global_arg] *)
Fixpoint find_leading_arg (l : list instruction) (name : bytes) : option arg_instruction :=
  match l with
  | IArg a :: l' => if beqb (ss_content (arg_name a)) name then Some a else find_leading_arg l' name
  | _ :: _ => None
  | [] => None
  end.
Definition get_global_arg (d : dockerfile) (name : bytes) : option arg_instruction :=
  find_leading_arg (d_instructions d) name.

(** ** Conversions: [TryFrom<&Instruction>] of each instruction type:
    src/instructions/from.rs 134-147, arg.rs 62-75, label.rs 110-123, run.rs 66-79,
    entrypoint.rs 66-79, cmd.rs 66-79, copy.rs 96-109, env.rs 149-162, misc.rs 54-67 *)
Definition try_into {A} (proj : instruction -> option A) (name : string) (i : instruction) : outcome A :=
  ok_or (proj i) (EConversion name).
Definition try_from_from := try_into as_from "FromInstruction".
Definition try_from_arg := try_into as_arg "ArgInstruction".
Definition try_from_label := try_into as_label "LabelInstruction".
Definition try_from_run := try_into as_run "RunInstruction".
Definition try_from_entrypoint := try_into as_entrypoint "EntrypointInstruction".
Definition try_from_cmd := try_into as_cmd "CmdInstruction".
Definition try_from_copy := try_into as_copy "CopyInstruction".
Definition try_from_env := try_into as_env "EnvInstruction".
Definition try_from_misc := try_into as_misc "MiscInstruction".

(** src/stage.rs *)

From Coq Require Import String.
From Verif Require Import Bytes Grammar Result Ast Splicer Image.
Local Open Scope nat_scope.

(** src/stage.rs lines 9-20 *)
Inductive stage_parent : Type :=
| PImage (i : image_ref)
| PStage (index : nat)
| PScratch.

(** src/stage.rs lines 45-64 *)
Record stage : Type := Stage {
  st_index : nat;
  st_name : option bytes;
  st_instructions : list instruction;
  st_parent : stage_parent;
  st_root : stage_parent
}.

(** src/stage.rs lines 66-82: Ord, PartialOrd and PartialEq *)
Definition stage_cmp (a b : stage) : comparison := Nat.compare (st_index a) (st_index b).
Definition stage_partial_cmp (a b : stage) : option comparison := Some (stage_cmp a b).
Definition stage_eq (a b : stage) : bool := st_index a =? st_index b.

(** src/stage.rs lines 89-97: [Stage::arg_index]; [i] is the enumeration index *)
Fixpoint find_arg (l : list instruction) (i : nat) (name : bytes) : option nat :=
  match l with
  | [] => None
  | IArg a :: l' => if beqb (ss_content (arg_name a)) name then Some i else find_arg l' (S i) name
  | _ :: l' => find_arg l' (S i) name
  end.
Definition arg_index (s : stage) (name : bytes) : option nat := find_arg (st_instructions s) 0 name.

Definition name_is (name : bytes) (s : stage) : bool :=
  match st_name s with
  | Some n => beqb n (to_lower name)
  | None => false
  end.

(** src/stage.rs lines 168-171: [Stages::get_by_name] *)
Definition get_by_name (ss : list stage) (name : bytes) : option stage := find (name_is name) ss.

(** src/stage.rs line 160: push to the instructions of the last stage *)
Fixpoint push_last (ss : list stage) (i : instruction) : list stage :=
  match ss with
  | [] => []
  | [s] => [Stage (st_index s) (st_name s) (st_instructions s ++ [i]) (st_parent s) (st_root s)]
  | s :: ss' => s :: push_last ss' i
  end.

(** src/stage.rs lines 131-163: the body of the loop of [Stages::new]; the state is
    the vector of stages and [next_stage_index].  Line 143 indexes the vector and
    panics out of range. *)
Definition stages_step (st : list stage * nat) (ins : instruction) : outcome (list stage * nat) :=
  let '(ss, next) := st in
  match ins with
  | IFrom f =>
    let image_name := to_lower (ss_content (from_image f)) in
    let parent :=
      if beqb image_name (bs "scratch") then PScratch
      else match get_by_name ss image_name with
           | Some s => PStage (st_index s)
           | None => PImage (from_image_parsed f)
           end in
    root <- match parent with
            | PStage k => match nth_error ss k with
                          | Some s => Ok (st_root s)
                          | None => Panic
                          end
            | p => Ok p
            end;;
    Ok (ss ++ [Stage next (option_map (fun a => to_lower (ss_content a)) (from_alias f)) [ins] parent root],
        S next)
  | _ => Ok (match ss with [] => ss | _ => push_last ss ins end, next)
  end.

(** src/stage.rs lines 124-166: [Stages::new]; also [Dockerfile::stages] and
    [Dockerfile::iter_stages], src/dockerfile_parser.rs lines 382-389, and the
    iterators of lines 184-205, which give the stages in order *)
Definition stages_new (d : dockerfile) : outcome (list stage) :=
  st <- for_each stages_step (d_instructions d) ([], 0);;
  Ok (fst st).

(** [str::parse::<usize>]: an optional plus sign and decimal digits, below 2^64 *)
Fixpoint parse_digits (s : bytes) (acc : N) : option N :=
  match s with
  | [] => Some acc
  | c :: s' => if is_digit c then parse_digits s' (acc * 10 + (c - 48))%N else None
  end.
Definition parse_usize (s : bytes) : option N :=
  let digits := match s with
                | c :: t => if (c =? PLUS)%N then t else s
                | [] => []
                end in
  match digits with
  | [] => None
  | _ =>
    match parse_digits digits 0 with
    | Some n => if (n <? 18446744073709551616)%N then Some n else None
    | None => None
    end
  end.

(** src/stage.rs lines 177-182: [Stages::get].  [Vec::get] of an index that is at
    least the length is None; the comparison is made in N first, so that the index
    is converted to [nat] only when it is small. *)
Definition stages_get (ss : list stage) (s : bytes) : option stage :=
  match parse_usize s with
  | Some n => if (n <? N.of_nat (length ss))%N then nth_error ss (N.to_nat n) else None
  | None => get_by_name ss s
  end.

(** src/stage.rs lines 190-196: [Index<usize>] *)
Definition stages_index (ss : list stage) (k : nat) : outcome stage :=
  match nth_error ss k with Some s => Ok s | None => Panic end.

(** [usize]'s Display (decimal digits), for Display of a stage parent *)
Fixpoint decimal_loop (fuel : nat) (n : N) (acc : bytes) : bytes :=
  match fuel with
  | O => acc
  | S f =>
    let acc' := (48 + n mod 10)%N :: acc in
    if (n <? 10)%N then acc' else decimal_loop f (n / 10) acc'
  end.
Definition display_usize (n : N) : bytes := decimal_loop (S (N.size_nat n)) n [].

(** src/stage.rs lines 22-30: Display for StageParent *)
Definition display_parent (p : stage_parent) : bytes :=
  match p with
  | PImage i => image_display i
  | PStage k => display_usize (N.of_nat k)
  | PScratch => bs "scratch"
  end.

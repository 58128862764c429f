(** What a run of the generated parser costs: how many expressions are evaluated, and
    how deep the calls of rule functions are nested.

    [steps] counts one for every expression of the grammar that is evaluated at some
    position: each is a bounded number of calls of combinators of pest's
    [ParserState], none of which looks at more than a bounded number of bytes.
    [depth] counts the rule functions that are active at the same time: pest_derive
    makes one Rust function of each rule, which calls those of the rules in its
    body, while a repetition is a loop ([ParserState::repeat]).  Both follow the
    control flow of [eval] (Peg.v): what runs next depends on what it returned. *)

From Verif Require Import Bytes Grammar Peg.
Local Open Scope nat_scope.

Fixpoint steps (n : nat) (c : ctx) (e : expr) (p : nat) (s : bytes) {struct n} : nat :=
  match n with
  | O => 0
  | S n' =>
    S match e with
      | Str _ | Insens _ | Range _ _ | AnyChar | Soi | EndOfInput => 0
      | Call r => steps n' (rule_inner (fst (grammar r)) c) (snd (grammar r)) p s
      | NegPred e1 => steps n' {| atom := atom c; look := true |} e1 p s
      | Seq e1 e2 =>
        steps n' c e1 p s +
        match eval n' c e1 p s with Done q s1 _ => steps n' c e2 q s1 | _ => 0 end
      | Alt e1 e2 =>
        steps n' c e1 p s +
        match eval n' c e1 p s with Fail => steps n' c e2 p s | _ => 0 end
      | Opt e1 => steps n' c e1 p s
      | Rep e1 =>
        steps n' c e1 p s +
        match eval n' c e1 p s with Done q s1 _ => steps n' c (Rep e1) q s1 | _ => 0 end
      end
  end.

Fixpoint depth (n : nat) (c : ctx) (e : expr) (p : nat) (s : bytes) {struct n} : nat :=
  match n with
  | O => 0
  | S n' =>
    match e with
    | Str _ | Insens _ | Range _ _ | AnyChar | Soi | EndOfInput => 0
    | Call r => S (depth n' (rule_inner (fst (grammar r)) c) (snd (grammar r)) p s)
    | NegPred e1 => depth n' {| atom := atom c; look := true |} e1 p s
    | Seq e1 e2 =>
      Nat.max (depth n' c e1 p s)
        match eval n' c e1 p s with Done q s1 _ => depth n' c e2 q s1 | _ => 0 end
    | Alt e1 e2 =>
      Nat.max (depth n' c e1 p s)
        match eval n' c e1 p s with Fail => depth n' c e2 p s | _ => 0 end
    | Opt e1 => depth n' c e1 p s
    | Rep e1 =>
      Nat.max (depth n' c e1 p s)
        match eval n' c e1 p s with Done q s1 _ => depth n' c (Rep e1) q s1 | _ => 0 end
    end
  end.

(** Of [DockerfileParser::parse(Rule::dockerfile, input)], src/dockerfile_parser.rs
    line 317 *)
Definition parse_steps (input : bytes) : nat :=
  steps (fuel_for (length input)) ctx0 (Call R_dockerfile) 0 input.
Definition parse_depth (input : bytes) : nat :=
  depth (fuel_for (length input)) ctx0 (Call R_dockerfile) 0 input.

(** Where a syntax error is reported.

    pest's [ParserState] remembers the furthest position at which a rule was tried in
    vain, and which rules those were; when the parser fails, [pest::state] makes the
    error ([Error::ParseError] of src/error.rs lines 12-17) of them.  [attempts] follows
    the control flow of [eval] (Peg.v) and keeps that memory.  It is not undone when the
    parser goes back. *)

From Verif Require Import Bytes Grammar Peg.
Local Open Scope nat_scope.

(** [ParserState]'s attempt_pos, pos_attempts and neg_attempts *)
Record tracker : Type := Tracker { tr_pos : nat; tr_positives : list rule; tr_negatives : list rule }.

(** [ParserState::attempts_at] *)
Definition attempts_at (t : tracker) (p : nat) : nat :=
  if tr_pos t =? p then length (tr_positives t) + length (tr_negatives t) else 0.

(** [ParserState::track]: the rule [r], tried at [p]; [neg] is [lookahead == Negative];
    [t0] is the memory from before it was tried. *)
Definition track (c : ctx) (neg : bool) (r : rule) (p : nat) (t0 t : tracker) : tracker :=
  if atom c then t else
  let prev := attempts_at t0 p in
  let cur := attempts_at t p in
  if (prev <? cur) && (cur - prev =? 1) then t else
  let '(np, nn) := if p =? tr_pos t0 then (length (tr_positives t0), length (tr_negatives t0)) else (0, 0) in
  let t1 := if p =? tr_pos t then Tracker p (firstn np (tr_positives t)) (firstn nn (tr_negatives t)) else t in
  let t2 := if tr_pos t1 <? p then Tracker p [] [] else t1 in
  if p =? tr_pos t2 then
    if neg then Tracker p (tr_positives t2) (tr_negatives t2 ++ [r])
    else Tracker p (tr_positives t2 ++ [r]) (tr_negatives t2)
  else t2.

(** [ParserState::rule]: a rule that fails is remembered, or one that succeeds where it
    must not. *)
Definition track_rule (k : rkind) (c : ctx) (neg : bool) (r : rule) (p : nat) (o : res) (t0 t : tracker) : tracker :=
  match k with
  | Silent => t
  | _ =>
    match o with
    | Done _ _ _ => if neg then track (rule_outer k c) neg r p t0 t else t
    | _ => if neg then t else track (rule_outer k c) neg r p t0 t
    end
  end.

(** [ParserState::lookahead] turns the polarity round. *)
Fixpoint attempts (n : nat) (c : ctx) (neg : bool) (e : expr) (p : nat) (s : bytes) (t : tracker) {struct n} : tracker :=
  match n with
  | O => t
  | S n' =>
    match e with
    | Str _ | Insens _ | Range _ _ | AnyChar | Soi | EndOfInput => t
    | Call r =>
      let c' := rule_inner (fst (grammar r)) c in
      track_rule (fst (grammar r)) c neg r p (eval n' c' (snd (grammar r)) p s) t
        (attempts n' c' neg (snd (grammar r)) p s t)
    | NegPred e1 => attempts n' {| atom := atom c; look := true |} (negb neg) e1 p s t
    | Seq e1 e2 =>
      let t1 := attempts n' c neg e1 p s t in
      match eval n' c e1 p s with Done q s1 _ => attempts n' c neg e2 q s1 t1 | _ => t1 end
    | Alt e1 e2 =>
      let t1 := attempts n' c neg e1 p s t in
      match eval n' c e1 p s with Fail => attempts n' c neg e2 p s t1 | _ => t1 end
    | Opt e1 => attempts n' c neg e1 p s t
    | Rep e1 =>
      let t1 := attempts n' c neg e1 p s t in
      match eval n' c e1 p s with Done q s1 _ => attempts n' c neg (Rep e1) q s1 t1 | _ => t1 end
    end
  end.

(** Of [DockerfileParser::parse(Rule::dockerfile, input)], src/dockerfile_parser.rs
    line 317.  [pest::state] makes a [Position] of the offset and panics if there is none
    (C65: there is); the rules it lists are sorted and without repetitions. *)
Definition parse_attempts (input : bytes) : tracker :=
  attempts (fuel_for (length input)) ctx0 false (Call R_dockerfile) 0 input (Tracker 0 [] []).
Definition error_position (input : bytes) : nat := tr_pos (parse_attempts input).
Definition error_expected (input : bytes) : list rule := tr_positives (parse_attempts input).
Definition error_unexpected (input : bytes) : list rule := tr_negatives (parse_attempts input).

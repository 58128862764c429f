(** The parser pest generates from a grammar.

    [eval] models the combinators of pest's [ParserState] that the generated code
    calls.  The state is the position and the rest of the input.  Instead of pest's
    flat queue of start and end tokens the model returns the forest of tokens
    ([Pair]s) that the queue encodes; every failing combinator of pest leaves
    position and queue as they were (sequence, lookahead and rule restore them,
    terminals do not move), so failure carries no state.

    What [ParserState] does and the model does not: error messages (positions: Attempts.v),
    the PUSH/POP stack (unused by the grammar), the call limit (off by default),
    and the machine stack of the recursive descent (its depth: Cost.v). *)

From Verif Require Import Bytes Grammar.
Local Open Scope nat_scope.

(** pest's [Pair]: rule, start and end offset, inner pairs. *)
Inductive tree : Type :=
| Node (r : rule) (start stop : nat) (children : list tree).

Definition t_rule (t : tree) : rule := let 'Node r _ _ _ := t in r.
Definition t_start (t : tree) : nat := let 'Node _ a _ _ := t in a.
Definition t_stop (t : tree) : nat := let 'Node _ _ b _ := t in b.
(** [Pair::into_inner] *)
Definition t_children (t : tree) : list tree := let 'Node _ _ _ l := t in l.

(** The part of [ParserState] that decides whether a rule leaves a token: [atom]
    is [atomicity == Atomic], [look] is [lookahead != None]. *)
Record ctx : Type := { atom : bool; look : bool }.

(** [ParserState::rule]: "if self.lookahead == None && self.atomicity != Atomic" *)
Definition emits (c : ctx) : bool := negb (look c) && negb (atom c).

Definition wrap (c : ctx) (r : rule) (p q : nat) (f : list tree) : list tree :=
  if emits c then [Node r p q f] else f.

(** pest_generator's [generate_rule]: Atomic is rule(atomic(..)), CompoundAtomic is
    atomic(rule(..)).  [outer] is the context in which [rule] runs, [inner] that of
    the body. *)
Definition rule_outer (k : rkind) (c : ctx) : ctx :=
  match k with
  | CompoundRule => {| atom := false; look := look c |}
  | _ => c
  end.
Definition rule_inner (k : rkind) (c : ctx) : ctx :=
  match k with
  | AtomicRule => {| atom := true; look := look c |}
  | _ => rule_outer k c
  end.
Definition rule_tokens (k : rkind) (c : ctx) (r : rule) (p q : nat) (f : list tree) : list tree :=
  match k with
  | Silent => f
  | _ => wrap (rule_outer k c) r p q f
  end.

(** Result of running an expression: the new position, the rest of the input and
    the tokens; a failure; or the fuel of the model was too small (never, see
    [parse_total]). *)
Inductive res : Type :=
| Done (p : nat) (s : bytes) (f : list tree)
| Fail
| OutOfFuel.

(** [Position::match_string] *)
Fixpoint match_str (pat s : bytes) : option bytes :=
  match pat, s with
  | [], _ => Some s
  | x :: pat', y :: s' => if (x =? y)%N then match_str pat' s' else None
  | _ :: _, [] => None
  end.

(** [Position::match_insensitive] (ASCII case only) *)
Fixpoint match_insens (pat s : bytes) : option bytes :=
  match pat, s with
  | [], _ => Some s
  | x :: pat', y :: s' => if eq_icase x y then match_insens pat' s' else None
  | _ :: _, [] => None
  end.

Fixpoint eval (n : nat) (c : ctx) (e : expr) (p : nat) (s : bytes) {struct n} : res :=
  match n with
  | O => OutOfFuel
  | S n' =>
    match e with
    | Str pat =>
      match match_str pat s with
      | Some s' => Done (p + length pat) s' []
      | None => Fail
      end
    | Insens pat =>
      match match_insens pat s with
      | Some s' => Done (p + length pat) s' []
      | None => Fail
      end
    | Range lo hi =>
      match s with
      | x :: s' => if in_range lo hi x then Done (p + 1) s' [] else Fail
      | [] => Fail
      end
    | AnyChar =>
      match s with
      | x :: _ =>
        Done (p + length (firstn (utf8_width x) s)) (skipn (utf8_width x) s) []
      | [] => Fail
      end
    | Soi => if p =? 0 then Done p s [] else Fail
    | EndOfInput => match s with [] => Done p s [] | _ => Fail end
    | Call r =>
      let '(k, body) := grammar r in
      match eval n' (rule_inner k c) body p s with
      | Done q s' f => Done q s' (rule_tokens k c r p q f)
      | x => x
      end
    | NegPred e1 =>
      match eval n' {| atom := atom c; look := true |} e1 p s with
      | Done _ _ _ => Fail
      | Fail => Done p s []
      | OutOfFuel => OutOfFuel
      end
    | Seq e1 e2 =>
      match eval n' c e1 p s with
      | Done q s1 f1 =>
        match eval n' c e2 q s1 with
        | Done q2 s2 f2 => Done q2 s2 (f1 ++ f2)
        | x => x
        end
      | x => x
      end
    | Alt e1 e2 =>
      match eval n' c e1 p s with
      | Fail => eval n' c e2 p s
      | x => x
      end
    | Opt e1 =>
      match eval n' c e1 p s with
      | Fail => Done p s []
      | x => x
      end
    | Rep e1 =>
      match eval n' c e1 p s with
      | Fail => Done p s []
      | OutOfFuel => OutOfFuel
      | Done q s1 f1 =>
        match eval n' c (Rep e1) q s1 with
        | Done q2 s2 f2 => Done q2 s2 (f1 ++ f2)
        | x => x
        end
      end
    end
  end.

(** The context at the start of [pest::state]. *)
Definition ctx0 : ctx := {| atom := false; look := false |}.

(** Enough fuel for an input of this length (proved in PegFacts.v). *)
Definition fuel_for (len : nat) : nat := 512 * (len + 1).

(** [DockerfileParser::parse(rule, input)] *)
Definition pest_parse (r : rule) (input : bytes) : res :=
  eval (fuel_for (length input)) ctx0 (Call r) 0 input.

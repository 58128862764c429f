(** What it means that a rule is tried in vain while a text is parsed, and which of the
    rules tried in vain at a place are named in an error: without the memory that pest
    keeps while it parses (Attempts.v). *)

From Verif Require Import Bytes Grammar Peg PegFacts.
Local Open Scope nat_scope.

(** The rule [r] is one that is told of, and in the context [c] it does at [p] what it should
    not: it fails, or within a negative lookahead it matches. *)
Definition in_vain (c : ctx) (neg : bool) (r : rule) (p : nat) (s : bytes) : Prop :=
  fst (grammar r) <> Silent /\ atom (rule_outer (fst (grammar r)) c) = false /\
  (if neg then exists q s1 f, run c (Call r) p s = Done q s1 f else run c (Call r) p s = Fail).

(** While [e] is tried at [p], the rule [r] is tried in vain at [p0]; [b]: within a negative
    lookahead. *)
Inductive tried : ctx -> bool -> expr -> nat -> bytes -> nat -> rule -> bool -> Prop :=
| tried_here c neg r p s : in_vain c neg r p s -> tried c neg (Call r) p s p r neg
| tried_inside c neg r p s p0 r0 b : tried (rule_inner (fst (grammar r)) c) neg (snd (grammar r)) p s p0 r0 b ->
    tried c neg (Call r) p s p0 r0 b
| tried_not c neg e p s p0 r0 b : tried {| atom := atom c; look := true |} (negb neg) e p s p0 r0 b ->
    tried c neg (NegPred e) p s p0 r0 b
| tried_first c neg e1 e2 p s p0 r0 b : tried c neg e1 p s p0 r0 b -> tried c neg (Seq e1 e2) p s p0 r0 b
| tried_second c neg e1 e2 p s q s1 f p0 r0 b : run c e1 p s = Done q s1 f -> tried c neg e2 q s1 p0 r0 b ->
    tried c neg (Seq e1 e2) p s p0 r0 b
| tried_left c neg e1 e2 p s p0 r0 b : tried c neg e1 p s p0 r0 b -> tried c neg (Alt e1 e2) p s p0 r0 b
| tried_right c neg e1 e2 p s p0 r0 b : run c e1 p s = Fail -> tried c neg e2 p s p0 r0 b ->
    tried c neg (Alt e1 e2) p s p0 r0 b
| tried_opt c neg e p s p0 r0 b : tried c neg e p s p0 r0 b -> tried c neg (Opt e) p s p0 r0 b
| tried_once c neg e p s p0 r0 b : tried c neg e p s p0 r0 b -> tried c neg (Rep e) p s p0 r0 b
| tried_again c neg e p s q s1 f p0 r0 b : run c e p s = Done q s1 f -> tried c neg (Rep e) q s1 p0 r0 b ->
    tried c neg (Rep e) p s p0 r0 b.

(** The rules named for the place [p0] while [e] is tried at [p], in order: a rule tried in
    vain there stands for those tried within it, unless that is just one. *)
Inductive named (p0 : nat) : ctx -> bool -> expr -> nat -> bytes -> list (rule * bool) -> Prop :=
| named_basic c neg e p s : (match e with Str _ | Insens _ | Range _ _ | AnyChar | Soi | EndOfInput => True | _ => False end) ->
    named p0 c neg e p s []
| named_through c neg r p s l : ~ (p = p0 /\ in_vain c neg r p s) ->
    named p0 (rule_inner (fst (grammar r)) c) neg (snd (grammar r)) p s l -> named p0 c neg (Call r) p s l
| named_one c neg r s x : in_vain c neg r p0 s ->
    named p0 (rule_inner (fst (grammar r)) c) neg (snd (grammar r)) p0 s [x] -> named p0 c neg (Call r) p0 s [x]
| named_rule c neg r s l : in_vain c neg r p0 s -> length l <> 1 ->
    named p0 (rule_inner (fst (grammar r)) c) neg (snd (grammar r)) p0 s l -> named p0 c neg (Call r) p0 s [(r, neg)]
| named_not c neg e p s l : named p0 {| atom := atom c; look := true |} (negb neg) e p s l -> named p0 c neg (NegPred e) p s l
| named_first c neg e1 e2 p s l : run c e1 p s = Fail -> named p0 c neg e1 p s l -> named p0 c neg (Seq e1 e2) p s l
| named_second c neg e1 e2 p s q s1 f l1 l2 : run c e1 p s = Done q s1 f ->
    named p0 c neg e1 p s l1 -> named p0 c neg e2 q s1 l2 -> named p0 c neg (Seq e1 e2) p s (l1 ++ l2)
| named_left c neg e1 e2 p s q s1 f l : run c e1 p s = Done q s1 f -> named p0 c neg e1 p s l -> named p0 c neg (Alt e1 e2) p s l
| named_right c neg e1 e2 p s l1 l2 : run c e1 p s = Fail ->
    named p0 c neg e1 p s l1 -> named p0 c neg e2 p s l2 -> named p0 c neg (Alt e1 e2) p s (l1 ++ l2)
| named_opt c neg e p s l : named p0 c neg e p s l -> named p0 c neg (Opt e) p s l
| named_end c neg e p s l : run c e p s = Fail -> named p0 c neg e p s l -> named p0 c neg (Rep e) p s l
| named_again c neg e p s q s1 f l1 l2 : run c e p s = Done q s1 f ->
    named p0 c neg e p s l1 -> named p0 c neg (Rep e) q s1 l2 -> named p0 c neg (Rep e) p s (l1 ++ l2).

Definition expected_in (l : list (rule * bool)) : list rule := map fst (filter (fun x => negb (snd x)) l).
Definition unexpected_in (l : list (rule * bool)) : list rule := map fst (filter (fun x => snd x) l).

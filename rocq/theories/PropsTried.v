(** C65: what a syntax error says, exactly: its position is the furthest at which a rule was
    tried in vain, and its rules are those named there (SpecTried.v). *)

From Coq Require Import String.
From Verif Require Import Bytes BytesFacts Result Grammar Peg PegFacts PegRules Ast Image Convert Dockerfile Enquote SpecSyntax
  Attempts AttemptsFacts SpecTried TriedFacts PropsError.
Local Open Scope nat_scope.

Definition tried_in (input : bytes) (p : nat) (r : rule) (b : bool) : Prop := tried ctx0 false (Call R_dockerfile) 0 input p r b.
Definition named_in (input : bytes) (p : nat) (l : list (rule * bool)) : Prop := named p ctx0 false (Call R_dockerfile) 0 input l.

Theorem C65_furthest unq input : valid_utf8 input = true -> parse unq input = Err EParse ->
  (exists r b, tried_in input (error_position input) r b) /\
  forall p r b, tried_in input p r b -> p <= error_position input.
Proof.
  intros Hv E. pose proof (proj1 (TwinDoc.rejected_run unq input Hv) E) as R. split.
  - destruct (tries_tried ctx0 false (Call R_dockerfile) 0 input (Tracker 0 [] []) eq_refl) as [K|K]; [|exact K].
    exists R_dockerfile, false. replace (error_position input) with 0 by (symmetry; exact K). apply tried_here.
    split; [discriminate|]. split; [reflexivity|exact R].
  - intros p r b H. exact (tried_before _ _ _ _ _ _ _ _ H eq_refl (Tracker 0 [] [])).
Qed.

Theorem C65_named input : exists l, named_in input (error_position input) l /\
  forall l', named_in input (error_position input) l' ->
    error_expected input = expected_in l' /\ error_unexpected input = unexpected_in l'.
Proof.
  destruct (named_total (error_position input) _ ctx0 false (Call R_dockerfile) 0 input (le_n _) eq_refl) as (l & H). exists l.
  split; [exact H|]. intros l' H'. pose proof (named_kept _ _ _ _ _ _ _ H' eq_refl (Tracker 0 [] []) (le_n _)) as K.
  unfold kept in K. change (tr_pos (tries ctx0 false (Call R_dockerfile) 0 input (Tracker 0 [] []))) with (error_position input) in K.
  rewrite Nat.eqb_refl in K. destruct (_ =? _) in K; injection K as K1 K2; split; assumption.
Qed.

(** ** Cases *)

(** In "FROM x y" the end of the text is tried in vain at 7, and the rules for an
    instruction's flags before it: the error tells of the first. *)
Example C65_case_furthest : let s := bs "FROM x y" in
  parse enquote_unquote s = Err EParse /\ tried_in s 7 R_EOI false /\ tried_in s 5 R_from_flag false /\ report s = (7, [R_EOI], []).
Proof.
  cbv zeta. split; [vm_compute; reflexivity|]. split; [|split; [|vm_compute; reflexivity]].
  - unfold tried_in. apply tried_inside. cbn [grammar fst snd rule_inner]. eapply tried_second; [vm_compute; reflexivity|].
    eapply tried_second; [vm_compute; reflexivity|]. eapply tried_second; [vm_compute; reflexivity|]. apply tried_here.
    split; [discriminate|]. split; vm_compute; reflexivity.
  - unfold tried_in. apply tried_inside. cbn [grammar fst snd rule_inner]. eapply tried_second; [vm_compute; reflexivity|].
    apply tried_first. apply tried_inside. cbn [grammar fst snd rule_inner].
    eapply tried_second; [vm_compute; reflexivity|]. apply tried_first, tried_opt, tried_left.
    apply tried_inside. cbn [grammar fst snd rule_inner]. apply tried_left. apply tried_inside. cbn [grammar fst snd rule_inner].
    eapply tried_second; [vm_compute; reflexivity|]. apply tried_first, tried_once.
    eapply tried_second; [vm_compute; reflexivity|]. apply tried_here.
    split; [discriminate|]. split; vm_compute; reflexivity.
Qed.

(** Two rules named, one as expected and one as not: in "ARG a=" *)
Example C65_case_named : let s := bs "ARG a=" in
  parse enquote_unquote s = Err EParse /\ report s = (6, [R_string], [R_EOI]) /\
  exists l, named_in s 6 l /\ expected_in l = [R_string] /\ unexpected_in l = [R_EOI].
Proof.
  cbv zeta. assert (E1 : error_position (bs "ARG a=") = 6) by (vm_compute; reflexivity).
  assert (E2 : error_expected (bs "ARG a=") = [R_string]) by (vm_compute; reflexivity).
  assert (E3 : error_unexpected (bs "ARG a=") = [R_EOI]) by (vm_compute; reflexivity).
  split; [vm_compute; reflexivity|]. split; [unfold report; rewrite E1, E2, E3; reflexivity|].
  destruct (C65_named (bs "ARG a=")) as (l & H & K). destruct (K l H) as [K1 K2]. exists l. rewrite E1 in H. rewrite <- K1, <- K2, E2, E3.
  split; [exact H|]. split; reflexivity.
Qed.

Print Assumptions C65_furthest.
Print Assumptions C65_named.

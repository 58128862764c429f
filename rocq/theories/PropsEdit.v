(** Editing the text of a parse result (C45).  The notions used are those of
    SpecParts.v and SpecSplice.v. *)

From Coq Require Import String.
From Verif Require Import Bytes BytesFacts Grammar Peg Result Ast Splicer Image Convert Dockerfile Enquote
  SpecSplice SplicerFacts SplicerSafe SpecSyntax SpecParts ParseFacts SelectFacts PropsParse.
Local Open Scope nat_scope.

(** ** C45 *)

(** The spans of a selection can be spliced: they are in order and can be cut out. *)
Lemma selection_spans unq input d sps : valid_utf8 input = true -> parse unq input = Ok d ->
  selection (map instruction_part (d_instructions d)) sps ->
  in_order 0 (length (d_content d)) sps /\ forall sp, In sp sps -> on_boundaries (d_content d) sp.
Proof.
  intros Hv H Hs. split.
  - apply (selection_in_order _ _ Hs).
    + apply Forall_forall. intros x Hx. apply in_map_iff in Hx. destruct Hx as (i & <- & Hi).
      intros y Hy. eapply C05_parts_in_order; eassumption.
    + rewrite map_map. apply (C06_instructions_in_order unq input d Hv H).
  - intros sp Hi. destruct (selection_in _ _ _ Hs Hi) as (x & y & K1 & K2 & ->).
    apply in_map_iff in K1. destruct K1 as (i & <- & K1).
    apply (C03_spans_sliceable unq input d i y Hv H K1 K2).
Qed.

Theorem C45_splice_parts unq input d sps ops : valid_utf8 input = true -> parse unq input = Ok d ->
  selection (map instruction_part (d_instructions d)) sps ->
  (forall op, In op ops -> In (fst op) sps /\ valid_utf8 (snd op) = true) ->
  fits input ops ->
  exists st edits, splice_all (splicer_from d) ops = Ok st /\ valid_utf8 (sp_content st) = true /\
    map fst edits = sps /\ sp_content st = replaced input 0 edits /\
    (no_splice_after_delete ops -> sp_content st = replaced input 0 (last_edits sps ops)).
Proof.
  intros Hv H Hs Ho Hf. destruct (selection_spans unq input d sps Hv H Hs) as [K1 K2].
  unfold splicer_from. fold (splicer_from_str (d_content d)).
  rewrite (proj1 (parsed_document unq input d Hv H)) in *.
  destruct (splice_safe input sps ops Hv (in_order_ordered _ _ _ K1) K2 Ho Hf) as (st & edits & E & Eu & Ee & Ec).
  exists st, edits. repeat split; try assumption. intros Hd.
  destruct (splice_history input sps ops Hv K1 K2 Ho Hd Hf) as (st' & E' & Ec' & _).
  rewrite E in E'. injection E' as <-. exact Ec'.
Qed.

(** The exact text after any history, splices of emptied parts included ([splice_each] in
    SpecSplice.v) *)
Theorem C45_exact unq input d sps ops : valid_utf8 input = true -> parse unq input = Ok d ->
  selection (map instruction_part (d_instructions d)) sps ->
  (forall op, In op ops -> In (fst op) sps /\ valid_utf8 (snd op) = true) ->
  fits input ops ->
  exists st, splice_all (splicer_from d) ops = Ok st /\
    sp_content st = replaced input 0 (map (fun x => (fst x, fst (snd x) ++ snd (snd x))) (splice_each input sps ops)).
Proof.
  intros Hv H Hs Ho Hf. destruct (selection_spans unq input d sps Hv H Hs) as [K1 K2].
  unfold splicer_from. fold (splicer_from_str (d_content d)).
  rewrite (proj1 (parsed_document unq input d Hv H)) in *.
  apply splice_touching; try assumption; [exact (in_order_ordered _ _ _ K1)|exact (in_order_nodup _ _ _ K1)].
Qed.

(** Two spans of a result are apart, or one lies inside the other. *)
Theorem C45_nested_or_apart unq input d i j x y : valid_utf8 input = true -> parse unq input = Ok d ->
  In i (d_instructions d) -> In j (d_instructions d) ->
  In x (within (instruction_part i)) -> In y (within (instruction_part j)) ->
  let a := part_span x in let b := part_span y in
  inside a b \/ inside b a \/ s_end a <= s_start b \/ s_end b <= s_start a.
Proof.
  intros Hv H Hi Hj Hx Hy. cbv zeta.
  assert (O : forall k, In k (d_instructions d) -> ordered (instruction_part k))
    by (intros k Hk z Hz; eapply C05_parts_in_order; eassumption).
  apply (list_laminar (map instruction_part (d_instructions d)) 0 (length (d_content d))).
  - intros z Hz. apply in_map_iff in Hz. destruct Hz as (k & <- & Hk). apply within_laminar. apply O. exact Hk.
  - apply Forall_forall. intros z Hz. apply in_map_iff in Hz. destruct Hz as (k & <- & Hk). apply O. exact Hk.
  - rewrite map_map. apply (C06_instructions_in_order unq input d Hv H).
  - apply in_flat_map. exists (instruction_part i). split; [apply in_map; exact Hi|exact Hx].
  - apply in_flat_map. exists (instruction_part j). split; [apply in_map; exact Hj|exact Hy].
Qed.

(** The image and the alias of a FROM and the whole next instruction *)
Definition two_lines : bytes := bs "FROM a AS b" ++ [LF] ++ bs "RUN x".
Example C45_case : exists d, parse enquote_unquote two_lines = Ok d /\
  selection (map instruction_part (d_instructions d)) [Span 5 6; Span 10 11; Span 12 17] /\
  exists st, splice_all (splicer_from d)
    [(Span 12 17, bs "CMD y"); (Span 5 6, bs "alpine"); (Span 10 11, []); (Span 5 6, bs "z")] = Ok st /\
    sp_content st = bs "FROM z AS " ++ [LF] ++ bs "CMD y".
Proof.
  eexists. split; [vm_compute; reflexivity|]. split.
  - vm_compute.
    apply (select_inside _ _ [Span 5 6; Span 10 11] [Span 12 17]).
    + apply (select_part (Part (Span 5 6) _ _)), (select_part (Part (Span 10 11) _ _)), select_end.
    + apply (select_part (Part (Span 12 17) _ _)), select_end.
  - eexists. split; [vm_compute; reflexivity|reflexivity].
Qed.

(** The name and the arguments of an instruction without a rule of its own touch. *)
Example C45_exact_case : exists d, parse enquote_unquote (bs "SHELL x") = Ok d /\
  selection (map instruction_part (d_instructions d)) [Span 0 5; Span 5 7] /\
  exists st, splice_all (splicer_from d) [(Span 0 5, []); (Span 5 7, bs " y"); (Span 0 5, bs "USER"); (Span 0 5, bs "NEW")] = Ok st /\
    sp_content st = bs "NEWUSER y".
Proof.
  eexists. split; [vm_compute; reflexivity|]. split.
  - vm_compute. apply (select_inside _ _ [Span 0 5; Span 5 7] []); [|constructor].
    apply (select_part (Part (Span 0 5) _ _)), (select_part (Part (Span 5 7) _ _)), select_end.
  - eexists. split; [vm_compute; reflexivity|reflexivity].
Qed.

Print Assumptions C45_splice_parts.
Print Assumptions C45_exact.
Print Assumptions C45_nested_or_apart.

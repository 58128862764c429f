(** Comparing spans and strings, and building strings by hand (C52, C53). *)

From Coq Require Import String Permutation Sorted.
From Verif Require Import Bytes BytesFacts Grammar Peg Result Ast Order Splicer Image Convert Dockerfile Enquote
  SpecSplice SpecSyntax SpecParts ParseFacts PropsDoc PropsParse PropsEdit SpecOrder OrderFacts.
Local Open Scope nat_scope.

(** ** C52 *)
Theorem C52_total_orders :
  total_order span_cmp /\ total_order string_cmp /\ total_order comment_cmp /\
  total_order component_cmp /\ total_order breakable_cmp /\ total_order array_cmp.
Proof.
  exact (conj span_total (conj string_total (conj comment_total (conj component_total (conj breakable_total array_total))))).
Qed.

(** Any parts of a parsed document, none inside another: sorted by their spans they
    are in the order of the source. *)
Theorem C52_source_order unq input d sps l : valid_utf8 input = true -> parse unq input = Ok d ->
  selection (map instruction_part (d_instructions d)) sps ->
  Permutation l sps -> sorted_by span_cmp l -> l = sps.
Proof.
  intros Hv H Hs Hp Hl. destruct (selection_spans unq input d sps Hv H Hs) as [Ho _].
  apply (sorted_unique span_cmp); [exact span_total|exact Hp|exact Hl|]. apply (in_order_sorted _ _ _ Ho).
Qed.

(** The parts themselves are compared by their spans first: different spans decide. *)
Theorem C52_span_first a b x y u v :
  (span_cmp (ss_span a) (ss_span b) <> Eq -> string_cmp a b = span_cmp (ss_span a) (ss_span b)) /\
  (span_cmp (sc_span x) (sc_span y) <> Eq -> comment_cmp x y = span_cmp (sc_span x) (sc_span y)) /\
  (span_cmp (br_span u) (br_span v) <> Eq -> breakable_cmp u v = span_cmp (br_span u) (br_span v)).
Proof.
  unfold string_cmp, comment_cmp, breakable_cmp, then_cmp.
  split; [|split]; match goal with |- ?c <> Eq -> _ => destruct c; [intros K; elim K; reflexivity|reflexivity..] end.
Qed.

Definition commented : bytes := lines ["FROM a"; "RUN b \"; "# c"; "  d"]%string.

Example C52_case : exists d, parse enquote_unquote commented = Ok d /\
  selection (map instruction_part (d_instructions d)) [Span 0 6; Span 11 13; Span 15 18; Span 19 22] /\
  sorted_by span_cmp [Span 0 6; Span 11 13; Span 15 18; Span 19 22] /\
  ~ sorted_by span_cmp [Span 11 13; Span 0 6; Span 15 18; Span 19 22].
Proof.
  eexists. split; [vm_compute; reflexivity|]. split; [|split].
  - cbn. apply select_part. apply (select_inside _ _ [_; _; _] []); [|constructor].
    apply (select_inside _ _ [_; _; _] []); [|constructor]. cbn. repeat apply select_part. constructor.
  - repeat constructor; discriminate.
  - intros H. inversion H as [|? ? _ H']; subst. apply Forall_inv in H'. apply H'. reflexivity.
Qed.

(** The components of a command are not in the order of the source when they are
    sorted with their own order: every comment comes after every string. *)
Theorem C52_components_refuted : exists input d r b, valid_utf8 input = true /\
  parse enquote_unquote input = Ok d /\ In (IRun r) (d_instructions d) /\ run_expr r = Shell b /\
  ~ sorted_by component_cmp (br_components b).
Proof.
  exists commented. do 3 eexists. split; [reflexivity|]. split; [vm_compute; reflexivity|].
  split; [right; left; reflexivity|]. split; [reflexivity|].
  intros H. inversion H as [|? ? H' _]; subst. inversion H' as [|? ? _ H'']; subst.
  apply Forall_inv in H''. apply H''. reflexivity.
Qed.

(** ** C53 *)

(** A call of the methods that add to a breakable string *)
Inductive adding : Type :=
| AddString (s : span) (c : bytes)
| AddComment (s : span) (c : bytes)
| AddText (start stop : nat) (c : bytes)
| AddComponent (c : breakable_component).

Definition added (b : breakable_string) (a : adding) : breakable_string :=
  match a with
  | AddString s c => add_string b s c
  | AddComment s c => add_comment b s c
  | AddText start stop c => breakable_add b (component_from_text start stop c)
  | AddComponent (BString s) => breakable_add b (component_from_string s)
  | AddComponent (BComment s) => breakable_add b (component_from_comment s)
  end.

(** What the call adds: where, which text, and whether it is displayed *)
Definition adds (a : adding) : span * bytes * bool :=
  match a with
  | AddString s c => (s, c, true)
  | AddComment s c => (s, c, false)
  | AddText start stop c => (Span start stop, c, true)
  | AddComponent (BString s) => (ss_span s, ss_content s, true)
  | AddComponent (BComment s) => (sc_span s, sc_content s, false)
  end.
Definition is_added (c : breakable_component) : span * bytes * bool :=
  match c with
  | BString s => (ss_span s, ss_content s, true)
  | BComment s => (sc_span s, sc_content s, false)
  end.

(** However a breakable string is built, its components are what was added, in that
    order, its span is the one it was made with, and it displays the strings. *)
Theorem C53_builder sp calls : let b := fold_left added calls (breakable_new sp) in
  br_span b = sp /\ map is_added (br_components b) = map adds calls /\
  display_breakable b = concat (map (fun a => if snd (adds a) then snd (fst (adds a)) else []) calls).
Proof.
  cbv zeta. induction calls as [|a calls (I1 & I2 & I3)] using rev_ind; [auto|].
  rewrite fold_left_app. cbn [fold_left]. rewrite !map_app, concat_app.
  assert (Hd : forall l1 l2, display_components (l1 ++ l2) = display_components l1 ++ display_components l2).
  { intros l1 l2. induction l1 as [|[s|s] l1 IH]; cbn [app display_components]; [reflexivity| |exact IH].
    rewrite IH. apply app_assoc. }
  unfold display_breakable in *.
  destruct a as [s c|s c|s e c|[s|s]]; cbn [added add_string add_comment breakable_add br_span br_components component_from_text
    component_from_string component_from_comment]; rewrite map_app, I2, Hd, I3; auto.
Qed.

Theorem C53_from_text start stop c : let b := breakable_from_text start stop c in
  br_span b = Span start stop /\ map is_added (br_components b) = [(Span start stop, c, true)] /\
  display_breakable b = c.
Proof. split; [reflexivity|]. split; [reflexivity|]. apply app_nil_r. Qed.

(** The tree a test of the crate compares with, built by hand. *)
Example C53_case :
  let b := fold_left added [AddText 11 13 (bs "b "); AddComment (Span 15 18) (bs "# c"); AddString (Span 19 22) (bs "  d")]
             (breakable_new (Span 11 22)) in
  display_breakable b = bs "b   d" /\
  exists d, parse enquote_unquote commented = Ok d /\
    nth_error (d_instructions d) 1 = Some (IRun (RunInstruction (Span 7 22) (Shell b))).
Proof. split; [reflexivity|]. eexists. split; [vm_compute; reflexivity|reflexivity]. Qed.

Print Assumptions C52_total_orders.
Print Assumptions C52_source_order.
Print Assumptions C52_span_first.
Print Assumptions C52_components_refuted.
Print Assumptions C53_builder.
Print Assumptions C53_from_text.

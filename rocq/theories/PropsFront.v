(** Labels or environment variables taken out of an instruction in front of another one (C86).
    The notions used are those of SpecShrink.v. *)

From Coq Require Import String Permutation.
From Verif Require Import Bytes BytesFacts Grammar Peg Result Ast Splicer Image Convert Dockerfile Enquote
  SpecImage SpecSplice SplicerFacts SpecSyntax SpecClear SpecExact SpecMove SpecParts SpecDoc SpecReword SpecJoin SpecValues SpecKeys SpecShrink
  DocFacts ParseFacts SelectFacts PropsParse PropsDoc PropsEdit ParseEdit RewordDoc RewordFacts PropsJoin PropsBlocks PropsWrite ChangesFacts ValuesDoc PropsValues PropsKeys PropsGrow ShrinkDoc PropsShrink.
From Verif Require Sound.
Local Open Scope nat_scope.

Lemma front_boundaries unq input d i i' a e : valid_utf8 input = true -> parse unq input = Ok d -> In i (d_instructions d) -> drops_front a e i i' ->
  is_boundary input a = true /\ is_boundary input e = true.
Proof.
  intros V E Hi H. pose proof (parse_content _ _ _ E) as Ec.
  assert (Z : forall x, In x (parts i) -> is_boundary input (s_start (part_span x)) = true).
  { intros x Hx. assert (Hw : In x (within (instruction_part i))) by (right; apply in_flat_map; exists x; split; [exact Hx|destruct x; left; reflexivity]).
    pose proof (C03_spans_sliceable unq input d i x V E Hi Hw) as (_ & _ & Hb & _). rewrite Ec in Hb. exact Hb. }
  destruct H as [x l1 l out m l2 El <- <-|x l1 l out m l2 El <- <-]; cbn [parts] in Z.
  - split; [apply (Z (label_part l))|apply (Z (label_part m))]; apply in_map; rewrite El; apply in_or_app; right; [left; reflexivity|].
    right. apply in_or_app. right. left. reflexivity.
  - split; [apply (Z (var_part l))|apply (Z (var_part m))]; apply in_map; rewrite El; apply in_or_app; right; [left; reflexivity|].
    right. apply in_or_app. right. left. reflexivity.
Qed.

(** ** The pairs are gone, and nothing else changes *)

Theorem C86_fewer unq input d i i' a e A B : valid_utf8 input = true -> parse unq input = Ok d -> In i (d_instructions d) ->
  drops_front a e i i' -> A = firstn a input -> B = skipn e input -> begins_solid B -> quotes_apart A B ->
  lines_before (firstn (s_start (instruction_span i)) input) (skipn (s_start (instruction_span i)) input) ->
  fits input [(Span a e, [])] ->
  let g := replacement a e 0 in
  exists st l1 l2, splice (splicer_from d) (Span a e) [] = Ok st /\ sp_content st = A ++ B /\ d_instructions d = l1 ++ i :: l2 /\
    parse unq (A ++ B) = Ok (Dockerfile (A ++ B) (map (move_arg g) (d_global_args d)) (map (move_instruction g) (l1 ++ i' :: l2))).
Proof.
  intros V E Hi Hp EA EB Hn Hq Hl Hf.
  apply (fewer_parsed unq drops_front (fun _ x => begins_solid x) input d i i' a e A B front_later front_no_from (front_shrunk unq)); try assumption.
  - destruct Hp; exact I.
  - destruct Hp; exact I.
  - exact (front_boundaries _ _ _ _ _ _ _ V E Hi Hp).
Qed.

(** The pairs of the instruction, as contents *)
Theorem C86_pairs a e i i' f : drops_front a e i i' -> exists p1 x out y p2, pairs i = p1 ++ x :: out ++ y :: p2 /\ pairs (move_instruction f i') = p1 ++ y :: p2.
Proof.
  assert (Bd : forall b, display_breakable (move_breakable f b) = display_breakable b).
  { intros b. unfold display_breakable, move_breakable. cbn [br_components].
    induction (br_components b) as [|c l IH]; [reflexivity|]. cbn [map display_components]. rewrite IH. destruct c; reflexivity. }
  intros [x l1 l out m l2 El _ _|x l1 l out m l2 El _ _]; cbn [pairs move_instruction label_labels env_vars]; rewrite El, !map_map, !map_app; cbn [map]; rewrite !map_app; cbn [map];
    do 5 eexists; (split; [reflexivity|]).
  - reflexivity.
  - cbn [move_env ev_key ev_value]. f_equal; [|f_equal; [rewrite Bd; reflexivity|]]; apply map_ext; intros z; cbn [move_env ev_key ev_value]; rewrite Bd; reflexivity.
Qed.

(** ** Examples *)

(** The first three variables, with the end of the first line *)
Example C86_env_case : exists i' st d',
  parse enquote_unquote several = Ok several_doc /\ pairs (nth 0 (d_instructions several_doc) nothing) = [(bs "A", bs "1"); (bs "B", bs "2"); (bs "C", bs "3"); (bs "D", bs "4")] /\
  drops_front 4 16 (nth 0 (d_instructions several_doc) nothing) i' /\ begins_solid (skipn 16 several) /\
  quotes_apart (firstn 4 several) (skipn 16 several) /\ lines_before (firstn 0 several) (skipn 0 several) /\ fits several [(Span 4 16, [])] /\
  splice (splicer_from several_doc) (Span 4 16) [] = Ok st /\ sp_content st = bs "ENV C='3' D=4" ++ [LF] ++ bs "FROM a" /\
  parse enquote_unquote (sp_content st) = Ok d' /\ nth 0 (d_instructions d') nothing = move_instruction (replacement 4 16 0) i' /\
  pairs (nth 0 (d_instructions d') nothing) = [(bs "C", bs "3"); (bs "D", bs "4")] /\ map instruction_span (d_instructions d') = [Span 0 13; Span 14 20].
Proof.
  do 3 eexists. split; [vm_compute; reflexivity|]. split; [vm_compute; reflexivity|]. split.
  { eapply (front_var _ _ _ [] _ [_] _ [_]); reflexivity. }
  split; [eexists _, _; split; [vm_compute; reflexivity|]; split; [reflexivity|]; split; [reflexivity|]; split; discriminate|].
  split; [apply closed_apart; vm_compute; reflexivity|]. split; [exists []; split; [constructor|left; reflexivity]|].
  split; [vm_compute; reflexivity|]. split; [vm_compute; reflexivity|]. split; [vm_compute; reflexivity|]. split; [vm_compute; reflexivity|].
  split; [vm_compute; reflexivity|]. split; vm_compute; reflexivity.
Qed.

(** The first label of LABEL k="o p" "l m"=n, indented and after other lines *)
Example C86_label_case : exists i' st,
  drops_front 24 32 (nth 2 (d_instructions keyed_doc) nothing) i' /\ begins_solid (skipn 32 keyed) /\
  quotes_apart (firstn 24 keyed) (skipn 32 keyed) /\
  s_start (instruction_span (nth 2 (d_instructions keyed_doc) nothing)) = 18 /\ lines_before (firstn 18 keyed) (skipn 18 keyed) /\
  fits keyed [(Span 24 32, [])] /\
  splice (splicer_from keyed_doc) (Span 24 32) [] = Ok st /\ sp_content st = firstn 24 keyed ++ skipn 32 keyed /\
  option_map (fun d => pairs (nth 2 (d_instructions d) nothing)) (match parse enquote_unquote (sp_content st) with Ok d => Some d | _ => None end) = Some [(bs "l m", bs "n")].
Proof.
  do 2 eexists. split.
  { eapply (front_label _ _ _ [] _ [] _ []); reflexivity. }
  split; [eexists _, _; split; [vm_compute; reflexivity|]; split; [reflexivity|]; split; [reflexivity|]; split; discriminate|].
  split; [apply closed_apart; vm_compute; reflexivity|]. split; [reflexivity|]. split.
  { exists (bs "  "). split; [repeat constructor|]. right. exists (firstn 14 keyed), [CR; LF]. split; [reflexivity|]. split; [last_line 8 (firstn 14 keyed)|].
    split; [apply no_quote_before; repeat constructor; discriminate|]. split; [constructor|]. split; [discriminate|]. intros (t & K). discriminate K. }
  split; [vm_compute; reflexivity|]. split; [vm_compute; reflexivity|]. split; vm_compute; reflexivity.
Qed.

(** A name that begins with a number sign becomes a comment at the start of a line. *)
Definition signed : bytes := bs "LABEL b=2 \" ++ [LF] ++ bs "a=1 #c=3 \" ++ [LF] ++ bs "d=4".
Example C86_comment : exists d i' st d',
  parse enquote_unquote signed = Ok d /\ drops_front 12 16 (nth 0 (d_instructions d) nothing) i' /\ ~ begins_solid (skipn 16 signed) /\
  pairs (nth 0 (d_instructions d) nothing) = [(bs "b", bs "2"); (bs "a", bs "1"); (bs "#c", bs "3"); (bs "d", bs "4")] /\
  splice (splicer_from d) (Span 12 16) [] = Ok st /\ parse enquote_unquote (sp_content st) = Ok d' /\
  pairs (nth 0 (d_instructions d') nothing) = [(bs "b", bs "2"); (bs "d", bs "4")].
Proof.
  do 4 eexists. split; [vm_compute; reflexivity|]. split.
  { eapply (front_label _ _ _ [_] _ [] _ [_]); reflexivity. }
  split; [intros (c & t & K & _ & _ & Hc & _); vm_compute in K; injection K as <- _; apply Hc; reflexivity|].
  split; [vm_compute; reflexivity|]. split; [vm_compute; reflexivity|]. split; vm_compute; reflexivity.
Qed.

Print Assumptions C86_fewer.
Print Assumptions C86_pairs.

(** Labels or environment variables taken out of an instruction that has further ones before
    them (C85).  The notions used are those of SpecShrink.v. *)

From Coq Require Import String Permutation.
From Verif Require Import Bytes BytesFacts Grammar Peg Result Ast Splicer Image Convert Dockerfile Enquote
  SpecImage SpecSplice SplicerFacts SpecSyntax SpecClear SpecExact SpecMove SpecParts SpecDoc SpecReword SpecJoin SpecValues SpecKeys SpecShrink
  DocFacts ParseFacts SelectFacts PropsParse PropsDoc PropsEdit ParseEdit RewordDoc RewordFacts PropsJoin PropsBlocks PropsWrite ChangesFacts ValuesDoc PropsValues PropsKeys PropsGrow ShrinkDoc.
From Verif Require Sound Forward3 ReadsMove.
Local Open Scope nat_scope.

Lemma drops_boundaries unq input d i i' a e : valid_utf8 input = true -> parse unq input = Ok d -> In i (d_instructions d) -> drops a e i i' ->
  is_boundary input a = true /\ is_boundary input e = true.
Proof.
  intros V E Hi H. pose proof (parse_content _ _ _ E) as Ec.
  assert (Z : forall x, In x (parts i) -> is_boundary input (s_end (part_span x)) = true).
  { intros x Hx. assert (Hw : In x (within (instruction_part i))) by (right; apply in_flat_map; exists x; split; [exact Hx|destruct x; left; reflexivity]).
    pose proof (C03_spans_sliceable unq input d i x V E Hi Hw) as (_ & _ & _ & Hb). rewrite Ec in Hb. exact Hb. }
  destruct H as [x l1 l out m l2 El <- <-|x l1 l out m l2 El <- <-]; cbn [parts] in Z.
  - split; [apply (Z (label_part l))|apply (Z (label_part m))]; apply in_map; rewrite El; apply in_or_app; right; [left; reflexivity|].
    right. apply in_or_app. right. left. reflexivity.
  - split; [apply (Z (var_part l))|apply (Z (var_part m))]; apply in_map; rewrite El; apply in_or_app; right; [left; reflexivity|].
    right. apply in_or_app. right. left. reflexivity.
Qed.

(** The instruction changes, and is no ARG and no FROM. *)
Definition label_or_env (i : instruction) : Prop := match i with ILabel _ | IEnv _ => True | _ => False end.
Lemma before_swap i i' l2 : label_or_env i -> label_or_env i' -> forall l1 pre, before_first_from (l1 ++ i :: l2) pre ->
  exists pre', before_first_from (l1 ++ i' :: l2) pre' /\ args_among pre' = args_among pre.
Proof.
  intros H H'. induction l1 as [|x l1 IH]; intros pre (post & E & Hn & Hf).
  - destruct pre as [|y pre]; cbn [app] in E.
    + subst post. destruct i; try destruct H; discriminate Hf.
    + injection E as <- ->. inversion Hn as [|? ? _ Hn2]; subst. exists (i' :: pre). split.
      * exists post. split; [reflexivity|]. split; [constructor; [destruct i'; try destruct H'; reflexivity|exact Hn2]|exact Hf].
      * destruct i; try destruct H; destruct i'; try destruct H'; reflexivity.
  - destruct pre as [|y pre]; cbn [app] in E.
    + subst post. exists []. split; [|reflexivity]. exists (x :: l1 ++ i' :: l2). split; [reflexivity|]. split; [constructor|exact Hf].
    + injection E as <- E. inversion Hn as [|? ? Hx Hn2]; subst. destruct (IH pre) as (pre' & (post' & E' & K1 & K2) & K3); [exists post; auto|].
      exists (x :: pre'). split; [exists post'; split; [cbn [app]; rewrite E'; reflexivity|split; [constructor; assumption|exact K2]]|].
      unfold args_among in *. cbn [flat_map]. rewrite K3. reflexivity.
Qed.

Lemma fewer_parsed unq (cuts : nat -> nat -> instruction -> instruction -> Prop) (clean : bytes -> bytes -> Prop) input d i i' a e A B :
  (forall k m a e i i', cuts a e (later k m i) i' -> exists a0 e0 i0, a = k + a0 /\ e = k + e0 /\ i' = later k m i0 /\ cuts a0 e0 i i0) ->
  (forall a e i i', cuts a e i i' -> is_from_b i = false /\ is_from_b i' = false) ->
  (forall p w s i i' a e, instruction_reads unq p w s i -> Forward3.closed_end s -> cuts a e i i' ->
    exists wa X wb, w = wa ++ X ++ wb /\ wa <> [] /\ X <> [] /\ a = p + length wa /\ e = p + length wa + length X /\
    forall f P, ReadsMove.carries f p p (length wa) -> ReadsMove.carries f (p + length wa + length X) (p + length wa) (length wb) ->
    clean (P ++ wa) (wb ++ s) -> quotes_apart wa (wb ++ s) -> instruction_reads unq p (wa ++ wb) s (move_instruction f i')) ->
  valid_utf8 input = true -> parse unq input = Ok d -> In i (d_instructions d) ->
  cuts a e i i' -> label_or_env i -> label_or_env i' -> is_boundary input a = true /\ is_boundary input e = true ->
  A = firstn a input -> B = skipn e input -> clean A B -> quotes_apart A B ->
  lines_before (firstn (s_start (instruction_span i)) input) (skipn (s_start (instruction_span i)) input) ->
  fits input [(Span a e, [])] ->
  let g := replacement a e 0 in
  exists st l1 l2, splice (splicer_from d) (Span a e) [] = Ok st /\ sp_content st = A ++ B /\ d_instructions d = l1 ++ i :: l2 /\
    parse unq (A ++ B) = Ok (Dockerfile (A ++ B) (map (move_arg g) (d_global_args d)) (map (move_instruction g) (l1 ++ i' :: l2))).
Proof.
  intros K1 K2 K3 V E Hi Hp T1 T2 Hb EA EB Hn Hq Hl Hf. cbv zeta. pose proof (parse_content _ _ _ E) as Ec.
  destruct (pairs_dropped unq cuts clean K1 K2 K3 input d i i' a e A B V E Hi Hp EA EB Hn Hq Hl) as (L1 & L2 & K).
  destruct (splice_disjoint input [(Span a e, [])] [(Span a e, [])] V) as (st & Es & Et & Eu).
  - cbn [map fst in_order s_start s_end]. repeat split; lia.
  - intros x [<-|[]]. cbn [fst snd]. split; [exact (Hb)|reflexivity].
  - exact Hf.
  - apply Permutation_refl.
  - assert (Et' : sp_content st = A ++ B).
    { rewrite Et, EA, EB. cbn [replaced s_start s_end app]. unfold slice. cbn [skipn]. rewrite Nat.sub_0_r. reflexivity. }
    rewrite Et' in Eu. destruct (K Eu) as (l1 & l2 & d' & El & E' & Ec' & El'). exists st, l1, l2.
    unfold splice_all in Es. cbn [for_each fst snd] in Es. unfold splicer_from. rewrite Ec.
    split; [unfold splicer_from_str in Es; destruct (splice _ _ _); [exact Es|discriminate Es..]|]. split; [exact Et'|]. split; [exact El|].
    rewrite E'. f_equal. set (g := replacement a e 0) in *.
    destruct (parse_global_args _ _ _ E) as (pre & Hpre & Ea). destruct (parse_global_args _ _ _ E') as (pre2 & Hpre2 & Ea2).
    rewrite El in Hpre. destruct (before_swap _ _ _ T1 T2 _ _ Hpre) as (pre1 & Hpre1 & Ea1).
    rewrite El' in Hpre2. apply (before_map (move_instruction g)) in Hpre1; [|intros j; destruct j; reflexivity].
    pose proof (before_first_from_fun _ _ _ Hpre1 Hpre2) as Ep. rewrite <- Ep, args_further, Ea1, <- Ea in Ea2.
    rewrite <- El', <- Ea2, <- Ec'. destruct d'; reflexivity.
Qed.

(** ** The pairs are gone, and nothing else changes *)

Theorem C85_fewer unq input d i i' a e A B : valid_utf8 input = true -> parse unq input = Ok d -> In i (d_instructions d) ->
  drops a e i i' -> A = firstn a input -> B = skipn e input -> ~ ends_with_backslash A -> quotes_apart A B ->
  lines_before (firstn (s_start (instruction_span i)) input) (skipn (s_start (instruction_span i)) input) ->
  fits input [(Span a e, [])] ->
  let g := replacement a e 0 in
  exists st l1 l2, splice (splicer_from d) (Span a e) [] = Ok st /\ sp_content st = A ++ B /\ d_instructions d = l1 ++ i :: l2 /\
    parse unq (A ++ B) = Ok (Dockerfile (A ++ B) (map (move_arg g) (d_global_args d)) (map (move_instruction g) (l1 ++ i' :: l2))).
Proof.
  intros V E Hi Hp EA EB Hn Hq Hl Hf.
  apply (fewer_parsed unq drops (fun x _ => ~ ends_with_backslash x) input d i i' a e A B drops_later drops_no_from (drops_shrunk unq)); try assumption.
  - destruct Hp; exact I.
  - destruct Hp; exact I.
  - exact (drops_boundaries _ _ _ _ _ _ _ V E Hi Hp).
Qed.

(** The pairs of the instruction, as contents *)
Theorem C85_pairs a e i i' f : drops a e i i' -> exists p1 x out y p2, pairs i = p1 ++ x :: out ++ y :: p2 /\ pairs (move_instruction f i') = p1 ++ x :: p2.
Proof.
  assert (Bd : forall b, display_breakable (move_breakable f b) = display_breakable b).
  { intros b. unfold display_breakable, move_breakable. cbn [br_components].
    induction (br_components b) as [|c l IH]; [reflexivity|]. cbn [map display_components]. rewrite IH. destruct c; reflexivity. }
  intros [x l1 l out m l2 El _ _|x l1 l out m l2 El _ _]; cbn [pairs move_instruction label_labels env_vars]; rewrite El, !map_map, !map_app; cbn [map]; rewrite !map_app; cbn [map];
    do 5 eexists; (split; [reflexivity|]).
  - reflexivity.
  - cbn [move_env ev_key ev_value]. f_equal; [|f_equal; [rewrite Bd; reflexivity|]]; apply map_ext; intros z; cbn [move_env ev_key ev_value]; rewrite Bd; reflexivity.
Qed.

(** ** Examples *)

(** The second label of LABEL k="o p" "l m"=n, indented and after other lines *)
Example C85_label_case : exists i' st,
  drops 31 39 (nth 2 (d_instructions keyed_doc) nothing) i' /\ ~ ends_with_backslash (firstn 31 keyed) /\
  quotes_apart (firstn 31 keyed) (skipn 39 keyed) /\
  s_start (instruction_span (nth 2 (d_instructions keyed_doc) nothing)) = 18 /\ lines_before (firstn 18 keyed) (skipn 18 keyed) /\
  fits keyed [(Span 31 39, [])] /\
  splice (splicer_from keyed_doc) (Span 31 39) [] = Ok st /\ sp_content st = firstn 31 keyed ++ skipn 39 keyed /\
  option_map (fun d => pairs (nth 2 (d_instructions d) nothing)) (match parse enquote_unquote (sp_content st) with Ok d => Some d | _ => None end) = Some [(bs "k", bs "o p")].
Proof.
  do 2 eexists. split.
  { eapply (drops_label _ _ _ [] _ [] _ []); reflexivity. }
  split; [intros (u & K); apply (f_equal (@rev N)) in K; rewrite rev_app_distr in K; vm_compute in K; discriminate K|].
  split; [apply closed_apart; vm_compute; reflexivity|]. split; [reflexivity|]. split.
  { exists (bs "  "). split; [repeat constructor|]. right. exists (firstn 14 keyed), [CR; LF]. split; [reflexivity|]. split; [last_line 8 (firstn 14 keyed)|].
    split; [apply no_quote_before; repeat constructor; discriminate|]. split; [constructor|]. split; [discriminate|]. intros (t & K). discriminate K. }
  split; [vm_compute; reflexivity|]. split; [vm_compute; reflexivity|]. split; vm_compute; reflexivity.
Qed.

(** Two variables in the middle, one of them on a line of its own *)
Definition several : bytes := bs "ENV A=1 B=2 \" ++ [LF] ++ bs "  C='3' D=4" ++ [LF] ++ bs "FROM a".
Definition several_doc : dockerfile := Eval vm_compute in match parse enquote_unquote several with Ok d => d | _ => Dockerfile [] [] [] end.

Example C85_env_case : exists i' st d',
  parse enquote_unquote several = Ok several_doc /\ pairs (nth 0 (d_instructions several_doc) nothing) = [(bs "A", bs "1"); (bs "B", bs "2"); (bs "C", bs "3"); (bs "D", bs "4")] /\
  drops 7 21 (nth 0 (d_instructions several_doc) nothing) i' /\ ~ ends_with_backslash (firstn 7 several) /\
  quotes_apart (firstn 7 several) (skipn 21 several) /\ lines_before (firstn 0 several) (skipn 0 several) /\ fits several [(Span 7 21, [])] /\
  splice (splicer_from several_doc) (Span 7 21) [] = Ok st /\ sp_content st = bs "ENV A=1 D=4" ++ [LF] ++ bs "FROM a" /\
  parse enquote_unquote (sp_content st) = Ok d' /\ nth 0 (d_instructions d') nothing = move_instruction (replacement 7 21 0) i' /\
  pairs (nth 0 (d_instructions d') nothing) = [(bs "A", bs "1"); (bs "D", bs "4")] /\ map instruction_span (d_instructions d') = [Span 0 11; Span 12 18].
Proof.
  do 3 eexists. split; [vm_compute; reflexivity|]. split; [vm_compute; reflexivity|]. split.
  { eapply (drops_var _ _ _ [] _ [_] _ [_]); reflexivity. }
  split; [intros (u & K); apply (f_equal (@rev N)) in K; rewrite rev_app_distr in K; vm_compute in K; discriminate K|].
  split; [apply closed_apart; vm_compute; reflexivity|]. split; [exists []; split; [constructor|left; reflexivity]|].
  split; [vm_compute; reflexivity|]. split; [vm_compute; reflexivity|]. split; [vm_compute; reflexivity|]. split; [vm_compute; reflexivity|].
  split; [vm_compute; reflexivity|]. split; vm_compute; reflexivity.
Qed.

(** A backslash at the end of the pair before would continue the line. *)
Definition slashed : bytes := bs "LABEL a=b\ c=d" ++ [LF] ++ bs "RUN x".
Example C85_backslash : exists d i' st err,
  parse enquote_unquote slashed = Ok d /\ drops 10 14 (nth 0 (d_instructions d) nothing) i' /\ ends_with_backslash (firstn 10 slashed) /\
  splice (splicer_from d) (Span 10 14) [] = Ok st /\ sp_content st = bs "LABEL a=b\" ++ [LF] ++ bs "RUN x" /\ parse enquote_unquote (sp_content st) = Err err.
Proof.
  do 4 eexists. split; [vm_compute; reflexivity|]. split.
  { eapply (drops_label _ _ _ [] _ [] _ []); reflexivity. }
  split; [exists (bs "LABEL a=b"); reflexivity|]. split; [vm_compute; reflexivity|]. split; vm_compute; reflexivity.
Qed.

Print Assumptions C85_fewer.
Print Assumptions C85_pairs.

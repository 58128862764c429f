(** A value replaced by another value, quoted or not (C80).  The notions used are those of
    SpecValues.v. *)

From Coq Require Import String Permutation.
From Verif Require Import Bytes BytesFacts Grammar Peg Result Ast Splicer Image Convert Dockerfile Enquote
  SpecImage SpecSplice SplicerFacts SpecSyntax SpecClear SpecMove SpecParts SpecDoc SpecReword SpecJoin SpecValues
  DocFacts ParseFacts SelectFacts PropsParse PropsDoc PropsEdit ParseEdit RewordDoc RewordFacts PropsJoin PropsBlocks PropsWrite ChangesFacts ValuesDoc.
From Verif Require Sound.
Local Open Scope nat_scope.

Lemma value_places i sp : value_place i sp -> In sp (quotable_places i).
Proof.
  assert (C : forall e, element_place e sp -> In sp (command_places e)).
  { intros [e|a]; [intros []|]. intros (s & Hs & <-). apply in_map. exact Hs. }
  destruct i as [x|x|x|x|x|x|x|x|x]; cbn [value_place quotable_places]; intros H; try contradiction; try (apply C; exact H); destruct H as (s & Hs & <-).
  - rewrite Hs. right. left. reflexivity.
  - apply in_flat_map. exists s. split; [exact Hs|right; left; reflexivity].
  - apply in_flat_map. exists s. split; [exact Hs|right; left; reflexivity].
Qed.

Lemma with_value_away sp v i : ~ In sp (quotable_places i) -> with_value sp v i = i.
Proof.
  assert (St : forall s, ss_span s <> sp -> put_string sp v s = s).
  { intros s H. unfold put_string. destruct (span_eq_dec (ss_span s) sp); [contradiction|reflexivity]. }
  assert (Sb : forall s, br_span s <> sp -> put_value sp v s = s).
  { intros s H. unfold put_value. destruct (span_eq_dec (br_span s) sp); [contradiction|reflexivity]. }
  assert (Sc : forall e, ~ In sp (command_places e) -> put_command sp v e = e).
  { intros [e|[a l]] H; [reflexivity|]. cbn [put_command sa_span sa_elements]. do 2 f_equal. rewrite <- (map_id l) at 2. apply map_ext_in. intros s Hs.
    apply St. intros K. apply H. cbn [command_places sa_elements]. rewrite <- K. apply in_map. exact Hs. }
  destruct i as [x|x|x|x|x|x|x|x|x]; cbn [with_value quotable_places]; intros H; try reflexivity; f_equal; destruct x; cbn in H |- *; f_equal;
    try (apply Sc; exact H).
  - destruct arg_value as [s|]; cbn [option_map option_places] in *; [|reflexivity]. rewrite St; [reflexivity|]. intros K. apply H. right. left. exact K.
  - rewrite <- (map_id label_labels) at 2. apply map_ext_in. intros [ls ln lv] Hl. unfold put_label. cbn [lb_span lb_name lb_value]. f_equal. apply St.
    intros K. apply H. apply in_flat_map. eexists. split; [exact Hl|]. right. left. exact K.
  - rewrite <- (map_id env_vars) at 2. apply map_ext_in. intros [ls ln lv] Hl. unfold put_env. cbn [ev_span ev_key ev_value]. f_equal. apply Sb.
    intros K. apply H. apply in_flat_map. eexists. split; [exact Hl|]. right. left. exact K.
Qed.

Lemma args_with sp v g l : args_among (map (fun i => move_instruction g (with_value sp v i)) l) = map (fun x => move_arg g (put_arg sp v x)) (args_among l).
Proof.
  unfold args_among. induction l as [|i l IH]; [reflexivity|]. cbn [map flat_map]. rewrite IH, map_app. f_equal. destruct i; reflexivity.
Qed.

Lemma places_apart unq input d l1 i l2 sp j : valid_utf8 input = true -> parse unq input = Ok d -> d_instructions d = l1 ++ i :: l2 ->
  In sp (quotable_places i) -> In j (l1 ++ l2) -> ~ In sp (quotable_places j).
Proof.
  intros V E El Hi Hj Hin. destruct (selection_spans unq input d _ V E (places_selected (d_instructions d))) as [Ho _].
  apply in_order_nodup in Ho. rewrite El, flat_map_app in Ho. cbn [flat_map] in Ho. apply in_app_or in Hj.
  destruct (in_split _ _ Hi) as (p1 & p2 & Ep). rewrite Ep in Ho.
  replace (flat_map quotable_places l1 ++ (p1 ++ sp :: p2) ++ flat_map quotable_places l2)
    with ((flat_map quotable_places l1 ++ p1) ++ sp :: p2 ++ flat_map quotable_places l2) in Ho by (rewrite <- !app_assoc; reflexivity).
  apply NoDup_remove_2 in Ho. apply Ho. destruct Hj as [Hj|Hj].
  - apply in_or_app. left. apply in_or_app. left. apply in_flat_map. eauto.
  - apply in_or_app. right. apply in_or_app. right. apply in_flat_map. eauto.
Qed.

(** ** The value is replaced, and nothing else *)

Theorem C80_value unq input d i sp t v A B : valid_utf8 input = true -> parse unq input = Ok d -> In i (d_instructions d) ->
  value_place i sp -> A = firstn (s_start sp) input -> B = skipn (s_end sp) input -> valid_utf8 t = true ->
  value_text unq A i t v -> quotes_apart A (t ++ B) ->
  lines_before (firstn (s_start (instruction_span i)) input) (skipn (s_start (instruction_span i)) input) ->
  fits input [(sp, t)] ->
  exists st, splice (splicer_from d) sp t = Ok st /\ sp_content st = A ++ t ++ B /\
    parse unq (A ++ t ++ B) = Ok (value_changed sp t v (A ++ t ++ B) d).
Proof.
  intros V E Hi Hp EA EB Vt Hv Hq Hl Hf. pose proof (parse_content _ _ _ E) as Ec. pose proof (value_places _ _ Hp) as Hpl.
  destruct (place_bounded unq input d V E i sp Hi Hpl) as (L1 & L2 & Bd).
  destruct (splice_disjoint input [(sp, t)] [(sp, t)] V) as (st & Es & Et & Eu).
  - cbn [map fst in_order]. repeat split; lia.
  - intros e [<-|[]]. cbn [fst snd]. split; [exact Bd|exact Vt].
  - exact Hf.
  - apply Permutation_refl.
  - assert (Et' : sp_content st = A ++ t ++ B).
    { rewrite Et, EA, EB. cbn [replaced]. unfold slice. cbn [skipn]. rewrite Nat.sub_0_r. reflexivity. }
    rewrite Et' in Eu. exists st. unfold splice_all in Es. cbn [for_each fst snd] in Es. unfold splicer_from. rewrite Ec.
    split; [unfold splicer_from_str in Es; destruct (splice _ _ _); [exact Es|discriminate Es..]|]. split; [exact Et'|].
    destruct (value_replaced unq input d i sp t v A B V E Hi Hp EA EB Hv Hq Hl) as (_ & _ & K). destruct (K Eu) as (l1 & l2 & d' & El & E' & Ec' & El').
    rewrite E'. f_equal. set (g := replacement (s_start sp) (s_end sp) (length t)) in *.
    assert (Away : forall j, In j (l1 ++ l2) -> with_value sp v j = j).
    { intros j Hj. apply with_value_away. exact (places_apart unq input d l1 i l2 sp j V E El Hpl Hj). }
    assert (Ei : d_instructions d' = map (fun j => move_instruction g (with_value sp v j)) (d_instructions d)).
    { rewrite El', El, map_app. cbn [map]. f_equal; [|f_equal]; apply map_ext_in; intros j Hj; rewrite Away; auto using in_or_app. }
    destruct (parse_global_args _ _ _ E) as (pre & Hpre & Ea). destruct (parse_global_args _ _ _ E') as (pre2 & Hpre2 & Ea2).
    rewrite Ei in Hpre2. apply (before_map (fun j => move_instruction g (with_value sp v j))) in Hpre; [|intros j; destruct j; reflexivity].
    pose proof (before_first_from_fun _ _ _ Hpre Hpre2) as Ep. rewrite <- Ep, args_with, <- Ea in Ea2.
    unfold value_changed. cbv zeta. fold g. rewrite <- Ei, <- Ea2, <- Ec'. destruct d'; reflexivity.
Qed.

(** The other instructions only move. *)
Theorem C80_others unq input d i j sp t v content n m : valid_utf8 input = true -> parse unq input = Ok d ->
  nth_error (d_instructions d) n = Some i -> value_place i sp -> nth_error (d_instructions d) m = Some j -> m <> n ->
  nth_error (d_instructions (value_changed sp t v content d)) m =
    Some (move_instruction (replacement (s_start sp) (s_end sp) (length t)) j).
Proof.
  intros V E Hn Hp Hm Hne. cbn [value_changed d_instructions]. rewrite nth_error_map, Hm. cbn [option_map]. do 2 f_equal.
  apply with_value_away. destruct (nth_error_split _ _ Hn) as (l1 & l2 & El & Ll).
  apply (places_apart unq input d l1 i l2 sp j V E El (value_places _ _ Hp)). rewrite El in Hm. apply in_or_app.
  destruct (Nat.lt_ge_cases m n) as [L|L].
  - left. rewrite nth_error_app1 in Hm by lia. apply nth_error_In in Hm. exact Hm.
  - right. rewrite nth_error_app2 in Hm by lia. destruct (m - length l1) as [|k] eqn:Ek; [lia|]. cbn [nth_error] in Hm. apply nth_error_In in Hm. exact Hm.
Qed.

(** ** Any string can be put there, between quotes *)

Definition any_string (i : instruction) (s : bytes) : Prop :=
  match i with ILabel _ => PropsWrite.label_text s | _ => plain_text s end.

Lemma quote_value unq before i s : inverts unq -> (exists sp, value_place i sp) -> any_string i s -> value_text unq before i (quote s) s.
Proof.
  intros U (sp & Hp) Hs.
  assert (Q : plain_text s -> stands_for unq (quote s) s).
  { intros _. left. split; [|apply U]. exists DQUOTE. eexists. split; [reflexivity|left; reflexivity]. }
  destruct i as [x|x|x|x|x|x|x|x|x]; try (destruct Hp; fail); cbn [value_text any_string] in *.
  - split; [left; apply quote_text; exact Hs|apply Q; exact Hs].
  - left. exists (quote s). split; [apply quote_text; apply Hs|]. split; [apply quote_breaks; apply Hs|apply U].
  - split; [apply quote_text; exact Hs|apply U].
  - split; [apply quote_text; exact Hs|apply U].
  - split; [apply quote_text; exact Hs|apply U].
  - left. split; [apply quote_text; exact Hs|apply U].
Qed.

Theorem C80_any_string unq input d i sp s A B : inverts unq -> valid_utf8 input = true -> parse unq input = Ok d -> In i (d_instructions d) ->
  value_place i sp -> A = firstn (s_start sp) input -> B = skipn (s_end sp) input -> any_string i s ->
  quotes_apart A (quote s ++ B) ->
  lines_before (firstn (s_start (instruction_span i)) input) (skipn (s_start (instruction_span i)) input) ->
  fits input [(sp, quote s)] ->
  exists st, splice (splicer_from d) sp (quote s) = Ok st /\ sp_content st = A ++ quote s ++ B /\
    parse unq (A ++ quote s ++ B) = Ok (value_changed sp (quote s) s (A ++ quote s ++ B) d).
Proof.
  intros U V E Hi Hp EA EB Hs Hq Hl Hf. apply (C80_value unq input d i); try assumption.
  - apply quote_valid. destruct i; cbn [any_string] in Hs; apply Hs.
  - apply quote_value; eauto.
Qed.

(** ** Examples *)

(** Values of each kind; a quoted text, a word and a string with quotes in it are put there. *)
Definition valued : bytes := bs "ARG V=1" ++ [LF] ++ bs "FROM a" ++ [CR; LF] ++ bs "  LABEL k=""o p"" l=m" ++ [LF] ++ bs "ENV P ""q r""" ++ [LF] ++
  bs "CMD [""x"", 'y']" ++ [LF] ++ bs "FROM b".
Definition valued_doc : dockerfile := Eval vm_compute in match parse enquote_unquote valued with Ok d => d | _ => Dockerfile [] [] [] end.

Lemma valued_parsed : valid_utf8 valued = true /\ parse enquote_unquote valued = Ok valued_doc.
Proof. split; vm_compute; reflexivity. Qed.

Definition nothing : instruction := IRun (RunInstruction (Span 0 0) (Shell (BreakableString (Span 0 0) []))).

Ltac word_text := split; [split; [discriminate|]; split; [repeat constructor|reflexivity]|].

(** ARG V=1, on the first line, becomes ARG V=3.19. *)
Example C80_arg_case : exists st,
  value_place (nth 0 (d_instructions valued_doc) nothing) (Span 6 7) /\ new_word (bs "3.19") /\
  value_text enquote_unquote (firstn 6 valued) (nth 0 (d_instructions valued_doc) nothing) (bs "3.19") (bs "3.19") /\
  quotes_apart (firstn 6 valued) (bs "3.19" ++ skipn 7 valued) /\ lines_before (firstn 0 valued) (skipn 0 valued) /\
  fits valued [(Span 6 7, bs "3.19")] /\
  splice (splicer_from valued_doc) (Span 6 7) (bs "3.19") = Ok st /\
  sp_content st = bs "ARG V=3.19" ++ skipn 7 valued /\
  parse enquote_unquote (sp_content st) = Ok (value_changed (Span 6 7) (bs "3.19") (bs "3.19") (sp_content st) valued_doc) /\
  map (fun x => option_map ss_content (arg_value x)) (d_global_args (value_changed (Span 6 7) (bs "3.19") (bs "3.19") (sp_content st) valued_doc)) = [Some (bs "3.19")].
Proof.
  assert (W : new_word (bs "3.19")).
  { split; [split; [|split]|].
    - split; [discriminate|]. split; [repeat constructor|]; reflexivity.
    - intros [(t & K)|(t & K)]; discriminate K.
    - apply not_backslash. reflexivity.
    - do 2 eexists. split; [reflexivity|]. repeat split; discriminate. }
  eexists. split; [eexists; split; reflexivity|]. split; [exact W|]. split.
  { split; [right; exact W|]. right. split; [|reflexivity]. intros (c & t & K & H). vm_compute in K. injection K as <- _. destruct H as [H|[H|H]]; discriminate. }
  split; [apply no_quote_before; repeat constructor; discriminate|]. split; [exists []; split; [constructor|left; reflexivity]|].
  split; [vm_compute; reflexivity|]. split; [vm_compute; reflexivity|]. split; [vm_compute; reflexivity|]. split; vm_compute; reflexivity.
Qed.

(** The value of the second label, indented and after other lines, becomes a string with
    quotes and a backslash in it. *)
Definition odd_string : bytes := bs "it's ""C:\""".
Example C80_label_case : exists st,
  inverts enquote_unquote /\ value_place (nth 2 (d_instructions valued_doc) nothing) (Span 34 35) /\
  any_string (nth 2 (d_instructions valued_doc) nothing) odd_string /\
  quotes_apart (firstn 34 valued) (quote odd_string ++ skipn 35 valued) /\
  s_start (instruction_span (nth 2 (d_instructions valued_doc) nothing)) = 18 /\ lines_before (firstn 18 valued) (skipn 18 valued) /\
  fits valued [(Span 34 35, quote odd_string)] /\
  splice (splicer_from valued_doc) (Span 34 35) (quote odd_string) = Ok st /\
  sp_content st = firstn 34 valued ++ bs """it's \""C:\\\""""" ++ skipn 35 valued /\
  parse enquote_unquote (sp_content st) = Ok (value_changed (Span 34 35) (quote odd_string) odd_string (sp_content st) valued_doc) /\
  match nth 2 (d_instructions (value_changed (Span 34 35) (quote odd_string) odd_string (sp_content st) valued_doc)) nothing with
  | ILabel x => map (fun l => ss_content (lb_value l)) (label_labels x) = [bs "o p"; odd_string]
  | _ => False
  end.
Proof.
  eexists. split; [exact enquote_inverts|]. split; [eexists; split; [right; left; reflexivity|reflexivity]|]. split.
  { split; [split; [reflexivity|split; intros K; vm_compute in K; repeat (destruct K as [K|K]; [discriminate K|]); exact K]|].
    intros a b K. assert (In LF odd_string) as H by (rewrite K; apply in_or_app; right; right; left; reflexivity).
    vm_compute in H. repeat (destruct H as [H|H]; [discriminate H|]). exact H. }
  split; [apply closed_apart; vm_compute; reflexivity|]. split; [reflexivity|]. split.
  { exists (bs "  "). split; [repeat constructor|]. right. exists (firstn 14 valued), [CR; LF]. split; [reflexivity|]. split; [last_line 8 (firstn 14 valued)|].
    split; [apply no_quote_before; repeat constructor; discriminate|]. split; [constructor|]. split; [discriminate|]. intros (t & K). discriminate K. }
  split; [vm_compute; reflexivity|]. split; [vm_compute; reflexivity|]. split; [vm_compute; reflexivity|]. split; vm_compute; reflexivity.
Qed.

(** ENV P "q r" and CMD ["x", 'y']: another quoted text *)
Example C80_env_case : exists st,
  value_place (nth 3 (d_instructions valued_doc) nothing) (Span 42 47) /\
  value_text enquote_unquote (firstn 42 valued) (nth 3 (d_instructions valued_doc) nothing) (bs "'s'") (bs "s") /\
  quotes_apart (firstn 42 valued) (bs "'s'" ++ skipn 47 valued) /\ lines_before (firstn 36 valued) (skipn 36 valued) /\
  splice (splicer_from valued_doc) (Span 42 47) (bs "'s'") = Ok st /\ sp_content st = firstn 42 valued ++ bs "'s'" ++ skipn 47 valued /\
  parse enquote_unquote (sp_content st) = Ok (value_changed (Span 42 47) (bs "'s'") (bs "s") (sp_content st) valued_doc).
Proof.
  eexists. split; [eexists; split; [left; reflexivity|reflexivity]|]. split.
  { left. split; [|reflexivity]. exists SQUOTE, (bs "s"). split; [right; reflexivity|]. split; [reflexivity|]. split; [|reflexivity].
    constructor; [discriminate..|constructor]. }
  split; [apply closed_apart; vm_compute; reflexivity|]. split.
  { exists []. split; [constructor|]. right. exists (firstn 35 valued), [LF]. split; [reflexivity|]. split; [apply (complete_line (firstn 16 valued) (bs "  LABEL k=""o p"" l=m"))|].
    1: right; exists (firstn 15 valued), LF; split; reflexivity.
    1: repeat constructor.
    1: exists 76%N; split; [right; right; left; reflexivity|reflexivity].
    1: cbn; intros H; repeat (destruct H as [H|H]; [discriminate|]); exact H.
    1: apply not_backslash; vm_compute; reflexivity.
    split; [apply closed_apart; vm_compute; reflexivity|]. plain_break. }
  split; [vm_compute; reflexivity|]. split; [vm_compute; reflexivity|]. vm_compute. reflexivity.
Qed.
Example C80_exec_case : exists st,
  value_place (nth 4 (d_instructions valued_doc) nothing) (Span 58 61) /\
  element_text enquote_unquote (bs """a, b""") (bs "a, b") /\
  quotes_apart (firstn 58 valued) (bs """a, b""" ++ skipn 61 valued) /\ lines_before (firstn 48 valued) (skipn 48 valued) /\
  splice (splicer_from valued_doc) (Span 58 61) (bs """a, b""") = Ok st /\ sp_content st = firstn 58 valued ++ bs """a, b""" ++ skipn 61 valued /\
  parse enquote_unquote (sp_content st) = Ok (value_changed (Span 58 61) (bs """a, b""") (bs "a, b") (sp_content st) valued_doc).
Proof.
  eexists. split; [eexists; split; [right; left; reflexivity|reflexivity]|]. split.
  { split; [|reflexivity]. exists DQUOTE, (bs "a, b"). split; [left; reflexivity|]. split; [reflexivity|]. split; [|reflexivity].
    repeat (constructor; [discriminate..|]). constructor. }
  split; [apply closed_apart; vm_compute; reflexivity|]. split.
  { exists []. split; [constructor|]. right. exists (firstn 47 valued), [LF]. split; [reflexivity|]. split; [last_line 36 (firstn 47 valued)|].
    split; [apply closed_apart; vm_compute; reflexivity|]. plain_break. }
  split; [vm_compute; reflexivity|]. split; [vm_compute; reflexivity|]. vm_compute. reflexivity.
Qed.

(** The condition on quotes is needed: a quote in front that nothing closes is closed by
    the new value.  With a quoted value in the place of x the text is read otherwise. *)
Example C80_open_quote : exists d st, parse enquote_unquote (bs "ENV a=""b c=x") = Ok d /\
  value_place (nth 0 (d_instructions d) nothing) (Span 11 12) /\
  env_text enquote_unquote (bs "ENV a=""b c=") (bs """y""") (bs "y") /\ ~ quotes_apart (bs "ENV a=""b c=") (bs """y""") /\
  splice (splicer_from d) (Span 11 12) (bs """y""") = Ok st /\
  parse enquote_unquote (sp_content st) <> Ok (value_changed (Span 11 12) (bs """y""") (bs "y") (sp_content st) d).
Proof.
  do 2 eexists. split; [vm_compute; reflexivity|]. split; [eexists; split; [right; left; reflexivity|reflexivity]|]. split.
  { left. split; [|reflexivity]. exists DQUOTE, (bs "y"). split; [left; reflexivity|]. split; [reflexivity|]. split; [|reflexivity]. constructor; [discriminate..|constructor]. }
  split.
  { intros K. assert (L : length (bs "b c=") < length (bs "b c=")); [|lia].
    apply (K (bs "ENV a") EQUALS DQUOTE (bs "b c=") (bs "b c=") (bs "y""")); [reflexivity|reflexivity|left; reflexivity| |reflexivity].
    repeat (constructor; [discriminate..|]). constructor. }
  split; [vm_compute; reflexivity|]. vm_compute. discriminate.
Qed.

(** Without an equals sign a word is no value that ends: it goes on to the end of the line. *)
Example C80_env_word : exists d st, parse enquote_unquote (bs "ENV P ""q"" ") = Ok d /\ value_place (nth 0 (d_instructions d) nothing) (Span 6 9) /\
  ~ env_text enquote_unquote (bs "ENV P ") (bs "q") (bs "q") /\
  splice (splicer_from d) (Span 6 9) (bs "q") = Ok st /\
  parse enquote_unquote (sp_content st) <> Ok (value_changed (Span 6 9) (bs "q") (bs "q") (sp_content st) d).
Proof.
  do 2 eexists. split; [vm_compute; reflexivity|]. split; [eexists; split; [left; reflexivity|reflexivity]|]. split.
  { intros [[(q & body & Hq & K & _) _]|(_ & _ & a & K)].
    - apply (f_equal (hd 0%N)) in K. cbn [hd] in K. destruct Hq; subst q; vm_compute in K; discriminate.
    - apply (f_equal (fun l => last l 0%N)) in K. rewrite last_last in K. vm_compute in K. discriminate. }
  split; [vm_compute; reflexivity|]. vm_compute. discriminate.
Qed.

Print Assumptions C80_value.
Print Assumptions C80_others.
Print Assumptions C80_any_string.

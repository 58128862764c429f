(** The name of an ARG, of a label or of an environment variable replaced by another (C82).
    The notions used are those of SpecKeys.v. *)

From Coq Require Import String Permutation.
From Verif Require Import Bytes BytesFacts Grammar Peg Result Ast Splicer Image Convert Dockerfile Enquote
  SpecImage SpecSplice SplicerFacts SpecSyntax SpecClear SpecExact SpecMove SpecParts SpecDoc SpecReword SpecJoin SpecValues SpecKeys
  DocFacts ParseFacts SelectFacts PropsParse PropsDoc PropsEdit ParseEdit RewordDoc RewordFacts PropsJoin PropsBlocks PropsWrite ChangesFacts ValuesDoc PropsValues KeysDoc.
From Verif Require Sound.
Local Open Scope nat_scope.

Lemma name_places i sp : name_place i sp -> In sp (quotable_places i).
Proof.
  destruct i as [x|x|x|x|x|x|x|x|x]; cbn [name_place quotable_places]; intros H; try contradiction.
  - left. exact H.
  - destruct H as (s & Hs & <-). apply in_flat_map. exists s. split; [exact Hs|left; reflexivity].
  - destruct H as (s & Hs & <-). apply in_flat_map. exists s. split; [exact Hs|left; reflexivity].
Qed.

Lemma with_name_away sp v i : ~ In sp (quotable_places i) -> with_name sp v i = i.
Proof.
  assert (St : forall s, ss_span s <> sp -> put_string sp v s = s).
  { intros s H. unfold put_string. destruct (span_eq_dec (ss_span s) sp); [contradiction|reflexivity]. }
  destruct i as [x|x|x|x|x|x|x|x|x]; cbn [with_name quotable_places]; intros H; try reflexivity; f_equal.
  - unfold rename_arg. rewrite St; [destruct x; reflexivity|]. intros K. apply H. left. exact K.
  - destruct x as [xs xl]. cbn [label_span label_labels] in *. f_equal. rewrite <- (map_id xl) at 2. apply map_ext_in. intros [ls ln lv] Hl.
    unfold rename_label. cbn [lb_span lb_name lb_value]. f_equal. apply St.
    intros K. apply H. apply in_flat_map. eexists. split; [exact Hl|]. left. exact K.
  - destruct x as [xs xl]. cbn [env_span env_vars] in *. f_equal. rewrite <- (map_id xl) at 2. apply map_ext_in. intros [ls ln lv] Hl.
    unfold rename_env. cbn [ev_span ev_key ev_value]. f_equal. apply St.
    intros K. apply H. apply in_flat_map. eexists. split; [exact Hl|]. left. exact K.
Qed.

Lemma args_renamed sp v g l : args_among (map (fun i => move_instruction g (with_name sp v i)) l) = map (fun x => move_arg g (rename_arg sp v x)) (args_among l).
Proof.
  unfold args_among. induction l as [|i l IH]; [reflexivity|]. cbn [map flat_map]. rewrite IH, map_app. f_equal. destruct i; reflexivity.
Qed.

(** ** The name is replaced, and nothing else *)

Theorem C82_name unq input d i sp t v A B : valid_utf8 input = true -> parse unq input = Ok d -> In i (d_instructions d) ->
  name_place i sp -> A = firstn (s_start sp) input -> B = skipn (s_end sp) input -> valid_utf8 t = true ->
  name_text unq B i t v -> quotes_apart A (t ++ B) ->
  lines_before (firstn (s_start (instruction_span i)) input) (skipn (s_start (instruction_span i)) input) ->
  fits input [(sp, t)] ->
  exists st, splice (splicer_from d) sp t = Ok st /\ sp_content st = A ++ t ++ B /\
    parse unq (A ++ t ++ B) = Ok (name_changed sp t v (A ++ t ++ B) d).
Proof.
  intros V E Hi Hp EA EB Vt Hv Hq Hl Hf. pose proof (parse_content _ _ _ E) as Ec. pose proof (name_places _ _ Hp) as Hpl.
  destruct (place_bounded unq input d V E i sp Hi Hpl) as (L1 & L2 & Bd).
  destruct (splice_disjoint input [(sp, t)] [(sp, t)] V) as (st & Es & Et & Eu).
  - cbn [map fst in_order]. repeat split; lia.
  - intros e [<-|[]]. cbn [fst snd]. split; [exact Bd|exact Vt].
  - exact Hf.
  - apply Permutation_refl.
  - assert (Et' : sp_content st = A ++ t ++ B).
    { rewrite Et, EA, EB. cbn [replaced]. unfold slice. cbn [skipn]. rewrite Nat.sub_0_r. reflexivity. }
    rewrite Et' in Eu. exists st. unfold splice_all in Es. cbn [for_each fst snd] in Es. unfold splicer_from. rewrite Ec.
    split; [unfold splicer_from_str in Es; destruct (splice _ _ _); [exact Es|discriminate Es..]|]. split; [exact Et'|].
    destruct (name_replaced unq input d i sp t v A B V E Hi Hp EA EB Hv Hq Hl) as (_ & _ & K). destruct (K Eu) as (l1 & l2 & d' & El & E' & Ec' & El').
    rewrite E'. f_equal. set (g := replacement (s_start sp) (s_end sp) (length t)) in *.
    assert (Away : forall j, In j (l1 ++ l2) -> with_name sp v j = j).
    { intros j Hj. apply with_name_away. exact (places_apart unq input d l1 i l2 sp j V E El Hpl Hj). }
    assert (Ei : d_instructions d' = map (fun j => move_instruction g (with_name sp v j)) (d_instructions d)).
    { rewrite El', El, map_app. cbn [map]. f_equal; [|f_equal]; apply map_ext_in; intros j Hj; rewrite Away; auto using in_or_app. }
    destruct (parse_global_args _ _ _ E) as (pre & Hpre & Ea). destruct (parse_global_args _ _ _ E') as (pre2 & Hpre2 & Ea2).
    rewrite Ei in Hpre2. apply (before_map (fun j => move_instruction g (with_name sp v j))) in Hpre; [|intros j; destruct j; reflexivity].
    pose proof (before_first_from_fun _ _ _ Hpre Hpre2) as Ep. rewrite <- Ep, args_renamed, <- Ea in Ea2.
    unfold name_changed. cbv zeta. fold g. rewrite <- Ei, <- Ea2, <- Ec'. destruct d'; reflexivity.
Qed.

(** The other instructions only move. *)
Theorem C82_others unq input d i j sp t v content n m : valid_utf8 input = true -> parse unq input = Ok d ->
  nth_error (d_instructions d) n = Some i -> name_place i sp -> nth_error (d_instructions d) m = Some j -> m <> n ->
  nth_error (d_instructions (name_changed sp t v content d)) m =
    Some (move_instruction (replacement (s_start sp) (s_end sp) (length t)) j).
Proof.
  intros V E Hn Hp Hm Hne. cbn [name_changed d_instructions]. rewrite nth_error_map, Hm. cbn [option_map]. do 2 f_equal.
  apply with_name_away. destruct (nth_error_split _ _ Hn) as (l1 & l2 & El & Ll).
  apply (places_apart unq input d l1 i l2 sp j V E El (name_places _ _ Hp)). rewrite El in Hm. apply in_or_app.
  destruct (Nat.lt_ge_cases m n) as [L|L].
  - left. rewrite nth_error_app1 in Hm by lia. apply nth_error_In in Hm. exact Hm.
  - right. rewrite nth_error_app2 in Hm by lia. destruct (m - length l1) as [|k] eqn:Ek; [lia|]. cbn [nth_error] in Hm. apply nth_error_In in Hm. exact Hm.
Qed.

(** ** Names and values of the instruction itself *)

Definition names (i : instruction) : list spanned_string :=
  match i with
  | IArg x => [arg_name x]
  | ILabel x => map lb_name (label_labels x)
  | IEnv x => map ev_key (env_vars x)
  | _ => []
  end.
(** The contents of the values *)
Definition values (i : instruction) : list bytes :=
  match i with
  | IArg x => match arg_value x with Some s => [ss_content s] | None => [] end
  | ILabel x => map (fun l => ss_content (lb_value l)) (label_labels x)
  | IEnv x => map (fun e => display_breakable (ev_value e)) (env_vars x)
  | _ => []
  end.

Lemma names_distinct unq input d i k k' s s' : valid_utf8 input = true -> parse unq input = Ok d -> In i (d_instructions d) ->
  nth_error (names i) k = Some s -> nth_error (names i) k' = Some s' -> ss_span s = ss_span s' -> k = k'.
Proof.
  intros V E Hi Hs Hs' Es. destruct (selection_spans unq input d _ V E (places_selected (d_instructions d))) as [Ho _].
  apply in_order_nodup in Ho. apply in_split in Hi. destruct Hi as (l1 & l2 & El). rewrite El, flat_map_app in Ho. cbn [flat_map] in Ho.
  assert (Ni : NoDup (quotable_places i)).
  { clear - Ho. induction (flat_map quotable_places l1) as [|y l IH]; cbn [app] in Ho; [|inversion Ho; auto].
    induction (quotable_places i) as [|y l IH]; [constructor|]. cbn [app] in Ho. inversion Ho as [|? ? N1 N2]; subst.
    constructor; [|apply IH; exact N2]. intros K. apply N1. apply in_or_app. left. exact K. }
  assert (Nn : NoDup (map ss_span (names i))).
  { assert (Z : forall (T : Type) (f g : T -> span) l, NoDup (flat_map (fun x => [f x; g x]) l) -> NoDup (map f l)).
    { intros T f g l. induction l as [|x l IH]; intros N; [constructor|]. cbn [flat_map map app] in *. inversion N as [|? ? N1 N2]; subst.
      inversion N2 as [|? ? N3 N4]; subst. constructor; [|apply IH; exact N4]. intros K. apply N1. right. apply in_map_iff in K.
      destruct K as (y & Ey & Hy). rewrite <- Ey. apply in_flat_map. exists y. split; [exact Hy|left; reflexivity]. }
    destruct i as [x|x|x|x|x|x|x|x|x]; cbn [names map quotable_places] in *; try constructor.
    - intros [].
    - constructor.
    - rewrite map_map. exact (Z _ (fun l => ss_span (lb_name l)) (fun l => ss_span (lb_value l)) _ Ni).
    - rewrite map_map. exact (Z _ (fun l => ss_span (ev_key l)) (fun l => br_span (ev_value l)) _ Ni). }
  rewrite NoDup_nth_error in Nn. apply Nn.
  - apply nth_error_Some. rewrite nth_error_map, Hs. discriminate.
  - rewrite !nth_error_map, Hs, Hs'. cbn [option_map]. rewrite Es. reflexivity.
Qed.

(** The name that was at [sp] is [v], written in [length t] bytes at the same place; all
    other names of the instruction and all its values have their contents. *)
Theorem C82_own unq input d i sp t v content n k s : valid_utf8 input = true -> parse unq input = Ok d ->
  nth_error (d_instructions d) n = Some i -> nth_error (names i) k = Some s -> ss_span s = sp ->
  exists i', nth_error (d_instructions (name_changed sp t v content d)) n = Some i' /\
    nth_error (names i') k = Some (SpannedString (at_ (s_start sp) t) v) /\
    (forall k', k' <> k -> option_map ss_content (nth_error (names i') k') = option_map ss_content (nth_error (names i) k')) /\
    values i' = values i.
Proof.
  intros V E Hn Hk Es. pose proof (nth_error_In _ _ Hn) as Hi. set (g := replacement (s_start sp) (s_end sp) (length t)).
  assert (Hpl : name_place i sp).
  { pose proof (nth_error_In _ _ Hk) as K. destruct i as [x|x|x|x|x|x|x|x|x]; cbn [names] in K; try (destruct K; fail); cbn [name_place].
    - destruct K as [->|[]]. exact Es.
    - apply in_map_iff in K. destruct K as (l & <- & Hl). eauto.
    - apply in_map_iff in K. destruct K as (l & <- & Hl). eauto. }
  destruct (place_bounded unq input d V E i sp Hi (name_places _ _ Hpl)) as (L1 & _ & _).
  exists (move_instruction g (with_name sp v i)). split; [cbn [name_changed d_instructions]; rewrite nth_error_map, Hn; reflexivity|].
  assert (N : names (move_instruction g (with_name sp v i)) = map (fun x => move_string g (put_string sp v x)) (names i)).
  { destruct i as [x|x|x|x|x|x|x|x|x]; cbn [names with_name move_instruction map label_labels env_vars] in *; try reflexivity; rewrite !map_map; reflexivity. }
  rewrite N. split; [|split].
  - rewrite nth_error_map, Hk. cbn [option_map]. f_equal. unfold put_string. destruct (span_eq_dec (ss_span s) sp); [|contradiction].
    unfold move_string, move_span, g, replacement, at_. cbn [ss_span ss_content]. rewrite Nat.leb_refl. 
    destruct (Nat.leb_spec (s_end sp) (s_start sp)); [lia|]. do 2 f_equal. lia.
  - intros k' Hne. rewrite nth_error_map. destruct (nth_error (names i) k') as [s'|] eqn:E'; [|reflexivity]. cbn [option_map]. f_equal.
    unfold put_string. destruct (span_eq_dec (ss_span s') sp) as [K|K]; [|reflexivity]. exfalso. apply Hne.
    apply (names_distinct unq input d i k' k s' s V E Hi E' Hk). congruence.
  - assert (Bd : forall b, display_breakable (move_breakable g b) = display_breakable b).
    { intros b. unfold display_breakable, move_breakable. cbn [br_components].
      induction (br_components b) as [|c l IH]; [reflexivity|]. cbn [map display_components]. rewrite IH. destruct c; reflexivity. }
    destruct i as [x|x|x|x|x|x|x|x|x]; cbn [values with_name move_instruction label_labels env_vars]; try reflexivity.
    + unfold move_arg, rename_arg. cbn [arg_value]. destruct (arg_value x); reflexivity.
    + rewrite !map_map. reflexivity.
    + rewrite !map_map. apply map_ext. intros e. apply Bd.
Qed.

(** Any string can be the name of a label, between quotes. *)
Theorem C82_any_label unq input d x sp s A B : inverts unq -> valid_utf8 input = true -> parse unq input = Ok d -> In (ILabel x) (d_instructions d) ->
  name_place (ILabel x) sp -> A = firstn (s_start sp) input -> B = skipn (s_end sp) input -> PropsWrite.label_text s ->
  quotes_apart A (quote s ++ B) -> lines_before (firstn (s_start (label_span x)) input) (skipn (s_start (label_span x)) input) ->
  fits input [(sp, quote s)] ->
  exists st, splice (splicer_from d) sp (quote s) = Ok st /\ sp_content st = A ++ quote s ++ B /\
    parse unq (A ++ quote s ++ B) = Ok (name_changed sp (quote s) s (A ++ quote s ++ B) d).
Proof.
  intros U V E Hi Hp EA EB Hs Hq Hl Hf. apply (C82_name unq input d (ILabel x)); try assumption.
  - apply quote_valid. apply Hs.
  - left. exists (quote s). split; [apply quote_text; apply Hs|]. split; [apply quote_breaks; apply Hs|apply U].
Qed.

(** ** Examples *)

Definition keyed : bytes := bs "ARG V=1" ++ [LF] ++ bs "FROM a" ++ [CR; LF] ++ bs "  LABEL k=""o p"" ""l m""=n" ++ [LF] ++ bs "ENV A=b C='d'" ++ [LF] ++
  bs "ENV P q r" ++ [LF] ++ bs "FROM b".
Definition keyed_doc : dockerfile := Eval vm_compute in match parse enquote_unquote keyed with Ok d => d | _ => Dockerfile [] [] [] end.

Lemma keyed_parsed : valid_utf8 keyed = true /\ parse enquote_unquote keyed = Ok keyed_doc.
Proof. split; vm_compute; reflexivity. Qed.

(** ARG V=1, on the first line, becomes ARG VERSION=1. *)
Example C82_arg_case : exists st,
  name_place (nth 0 (d_instructions keyed_doc) nothing) (Span 4 5) /\
  name_text enquote_unquote (skipn 5 keyed) (nth 0 (d_instructions keyed_doc) nothing) (bs "VERSION") (bs "VERSION") /\
  quotes_apart (firstn 4 keyed) (bs "VERSION" ++ skipn 5 keyed) /\ lines_before (firstn 0 keyed) (skipn 0 keyed) /\
  fits keyed [(Span 4 5, bs "VERSION")] /\
  splice (splicer_from keyed_doc) (Span 4 5) (bs "VERSION") = Ok st /\ sp_content st = bs "ARG VERSION" ++ skipn 5 keyed /\
  parse enquote_unquote (sp_content st) = Ok (name_changed (Span 4 5) (bs "VERSION") (bs "VERSION") (sp_content st) keyed_doc) /\
  map (fun x => (arg_name x, option_map ss_content (arg_value x)))
    (d_global_args (name_changed (Span 4 5) (bs "VERSION") (bs "VERSION") (sp_content st) keyed_doc)) = [(SpannedString (Span 4 11) (bs "VERSION"), Some (bs "1"))].
Proof.
  eexists. split; [reflexivity|]. split.
  { split; [|reflexivity]. do 2 eexists. split; [reflexivity|]. split; [reflexivity|repeat constructor]. }
  split; [apply no_quote_before; repeat constructor; discriminate|]. split; [exists []; split; [constructor|left; reflexivity]|].
  split; [vm_compute; reflexivity|]. split; [vm_compute; reflexivity|]. split; [vm_compute; reflexivity|]. split; vm_compute; reflexivity.
Qed.

(** The second label, indented and after other lines: a quoted name becomes a word. *)
Example C82_label_case : exists st,
  name_place (nth 2 (d_instructions keyed_doc) nothing) (Span 32 37) /\
  name_text enquote_unquote (skipn 37 keyed) (nth 2 (d_instructions keyed_doc) nothing) (bs "org.x") (bs "org.x") /\
  quotes_apart (firstn 32 keyed) (bs "org.x" ++ skipn 37 keyed) /\
  s_start (instruction_span (nth 2 (d_instructions keyed_doc) nothing)) = 18 /\ lines_before (firstn 18 keyed) (skipn 18 keyed) /\
  fits keyed [(Span 32 37, bs "org.x")] /\
  splice (splicer_from keyed_doc) (Span 32 37) (bs "org.x") = Ok st /\ sp_content st = firstn 32 keyed ++ bs "org.x" ++ skipn 37 keyed /\
  parse enquote_unquote (sp_content st) = Ok (name_changed (Span 32 37) (bs "org.x") (bs "org.x") (sp_content st) keyed_doc) /\
  map ss_content (names (nth 2 (d_instructions (name_changed (Span 32 37) (bs "org.x") (bs "org.x") (sp_content st) keyed_doc)) nothing)) = [bs "k"; bs "org.x"] /\
  values (nth 2 (d_instructions (name_changed (Span 32 37) (bs "org.x") (bs "org.x") (sp_content st) keyed_doc)) nothing) = [bs "o p"; bs "n"].
Proof.
  eexists. split; [eexists; split; [right; left; reflexivity|reflexivity]|]. split.
  { right. split; [|split; [|split; [|split]]].
    - split; [discriminate|]. split; [|reflexivity]. repeat (constructor; [repeat split; discriminate|]). constructor.
    - do 2 eexists. split; [reflexivity|]. repeat split; discriminate.
    - intros [(t & K)|(t & K)]; discriminate K.
    - right. right. reflexivity.
    - right. split; [|reflexivity]. intros (c & t & K & H). vm_compute in K. injection K as <- _. destruct H as [H|[H|H]]; discriminate. }
  split; [apply closed_apart; vm_compute; reflexivity|]. split; [reflexivity|]. split.
  { exists (bs "  "). split; [repeat constructor|]. right. exists (firstn 14 keyed), [CR; LF]. split; [reflexivity|]. split; [last_line 8 (firstn 14 keyed)|].
    split; [apply no_quote_before; repeat constructor; discriminate|]. split; [constructor|]. split; [discriminate|]. intros (t & K). discriminate K. }
  split; [vm_compute; reflexivity|]. split; [vm_compute; reflexivity|]. split; [vm_compute; reflexivity|]. split; [vm_compute; reflexivity|]. split; vm_compute; reflexivity.
Qed.

(** The second variable of ENV A=b C='d' *)
Example C82_env_case : exists st,
  name_place (nth 3 (d_instructions keyed_doc) nothing) (Span 48 49) /\
  name_text enquote_unquote (skipn 49 keyed) (nth 3 (d_instructions keyed_doc) nothing) (bs "2D") (bs "2D") /\
  quotes_apart (firstn 48 keyed) (bs "2D" ++ skipn 49 keyed) /\
  s_start (instruction_span (nth 3 (d_instructions keyed_doc) nothing)) = 40 /\ lines_before (firstn 40 keyed) (skipn 40 keyed) /\
  fits keyed [(Span 48 49, bs "2D")] /\
  splice (splicer_from keyed_doc) (Span 48 49) (bs "2D") = Ok st /\ sp_content st = firstn 48 keyed ++ bs "2D" ++ skipn 49 keyed /\
  parse enquote_unquote (sp_content st) = Ok (name_changed (Span 48 49) (bs "2D") (bs "2D") (sp_content st) keyed_doc) /\
  map ss_content (names (nth 3 (d_instructions (name_changed (Span 48 49) (bs "2D") (bs "2D") (sp_content st) keyed_doc)) nothing)) = [bs "A"; bs "2D"].
Proof.
  eexists. split; [eexists; split; [right; left; reflexivity|reflexivity]|]. split; [split; [split; [discriminate|repeat constructor]|reflexivity]|].
  split; [apply closed_apart; vm_compute; reflexivity|]. split; [reflexivity|]. split.
  { exists []. split; [constructor|]. right. exists (firstn 39 keyed), [LF]. split; [reflexivity|]. split; [apply (complete_line (firstn 16 keyed) (bs "  LABEL k=""o p"" ""l m""=n"))|].
    1: right; exists (firstn 15 keyed), LF; split; reflexivity.
    1: repeat constructor.
    1: exists 76%N; split; [right; right; left; reflexivity|reflexivity].
    1: cbn; intros H; repeat (destruct H as [H|H]; [discriminate|]); exact H.
    1: apply not_backslash; vm_compute; reflexivity.
    split; [apply closed_apart; vm_compute; reflexivity|]. plain_break. }
  split; [vm_compute; reflexivity|]. split; [vm_compute; reflexivity|]. split; [vm_compute; reflexivity|]. split; vm_compute; reflexivity.
Qed.

(** What follows the name matters: after a quoted name a line continuation may come at
    once; a word would run on into it. *)
Definition run_on : bytes := bs "LABEL ""a""\" ++ [LF] ++ bs "  b".
Example C82_follows : exists d i st,
  parse enquote_unquote run_on = Ok d /\ d_instructions d = [i] /\ name_place i (Span 6 9) /\
  map ss_content (names i) = [bs "a"] /\ values i = [bs "b"] /\
  ~ label_over (skipn 9 run_on) /\ splice (splicer_from d) (Span 6 9) (bs "a") = Ok st /\ sp_content st = bs "LABEL a\" ++ [LF] ++ bs "  b" /\
  parse enquote_unquote (sp_content st) <> Ok (name_changed (Span 6 9) (bs "a") (bs "a") (sp_content st) d).
Proof.
  do 3 eexists. split; [vm_compute; reflexivity|]. split; [reflexivity|]. split; [eexists; split; [left; reflexivity|reflexivity]|].
  split; [reflexivity|]. split; [reflexivity|]. split; [intros [K|[K|K]]; discriminate K|]. split; [vm_compute; reflexivity|]. split; [reflexivity|].
  vm_compute. discriminate.
Qed.

Print Assumptions C82_name.
Print Assumptions C82_others.
Print Assumptions C82_own.
Print Assumptions C82_any_label.

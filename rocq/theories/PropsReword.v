(** Replacing a word after an equals sign (C74): the value of a build argument, of a
    flag, of a label or of a variable, or any other word of the text that follows an
    equals sign.  The notions used are those of SpecReword.v. *)

From Coq Require Import String Permutation.
From Verif Require Import Bytes BytesFacts Grammar Peg Result Ast Splicer Image Convert Dockerfile Enquote
  SpecSplice SplicerFacts SpecClear SpecSyntax SpecMove SpecParts SpecDoc DocFacts ParseFacts SelectFacts PropsParse PropsDoc PropsEdit
  SpecReword RewordDoc RewordFacts.
Local Open Scope nat_scope.

(** ** The word anywhere in the text *)

Theorem C74_reworded unq a old new b d : valid_utf8 (a ++ [EQUALS] ++ old ++ b) = true -> plain_text old -> plain_text new ->
  parse unq (a ++ [EQUALS] ++ old ++ b) = Ok d ->
  (forall i sp, In i (d_instructions d) -> In sp (quotable_places i) ->
    around (length (a ++ [EQUALS])) (length (a ++ [EQUALS]) + length old) sp = true -> ~ begins_quoted (text_at (a ++ [EQUALS] ++ old ++ b) sp)) ->
  valid_utf8 (a ++ [EQUALS] ++ new ++ b) = true /\
  parse unq (a ++ [EQUALS] ++ new ++ b) =
    Ok (reword_dockerfile (length (a ++ [EQUALS])) (length (a ++ [EQUALS]) + length old) new (a ++ [EQUALS] ++ new ++ b) d).
Proof. apply parse_reworded. Qed.


(** Whether the text is accepted does not depend on the word. *)
Theorem C74_rejected unq a old new b : valid_utf8 (a ++ [EQUALS] ++ old ++ b) = true -> plain_text old -> plain_text new ->
  parse unq (a ++ [EQUALS] ++ old ++ b) = Err EParse -> parse unq (a ++ [EQUALS] ++ new ++ b) = Err EParse.
Proof. apply reword_rejected. Qed.

(** ** The value of an instruction *)

(** A string of the result, unquoted and after an equals sign, is replaced through the
    splicer: the instructions before and after move, in the instruction only the string
    changes. *)
Theorem C74_value unq input d l1 i l2 sp a new : valid_utf8 input = true -> parse unq input = Ok d ->
  d_instructions d = l1 ++ i :: l2 -> In sp (quotable_places i) ->
  firstn (s_start sp) input = a ++ [EQUALS] -> plain_text (text_at input sp) -> plain_text new -> fits input [(sp, new)] ->
  exists st, splice (splicer_from d) sp new = Ok st /\
    sp_content st = firstn (s_start sp) input ++ new ++ skipn (s_end sp) input /\
    (forall y, In y (flat_map quotable_places (d_instructions d)) -> y <> sp -> around (s_start sp) (s_end sp) y = false) /\
    forall g, g = replacement (s_start sp) (s_end sp) (length new) ->
      parse unq (sp_content st) = Ok (Dockerfile (sp_content st) (map (reword_arg (s_start sp) (s_end sp) new) (d_global_args d))
        (map (move_instruction g) l1 ++ reword_instruction (s_start sp) (s_end sp) new i :: map (move_instruction g) l2)).
Proof.
  intros V E El Hsp Ha HX HY Hf. pose proof (parse_content _ _ _ E) as Ec.
  assert (Hi : In i (d_instructions d)) by (rewrite El; apply in_or_app; right; left; reflexivity).
  destruct (selection_spans unq input d _ V E (places_selected (d_instructions d))) as [Ho Hb].
  assert (Hin : In sp (flat_map quotable_places (d_instructions d))) by (apply in_flat_map; exists i; auto).
  destruct (in_order_bounds _ _ _ _ Ho Hin) as (_ & L1 & L2). rewrite Ec in *.
  assert (Far : forall y, In y (flat_map quotable_places (d_instructions d)) -> y <> sp -> around (s_start sp) (s_end sp) y = false).
  { intros y Hy Hne. destruct (in_order_disjoint _ _ _ _ _ Ho Hy Hin) as [->|D]; [congruence|]. unfold around.
    destruct (in_order_bounds _ _ _ _ Ho Hy) as (_ & L3 & _).
    destruct (Nat.leb_spec (s_start y) (s_start sp)); [|reflexivity]. destruct (Nat.leb_spec (s_end sp) (s_end y)); [|reflexivity].
    unfold disjoint in D. lia. }
  destruct (splice_alone unq input d sp new V E) as (st & Es & Et); [split; [lia|split; [lia|apply Hb; exact Hin]]|lia|apply HY|exact Hf|].
  exists st. split; [exact Es|]. split; [exact Et|]. split; [exact Far|]. intros g ->. rewrite Et.
  assert (Ei : input = a ++ [EQUALS] ++ text_at input sp ++ skipn (s_end sp) input).
  { rewrite (app_assoc a), <- Ha. unfold text_at, slice.
    rewrite <- (firstn_skipn (s_start sp) input) at 1. f_equal.
    rewrite <- (firstn_skipn (s_end sp - s_start sp) (skipn (s_start sp) input)) at 1. f_equal. rewrite skipn_skipn. f_equal. lia. }
  assert (La : length (a ++ [EQUALS]) = s_start sp) by (rewrite <- Ha, firstn_length; lia).
  assert (Lt : s_start sp + length (text_at input sp) = s_end sp).
  { unfold text_at, slice. rewrite firstn_length, skipn_length. lia. }
  pose proof V as V2. pose proof E as E2. rewrite Ei in V2, E2.
  destruct (parse_reworded unq a (text_at input sp) new (skipn (s_end sp) input) d V2 HX HY E2) as [_ K].
  { rewrite La, Lt, <- Ei. intros j y Hj Hy Hr. destruct (span_eq_dec y sp) as [->|Hne].
    - pose proof (plain_unquoted _ HX) as [_ Hq]. intros Hb'. apply (Sound.starts_quoted_spec (fun _ => None) []) in Hb'. congruence.
    - rewrite Far in Hr; [discriminate| |exact Hne]. apply in_flat_map. exists j. auto. }
  rewrite La, Lt in K. rewrite (app_assoc a), <- Ha in K. rewrite K. f_equal. unfold reword_dockerfile. f_equal.
  rewrite El, map_app. cbn [map].
  assert (Out : forall j, In j l1 \/ In j l2 -> reword_instruction (s_start sp) (s_end sp) new j =
    move_instruction (replacement (s_start sp) (s_end sp) (length new)) j).
  { intros j Hj. apply away_instruction. intros y Hy.
    assert (Hjd : In j (d_instructions d)) by (rewrite El; apply in_or_app; destruct Hj; [left|right; right]; assumption).
    assert (Or : forall k, In k (d_instructions d) -> ordered (instruction_part k)).
    { intros k Hk z Hz. eapply C05_parts_in_order; eassumption. }
    pose proof (within_inside _ (Or j Hjd) y Hy) as I1.
    destruct (selection_in _ _ sp (places_selected [i])) as (x & z & Hx & Hz & Ez); [apply in_flat_map; exists i; split; [left; reflexivity|exact Hsp]|].
    destruct Hx as [<-|[]]. pose proof (within_inside _ (Or i Hi) z Hz) as I2. rewrite <- Ez in I2. cbn [instruction_part part_span] in I1, I2.
    pose proof (C06_instructions_in_order unq input d V E) as Oi. rewrite El, map_app in Oi. cbn [map] in Oi.
    assert (D : disjoint (instruction_span j) (instruction_span i)).
    { destruct Hj as [Hj|Hj].
      - apply in_order_app in Oi. destruct Oi as [_ Oi]. left. apply Oi; [left; reflexivity|apply in_map; exact Hj].
      - change (instruction_span i :: map instruction_span l2) with ([instruction_span i] ++ map instruction_span l2) in Oi.
        rewrite app_assoc in Oi. apply in_order_app in Oi. destruct Oi as [_ Oi]. right.
        apply Oi; [apply in_map; exact Hj|apply in_or_app; right; left; reflexivity]. }
    unfold around. destruct (Nat.leb_spec (s_start (part_span y)) (s_start sp)); [|reflexivity].
    destruct (Nat.leb_spec (s_end sp) (s_end (part_span y))); [|reflexivity]. unfold disjoint, inside in *. lia. }
  f_equal; [|f_equal]; apply map_ext_in; intros j Hj; apply Out; auto.
Qed.

(** The string at the place is then the new text. *)
Theorem C74_new_string unq input d i x new : valid_utf8 input = true -> parse unq input = Ok d ->
  In i (d_instructions d) -> In (string_part x) (within (instruction_part i)) -> plain_text (text_at input (ss_span x)) ->
  reword_string (s_start (ss_span x)) (s_end (ss_span x)) new x =
    SpannedString (Span (s_start (ss_span x)) (s_start (ss_span x) + length new)) new.
Proof.
  intros V E Hi Hx Hq. pose proof (parse_content _ _ _ E) as Ec.
  pose proof (C04_unquoted unq input d i (string_part x) (ss_content x) V E Hi Hx eq_refl) as K. rewrite Ec in K.
  cbn [string_part part_span] in K. pose proof (C03_spans_sliceable unq input d i (string_part x) V E Hi Hx) as (L1 & L2 & _).
  cbn [string_part part_span] in L1, L2. rewrite Ec in L2.
  assert (Hlt : s_start (ss_span x) < s_end (ss_span x)).
  { destruct Hq as (_ & Hn & _). destruct (Nat.eq_dec (s_start (ss_span x)) (s_end (ss_span x))) as [Ee|]; [|lia]. exfalso. apply Hn.
    unfold text_at, slice. rewrite Ee, Nat.sub_diag. reflexivity. }
  destruct (plain_unquoted _ Hq) as [_ Hq']. specialize (K ltac:(intros Hb; apply (Sound.starts_quoted_spec (fun _ => None) []) in Hb; congruence)).
  unfold reword_string, reword_text, around. rewrite !Nat.leb_refl. cbn [andb]. rewrite Nat.sub_diag. cbn [firstn app].
  assert (Lc : length (ss_content x) = s_end (ss_span x) - s_start (ss_span x)).
  { rewrite K. unfold text_at, slice. rewrite firstn_length, skipn_length. lia. }
  rewrite skipn_all2 by lia. rewrite app_nil_r. f_equal. unfold move_span, replacement. rewrite Nat.leb_refl.
  f_equal. destruct (Nat.leb_spec (s_end (ss_span x)) (s_start (ss_span x))); lia.
Qed.

(** The value of an ARG and the values of the flags always follow an equals sign. *)
Definition always_assigned (i : instruction) : list span :=
  match i with
  | IFrom x => map (fun f => ss_span (fl_value f)) (from_flags x)
  | ICopy x => map (fun f => ss_span (fl_value f)) (copy_flags x)
  | IArg x => option_places (arg_value x)
  | _ => []
  end.

Theorem C74_after_equals unq input d i sp : valid_utf8 input = true -> parse unq input = Ok d -> In i (d_instructions d) ->
  In sp (always_assigned i) -> In sp (quotable_places i) /\ exists a, firstn (s_start sp) input = a ++ [EQUALS].
Proof.
  intros V E Hi Hsp. destruct (parsed_instruction unq input d V E i Hi) as (p & w & Hp & K).
  assert (Front : forall a n b, input = a ++ n :: b -> forall k, k = length a + 1 -> firstn k input = a ++ [n]).
  { intros a n b -> k ->. rewrite firstn_app. rewrite firstn_all2 by lia. replace (length a + 1 - length a) with 1 by lia. reflexivity. }
  assert (Flags : forall p w l, spaced (flag_at unq) p w l -> forall pre post, input = pre ++ w ++ post -> p = length pre ->
    forall f, In f l -> exists a, firstn (s_start (ss_span (fl_value f))) input = a ++ [EQUALS]).
  { intros p' w' l Hl. induction Hl as [|p' k gp w' f' w2 l _ _ Hat _ IH]; intros pre post Ei -> f Hf; [destruct Hf|].
    destruct Hf as [->|Hf].
    - destruct Hat as (name & value & s & -> & _ & _ & (u & _ & ->) & ->). cbn [fl_value ss_span].
      exists (pre ++ gp ++ [DASH; DASH] ++ name). apply (Front _ _ (value ++ w2 ++ post)).
      + rewrite Ei. rewrite <- !app_assoc. reflexivity.
      + unfold at_. cbn [s_start]. rewrite !app_length. cbn [length]. lia.
    - apply (IH (pre ++ gp ++ w') post); [rewrite Ei; rewrite <- !app_assoc; reflexivity|rewrite !app_length; lia|exact Hf]. }
  destruct Hp as (pre & post & Ei & -> & _).
  destruct i as [x|x|x|x|x|x|x|x|x]; cbn [always_assigned In] in Hsp; try contradiction.
  - apply in_map_iff in Hsp. destruct Hsp as (f & <- & Hf). split.
    + cbn [quotable_places]. apply in_or_app. left. apply in_flat_map. exists f. split; [exact Hf|right; left; reflexivity].
    + cbn [instruction_at] in K. destruct K as (kw & fl & k & gp & img & al & -> & _ & Hl & _).
      apply (Flags _ _ _ Hl (pre ++ kw) (gp ++ img ++ al ++ post)); [rewrite Ei; rewrite <- !app_assoc; reflexivity|rewrite app_length; reflexivity|exact Hf].
  - destruct (arg_value x) as [v|] eqn:Ev; [|destruct Hsp]. destruct Hsp as [<-|[]]. split; [cbn [quotable_places]; rewrite Ev; right; left; reflexivity|].
    cbn [instruction_at] in K. destruct K as (kw & k & gp & name & rest & -> & _ & _ & _ & _ & _ & _ & [[_ K]|K]); [congruence|].
    destruct K as (value & v' & -> & _ & (u & _ & ->) & K). rewrite Ev in K. injection K as ->.
    exists (pre ++ kw ++ gp ++ name). apply (Front _ _ (value ++ post)).
    + rewrite Ei. rewrite <- !app_assoc. reflexivity.
    + cbn [ss_span]. unfold at_. cbn [s_start]. rewrite !app_length. lia.
  - apply in_map_iff in Hsp. destruct Hsp as (f & <- & Hf). split.
    + cbn [quotable_places]. apply in_or_app. left. apply in_flat_map. exists f. split; [exact Hf|right; left; reflexivity].
    + cbn [instruction_at] in K. destruct K as (kw & fl & paths & -> & _ & Hl & _).
      apply (Flags _ _ _ Hl (pre ++ kw) (paths ++ post)); [rewrite Ei; rewrite <- !app_assoc; reflexivity|rewrite app_length; reflexivity|exact Hf].
Qed.

(** The default of an ARG *)
Theorem C74_arg_default unq input d l1 x l2 v new : valid_utf8 input = true -> parse unq input = Ok d ->
  d_instructions d = l1 ++ IArg x :: l2 -> arg_value x = Some v -> plain_text (text_at input (ss_span v)) -> plain_text new ->
  fits input [(ss_span v, new)] ->
  exists st, splice (splicer_from d) (ss_span v) new = Ok st /\
    sp_content st = firstn (s_start (ss_span v)) input ++ new ++ skipn (s_end (ss_span v)) input /\
    forall g, g = replacement (s_start (ss_span v)) (s_end (ss_span v)) (length new) ->
      parse unq (sp_content st) = Ok (Dockerfile (sp_content st)
        (map (reword_arg (s_start (ss_span v)) (s_end (ss_span v)) new) (d_global_args d))
        (map (move_instruction g) l1 ++
         IArg (ArgInstruction (move_span g (arg_span x)) (arg_name x)
                 (Some (SpannedString (Span (s_start (ss_span v)) (s_start (ss_span v) + length new)) new))) ::
         map (move_instruction g) l2)).
Proof.
  intros V E El Ev HX HY Hf.
  assert (Hi : In (IArg x) (d_instructions d)) by (rewrite El; apply in_or_app; right; left; reflexivity).
  destruct (C74_after_equals unq input d (IArg x) (ss_span v) V E Hi) as [Hq (a & Ha)].
  { cbn [always_assigned]. rewrite Ev. left. reflexivity. }
  destruct (C74_value unq input d l1 (IArg x) l2 (ss_span v) a new V E El Hq Ha HX HY Hf) as (st & Es & Et & _ & K).
  exists st. split; [exact Es|]. split; [exact Et|]. intros g Eg. specialize (K g Eg).
  rewrite K. f_equal. f_equal. f_equal. f_equal. cbn [reword_instruction]. f_equal. unfold reword_arg. rewrite <- Eg, Ev. cbn [option_map].
  rewrite (C74_new_string unq input d (IArg x) v new V E Hi); [|right; cbn [parts flat_map]; apply in_or_app; right; rewrite Ev; left; reflexivity|exact HX].
  f_equal. destruct (parsed_instruction unq input d V E _ Hi) as (p & w & _ & L). cbn [instruction_at] in L.
  destruct L as (kw & k & gp & name & rest & -> & _ & _ & _ & _ & En & _ & [[_ L]|L]); [congruence|].
  destruct L as (value & v' & -> & _ & (u & _ & ->) & L). rewrite Ev in L. injection L as ->. rewrite En. cbn [ss_span].
  unfold reword_string, reword_text, around, move_span, replacement, at_. cbn [ss_span s_start s_end ss_content].
  destruct (Nat.leb_spec (p + length kw + length gp) (p + length kw + length gp + length name + 1)); [|lia].
  destruct (Nat.leb_spec (p + length kw + length gp + length name) (p + length kw + length gp + length name + 1)); [|lia].
  match goal with |- context [?u <=? ?v] => destruct (Nat.leb_spec u v); [lia|] end. reflexivity.
Qed.

(** ** Cases *)

Ltac plain := split; [vm_compute; reflexivity|]; split; [discriminate|];
  split; [repeat constructor|intros (? & K); vm_compute in K; discriminate].

(** A word inside a command *)
Definition command_before : bytes := bs "FROM a" ++ [LF] ++ bs "RUN make V".
Definition command_after : bytes := bs " all \" ++ [LF] ++ bs "# c" ++ [LF] ++ bs " x=""y z""" ++ [LF] ++ bs "LABEL k=v".
Example C74_case : plain_text (bs "1") /\ plain_text (bs "two{$3}") /\
  exists d d', parse enquote_unquote (command_before ++ [EQUALS] ++ bs "1" ++ command_after) = Ok d /\
  (forall i sp, In i (d_instructions d) -> In sp (quotable_places i) ->
    around (length (command_before ++ [EQUALS])) (length (command_before ++ [EQUALS]) + length (bs "1")) sp = true ->
    ~ begins_quoted (text_at (command_before ++ [EQUALS] ++ bs "1" ++ command_after) sp)) /\
  parse enquote_unquote (command_before ++ [EQUALS] ++ bs "two{$3}" ++ command_after) = Ok d' /\
  map instruction_span (d_instructions d) = [Span 0 6; Span 7 38; Span 39 48] /\
  map instruction_span (d_instructions d') = [Span 0 6; Span 7 44; Span 45 54] /\
  match d_instructions d' with
  | [_; IRun (RunInstruction _ (Shell s)); _] =>
    map (fun c => match c with BString x => ss_content x | BComment x => sc_content x end) (br_components s) =
      [bs "make V=two{$3} all "; bs "# c"; bs " x=""y z"""]
  | _ => False
  end.
Proof.
  split; [plain|]. split; [plain|]. eexists. eexists. split; [vm_compute; reflexivity|]. split.
  - intros i sp Hi Hsp Ha. vm_compute in Hi.
    repeat (destruct Hi as [<-|Hi]; [vm_compute in Hsp; repeat (destruct Hsp as [<-|Hsp]; [vm_compute in Ha; discriminate|]); destruct Hsp|]). destruct Hi.
  - split; [vm_compute; reflexivity|]. vm_compute. auto.
Qed.

(** The values of an ARG, of flags, of a label and of a variable *)
Definition valued : bytes := lines [
  "ARG v=1";
  "FROM --platform=linux/amd64 a:$v AS s";
  "LABEL x=y ""p""=q";
  "ENV k=w l=""m""";
  "COPY --from=s b c"]%string.
Definition spans_of (s : bytes) : list (list span) :=
  match parse enquote_unquote s with Ok d => map quotable_places (d_instructions d) | _ => [] end.
Example C74_value_case :
  spans_of valued = [[Span 4 5; Span 6 7]; [Span 15 23; Span 24 35; Span 36 40; Span 44 45];
    [Span 52 53; Span 54 55; Span 56 59; Span 60 61]; [Span 66 67; Span 68 69; Span 70 71; Span 72 75]; [Span 83 87; Span 88 89; Span 90 91; Span 92 93]] /\
  Forall (fun sp => plain_text (text_at valued sp) /\ exists a, firstn (s_start sp) valued = a ++ [EQUALS])
    [Span 6 7; Span 24 35; Span 54 55; Span 60 61; Span 68 69; Span 88 89] /\
  plain_text (bs "2.0") /\ fits valued [(Span 6 7, bs "2.0")] /\
  reads (bs "ARG v=2.0" ++ skipn 7 valued) (fun d => map (fun x => option_map ss_content (arg_value x)) (d_global_args d) = [Some (bs "2.0")]).
Proof.
  split; [vm_compute; reflexivity|]. split.
  - repeat constructor; try (vm_compute; reflexivity); try discriminate; try (intros (? & K); vm_compute in K; discriminate);
      match goal with |- context [firstn (s_start ?sp) valued] =>
        exists (firstn (s_start sp - 1) valued); vm_compute; reflexivity end.
  - split; [plain|]. split; [vm_compute; reflexivity|].
    split; [vm_compute; reflexivity|]. eexists. split; vm_compute; reflexivity.
Qed.

(** A blank in the new text is another matter. *)
Example C74_blank_case : exists a old new b, plain_text old /\ plain_byte 32 = false /\ new = bs "x y" /\
  (exists d, parse enquote_unquote (a ++ [EQUALS] ++ old ++ b) = Ok d) /\ parse enquote_unquote (a ++ [EQUALS] ++ new ++ b) = Err EParse.
Proof.
  exists (bs "ARG v"), (bs "x"), (bs "x y"), []. split; [plain|]. split; [reflexivity|]. split; [reflexivity|].
  split; [eexists; vm_compute; reflexivity|vm_compute; reflexivity].
Qed.

Print Assumptions C74_reworded.
Print Assumptions C74_rejected.
Print Assumptions C74_value.
Print Assumptions C74_new_string.
Print Assumptions C74_after_equals.
Print Assumptions C74_arg_default.

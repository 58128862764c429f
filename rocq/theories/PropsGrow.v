(** One more label or environment variable in an instruction that has some (C84).  The
    notions used are those of SpecGrow.v. *)

From Coq Require Import String Permutation.
From Verif Require Import Bytes BytesFacts Grammar Peg Result Ast Splicer Image Convert Dockerfile Enquote
  SpecImage SpecSplice SplicerFacts SplicerSafe SpecSyntax SpecClear SpecExact SpecMove SpecParts SpecDoc SpecReword SpecJoin SpecValues SpecKeys SpecGrow
  DocFacts ParseFacts SelectFacts PropsParse PropsDoc PropsEdit ParseEdit RewordDoc RewordFacts PropsJoin PropsBlocks PropsWrite ChangesFacts ValuesDoc PropsValues PropsKeys GrowDoc.
From Verif Require Sound.
Local Open Scope nat_scope.

Lemma order_split p len a s b : in_order p len (a ++ s :: b) -> (forall x, In x a -> s_end x <= s_start s) /\ (forall x, In x b -> s_end s <= s_start x).
Proof.
  revert p. induction a as [|z a IH]; intros p H; cbn [app in_order] in H; destruct H as (H1 & H2 & H3 & H4).
  - split; [intros x []|]. intros x Hx. exact (proj1 (in_order_bounds _ _ _ x H4 Hx)).
  - destruct (IH _ H4) as [K1 K2]. split; [|exact K2]. intros x [<-|Hx]; [|apply K1; exact Hx].
    apply (in_order_bounds _ _ _ s H4). apply in_or_app. right. left. reflexivity.
Qed.

Lemma adds_sliceable unq input d i i' a t u v y : valid_utf8 input = true -> parse unq input = Ok d -> In i (d_instructions d) -> adds unq input a t u v y i i' ->
  s_start (instruction_span i) <= a /\ a <= s_end (instruction_span i) /\ s_end (instruction_span i) <= length input /\ is_boundary input a = true.
Proof.
  intros V E Hi H. pose proof (parse_content _ _ _ E) as Ec.
  pose proof (C03_spans_sliceable unq input d i (instruction_part i) V E Hi (or_introl eq_refl)) as (_ & L & _). rewrite Ec in L. cbn [instruction_part part_span] in L.
  assert (Z : exists x, In x (parts i) /\ s_end (part_span x) = a).
  { destruct H as [x l1 l l2 El Ea _ _ _|x l1 e l2 El Ea _ _ _ _ _]; cbn [parts].
    - exists (label_part l). split; [|exact Ea]. apply in_map. rewrite El. apply in_or_app. right. left. reflexivity.
    - exists (var_part e). split; [|exact Ea]. apply in_map. rewrite El. apply in_or_app. right. left. reflexivity. }
  destruct Z as (x & Hx & Ea).
  pose proof (C05_parts_in_order unq input d i (instruction_part i) V E Hi (or_introl eq_refl)) as Ho. cbn [instruction_part part_span part_sub] in Ho.
  apply (in_order_bounds _ _ _ (part_span x)) in Ho; [|apply in_map; exact Hx].
  assert (Hw : In x (within (instruction_part i))).
  { right. apply in_flat_map. exists x. split; [exact Hx|]. destruct x. left. reflexivity. }
  pose proof (C03_spans_sliceable unq input d i x V E Hi Hw) as (_ & _ & _ & Hb). rewrite Ec, Ea in Hb. rewrite Ea in Ho. repeat split; [lia|lia|exact L|exact Hb].
Qed.

Lemma args_further f l : args_among (map (move_instruction f) l) = map (move_arg f) (args_among l).
Proof. unfold args_among. induction l as [|j l IH]; [reflexivity|]. cbn [map flat_map]. rewrite IH, map_app. f_equal. destruct j; reflexivity. Qed.

(** ** The pair is there, and nothing else changes *)

Theorem C84_more unq input d i i' a t u v y A B : valid_utf8 input = true -> parse unq input = Ok d -> In i (d_instructions d) ->
  adds unq input a t u v y i i' -> A = firstn a input -> B = skipn a input -> valid_utf8 t = true -> valid_utf8 u = true ->
  quotes_apart A (more_text t u ++ B) ->
  lines_before (firstn (s_start (instruction_span i)) input) (skipn (s_start (instruction_span i)) input) ->
  fits input [(Span a a, more_text t u)] ->
  let f := further (length (more_text t u)) in
  exists st l1 l2 d', splice (splicer_from d) (Span a a) (more_text t u) = Ok st /\ sp_content st = A ++ more_text t u ++ B /\
    parse unq (A ++ more_text t u ++ B) = Ok d' /\ d_content d' = A ++ more_text t u ++ B /\
    d_instructions d = l1 ++ i :: l2 /\ d_instructions d' = l1 ++ i' :: map (move_instruction f) l2 /\
    exists g1 g2, d_global_args d = g1 ++ g2 /\ d_global_args d' = g1 ++ map (move_arg f) g2 /\
      Forall (fun x => s_end (arg_span x) <= a) g1 /\ Forall (fun x => a <= s_start (arg_span x)) g2.
Proof.
  intros V E Hi Hp EA EB Vt Vu Hq Hl Hf. cbv zeta. pose proof (parse_content _ _ _ E) as Ec.
  destruct (adds_sliceable _ _ _ _ _ _ _ _ _ _ V E Hi Hp) as (L1 & L2 & L3 & Hb).
  assert (Vm : valid_utf8 (more_text t u) = true).
  { change (valid_utf8 (([SP] ++ t) ++ [EQUALS] ++ u) = true). repeat apply app_valid; auto. }
  assert (Vr : valid_utf8 (A ++ more_text t u ++ B) = true).
  { destruct (proj1 (valid_boundary input a V (Nat.le_trans _ _ _ L2 L3)) Hb). rewrite EA, EB. repeat apply app_valid; auto. }
  destruct (splice_apart input [Span a a] [(Span a a, more_text t u)] V) as (st & Es & Et).
  - cbn. repeat split; lia.
  - exact I.
  - intros sp [<-|[]]. split; exact Hb.
  - intros e [<-|[]]. cbn [fst snd]. split; [left; reflexivity|exact Vm].
  - exact Hf.
  - assert (Et' : sp_content st = A ++ more_text t u ++ B).
    { rewrite Et, EA, EB. cbn [map replaced s_start s_end]. unfold texts_for. cbn [filter fst].
      destruct (span_eq_dec (Span a a) (Span a a)); [|congruence]. cbn [map snd]. unfold text_after, slice. rewrite Nat.sub_diag, Nat.sub_0_r. cbn [skipn firstn].
      cbn [fold_left splice_again fst snd app]. unfold splice_again. cbn [fst snd app]. rewrite app_nil_r. reflexivity. }
    unfold splice_all in Es. cbn [for_each fst snd] in Es.
    destruct (pair_added unq t u v y input d i i' a A B V E Hi Hp EA EB Hq Hl Vr) as (l1 & l2 & d' & El & E' & Ec' & El').
    exists st, l1, l2, d'. unfold splicer_from. rewrite Ec.
    split; [unfold splicer_from_str in Es; destruct (splice _ _ _); [exact Es|discriminate Es..]|].
    do 5 (split; [assumption|]).
    destruct (parse_global_args _ _ _ E) as (pre & (post & Hpre & Hn & Hfr) & Ea). destruct (parse_global_args _ _ _ E') as (pre2 & Hpre2 & Ea2).
    rewrite El in Hpre. rewrite El' in Hpre2.
    pose proof (C06_instructions_in_order unq input d V E) as Ho. rewrite Ec, El, map_app in Ho. cbn [map] in Ho.
    apply order_split in Ho. destruct Ho as (Ho1 & Ho2).
    (* a FROM before the pair, or not *)
    assert (Cut : (exists x z, l1 = pre ++ x :: z /\ is_from_b x = true) \/ exists z, pre = l1 ++ i :: z).
    { clear - Hpre Hn Hfr Hp. revert pre Hpre Hn. induction l1 as [|x l1 IH]; intros pre Hpre Hn.
      - destruct pre as [|x pre]; [|right; exists pre; injection Hpre as -> _; reflexivity].
        cbn [app] in Hpre. subst post. destruct Hp; discriminate Hfr.
      - destruct pre as [|w pre].
        + cbn [app] in Hpre. subst post. left. exists x, l1. split; [reflexivity|exact Hfr].
        + cbn [app] in Hpre. injection Hpre as <- Hpre. inversion Hn; subst. destruct (IH pre Hpre H2) as [(z & zs & -> & K)|(z & ->)]; [left; exists z, zs; auto|right; exists z; reflexivity]. }
    destruct Cut as [(x & z & -> & Hx)|(z & ->)].
    + exists (d_global_args d), []. rewrite app_nil_r. cbn [map]. rewrite app_nil_r. split; [reflexivity|].
      assert (Ep : pre2 = pre).
      { apply (before_first_from_fun _ _ _ Hpre2). exists (x :: z ++ i' :: map (move_instruction (further (length (more_text t u)))) l2).
        split; [rewrite <- app_assoc; reflexivity|]. split; [exact Hn|exact Hx]. }
      split; [congruence|]. split; [|constructor]. rewrite Ea. apply Forall_forall. intros w Hw. unfold args_among in Hw. apply in_flat_map in Hw. destruct Hw as (j & Hj & Hw).
      destruct j; cbn in Hw; try contradiction. destruct Hw as [->|[]].
      apply (Nat.le_trans _ (s_start (instruction_span i))); [apply Ho1|lia]. apply in_map_iff. exists (IArg w). split; [reflexivity|]. apply in_or_app. left. exact Hj.
    + exists (args_among l1), (args_among z).
      rewrite <- app_assoc in Hpre. apply app_inv_head in Hpre. cbn [app] in Hpre. injection Hpre as ->.
      assert (Ai : forall w, args_among (l1 ++ i :: w) = args_among l1 ++ args_among w).
      { intros w. unfold args_among. rewrite flat_map_app. cbn [flat_map]. destruct Hp; reflexivity. }
      assert (Ai' : forall w, args_among (l1 ++ i' :: w) = args_among l1 ++ args_among w).
      { intros w. unfold args_among. rewrite flat_map_app. cbn [flat_map]. destruct Hp; reflexivity. }
      assert (Ep : pre2 = l1 ++ i' :: map (move_instruction (further (length (more_text t u)))) z).
      { apply (before_first_from_fun _ _ _ Hpre2). exists (map (move_instruction (further (length (more_text t u)))) post).
        split; [rewrite <- app_assoc; cbn [app]; rewrite map_app; reflexivity|]. apply Forall_app in Hn. destruct Hn as [Hn1 Hn2]. inversion Hn2 as [|? ? Hn3 Hn4]; subst.
        split; [apply Forall_app; split; [exact Hn1|constructor; [destruct Hp; reflexivity|]]|].
        - apply Forall_map. apply (Forall_impl _ (P := fun j => is_from_b j = false)); [|exact Hn4]. intros j. destruct j; auto.
        - destruct post as [|j post]; [exact I|]. cbn [map]. destruct j; exact Hfr. }
      split; [rewrite Ea; apply Ai|]. split; [rewrite Ea2, Ep, Ai'; f_equal|].
      { apply args_further. }
      split; apply Forall_forall; intros w Hw; unfold args_among in Hw; apply in_flat_map in Hw; destruct Hw as (j & Hj & Hw); destruct j; cbn in Hw; try contradiction; destruct Hw as [->|[]].
      * apply (Nat.le_trans _ (s_start (instruction_span i))); [apply Ho1|lia]. apply in_map_iff. exists (IArg w). split; [reflexivity|exact Hj].
      * apply (Nat.le_trans _ (s_end (instruction_span i))); [lia|apply Ho2]. apply in_map_iff. exists (IArg w). split; [reflexivity|apply in_or_app; left; exact Hj].
Qed.

(** The pairs of the instruction, as contents: one more, right after the one at whose end it
    is written. *)
Definition pairs (i : instruction) : list (bytes * bytes) :=
  match i with
  | ILabel x => map (fun l => (ss_content (lb_name l), ss_content (lb_value l))) (label_labels x)
  | IEnv x => map (fun e => (ss_content (ev_key e), display_breakable (ev_value e))) (env_vars x)
  | _ => []
  end.

Theorem C84_pairs unq content a t u v y i i' : adds unq content a t u v y i i' ->
  exists p1 x p2, pairs i = p1 ++ x :: p2 /\ pairs i' = p1 ++ x :: (v, y) :: p2.
Proof.
  assert (Bd : forall g b, display_breakable (move_breakable g b) = display_breakable b).
  { intros g b. unfold display_breakable, move_breakable. cbn [br_components].
    induction (br_components b) as [|c l IH]; [reflexivity|]. cbn [map display_components]. rewrite IH. destruct c; reflexivity. }
  intros [x l1 l l2 El _ _ _ _|x l1 e l2 El _ _ _ _ _ _]; cbn [pairs label_labels env_vars]; rewrite El, !map_app; cbn [map]; do 3 eexists; (split; [reflexivity|]).
  - do 3 f_equal. rewrite map_map. reflexivity.
  - f_equal. f_equal. cbn [new_var ev_key ev_value ss_content]. f_equal.
    + f_equal. unfold display_breakable, new_var. cbn. rewrite ?app_nil_r. reflexivity.
    + rewrite map_map. apply map_ext. intros z. cbn [move_env ev_key ev_value]. f_equal. apply Bd.
Qed.

(** Any strings can be the name and the value of the new label, between quotes. *)
Theorem C84_any_label unq input d x l1 l l2 a s0 s A B : inverts unq -> valid_utf8 input = true -> parse unq input = Ok d -> In (ILabel x) (d_instructions d) ->
  label_labels x = l1 ++ l :: l2 -> s_end (lb_span l) = a -> nth_error input (s_end (ss_span (lb_name l))) = Some EQUALS ->
  PropsWrite.label_text s0 -> PropsWrite.label_text s -> A = firstn a input -> B = skipn a input ->
  quotes_apart A (more_text (quote s0) (quote s) ++ B) ->
  lines_before (firstn (s_start (label_span x)) input) (skipn (s_start (label_span x)) input) ->
  fits input [(Span a a, more_text (quote s0) (quote s))] ->
  let f := further (length (more_text (quote s0) (quote s))) in
  exists st k1 k2 d', splice (splicer_from d) (Span a a) (more_text (quote s0) (quote s)) = Ok st /\ parse unq (sp_content st) = Ok d' /\
    d_instructions d = k1 ++ ILabel x :: k2 /\
    d_instructions d' = k1 ++ ILabel (LabelInstruction (longer (length (more_text (quote s0) (quote s))) (label_span x))
      (l1 ++ l :: new_label a (quote s0) (quote s) s0 s :: map (move_label f) l2)) :: map (move_instruction f) k2.
Proof.
  intros U V E Hi El Ea He H0 Hs EA EB Hq Hl Hf. cbv zeta.
  assert (Hp : adds unq input a (quote s0) (quote s) s0 s (ILabel x) (ILabel (LabelInstruction (longer (length (more_text (quote s0) (quote s))) (label_span x))
      (l1 ++ l :: new_label a (quote s0) (quote s) s0 s :: map (move_label (further (length (more_text (quote s0) (quote s))))) l2)))).
  { apply adds_label; try assumption.
    - left. exists (quote s0). split; [apply quote_text; apply H0|]. split; [apply quote_breaks; apply H0|apply U].
    - exists (quote s). split; [apply quote_text; apply Hs|]. split; [apply quote_breaks; apply Hs|apply U]. }
  destruct (C84_more unq input d _ _ a _ _ _ _ A B V E Hi Hp EA EB (quote_valid _ (proj1 (proj1 H0))) (quote_valid _ (proj1 (proj1 Hs))) Hq Hl Hf)
    as (st & k1 & k2 & d' & K1 & K2 & K3 & _ & K5 & K6 & _).
  exists st, k1, k2, d'. rewrite K2. auto.
Qed.

(** Any string can be the value of the new environment variable. *)
Theorem C84_any_var unq input d x l1 e l2 a t s A B : inverts unq -> valid_utf8 input = true -> parse unq input = Ok d -> In (IEnv x) (d_instructions d) ->
  env_vars x = l1 ++ e :: l2 -> s_end (ev_span e) = a -> nth_error input (s_end (ss_span (ev_key e))) = Some EQUALS ->
  env_name_text t -> valid_utf8 t = true -> PropsWrite.plain_text s -> A = firstn a input -> B = skipn a input ->
  quotes_apart A (more_text t (quote s) ++ B) ->
  lines_before (firstn (s_start (env_span x)) input) (skipn (s_start (env_span x)) input) ->
  fits input [(Span a a, more_text t (quote s))] ->
  let f := further (length (more_text t (quote s))) in
  exists st k1 k2 d', splice (splicer_from d) (Span a a) (more_text t (quote s)) = Ok st /\ parse unq (sp_content st) = Ok d' /\
    d_instructions d = k1 ++ IEnv x :: k2 /\
    d_instructions d' = k1 ++ IEnv (EnvInstruction (longer (length (more_text t (quote s))) (env_span x))
      (l1 ++ e :: new_var a t (quote s) t s :: map (move_env f) l2)) :: map (move_instruction f) k2.
Proof.
  intros U V E Hi El Ea He Ht Vt Hs EA EB Hq Hl Hf. cbv zeta.
  assert (Hp : adds unq input a t (quote s) t s (IEnv x) (IEnv (EnvInstruction (longer (length (more_text t (quote s))) (env_span x))
      (l1 ++ e :: new_var a t (quote s) t s :: map (move_env (further (length (more_text t (quote s))))) l2)))).
  { apply adds_var; try assumption; [reflexivity|apply quote_text; exact Hs|apply U]. }
  destruct (C84_more unq input d _ _ a _ _ _ _ A B V E Hi Hp EA EB Vt (quote_valid _ (proj1 Hs)) Hq Hl Hf)
    as (st & k1 & k2 & d' & K1 & K2 & K3 & _ & K5 & K6 & _).
  exists st, k1, k2, d'. rewrite K2. auto.
Qed.

(** ** Examples *)

(** Between the two labels of LABEL k="o p" "l m"=n, indented and after other lines *)
Example C84_label_case : exists i' st d',
  adds enquote_unquote keyed 31 (bs "x.y") (bs """a b""") (bs "x.y") (bs "a b") (nth 2 (d_instructions keyed_doc) nothing) i' /\
  quotes_apart (firstn 31 keyed) (more_text (bs "x.y") (bs """a b""") ++ skipn 31 keyed) /\
  s_start (instruction_span (nth 2 (d_instructions keyed_doc) nothing)) = 18 /\ lines_before (firstn 18 keyed) (skipn 18 keyed) /\
  fits keyed [(Span 31 31, more_text (bs "x.y") (bs """a b"""))] /\
  splice (splicer_from keyed_doc) (Span 31 31) (more_text (bs "x.y") (bs """a b""")) = Ok st /\
  sp_content st = firstn 31 keyed ++ bs " x.y=""a b""" ++ skipn 31 keyed /\ parse enquote_unquote (sp_content st) = Ok d' /\
  nth 2 (d_instructions d') nothing = i' /\ pairs i' = [(bs "k", bs "o p"); (bs "x.y", bs "a b"); (bs "l m", bs "n")] /\
  map instruction_span (d_instructions d') = [Span 0 7; Span 8 14; Span 18 49; Span 50 63; Span 64 73; Span 74 80].
Proof.
  do 3 eexists. split.
  { eapply (adds_label _ _ _ _ _ _ _ _ [] _ [Label (Span 32 39) (SpannedString (Span 32 37) (bs "l m")) (SpannedString (Span 38 39) (bs "n"))]); [reflexivity|reflexivity|reflexivity| |].
    - right. split; [|split; [|split; [|split]]].
      + split; [discriminate|]. split; [|reflexivity]. repeat (constructor; [repeat split; discriminate|]). constructor.
      + do 2 eexists. split; [reflexivity|]. repeat split; discriminate.
      + intros [(t & K)|(t & K)]; discriminate K.
      + right. right. reflexivity.
      + right. split; [|reflexivity]. intros (c & t & K & H). vm_compute in K. injection K as <- _. destruct H as [H|[H|H]]; discriminate.
    - change (bs """a b""") with (quote (bs "a b")). exists (quote (bs "a b")). split; [apply quote_text; split; [reflexivity|]; split; cbn; intros K; repeat (destruct K as [K|K]; [discriminate|]); exact K|].
      split; [|reflexivity]. apply quote_breaks. intros a b K. do 3 (destruct a as [|? a]; [discriminate K|injection K as _ K]). destruct a; discriminate K. }
  split; [apply closed_apart; vm_compute; reflexivity|]. split; [reflexivity|]. split.
  { exists (bs "  "). split; [repeat constructor|]. right. exists (firstn 14 keyed), [CR; LF]. split; [reflexivity|]. split; [last_line 8 (firstn 14 keyed)|].
    split; [apply no_quote_before; repeat constructor; discriminate|]. split; [constructor|]. split; [discriminate|]. intros (t & K). discriminate K. }
  split; [vm_compute; reflexivity|]. split; [vm_compute; reflexivity|]. split; [vm_compute; reflexivity|]. split; [vm_compute; reflexivity|]. split; [vm_compute; reflexivity|].
  split; vm_compute; reflexivity.
Qed.

(** After the last variable of ENV A=b C='d' *)
Example C84_env_case : exists i' st d',
  adds enquote_unquote keyed 53 (bs "E") (bs "'f g'") (bs "E") (bs "f g") (nth 3 (d_instructions keyed_doc) nothing) i' /\
  quotes_apart (firstn 53 keyed) (more_text (bs "E") (bs "'f g'") ++ skipn 53 keyed) /\
  s_start (instruction_span (nth 3 (d_instructions keyed_doc) nothing)) = 40 /\ lines_before (firstn 40 keyed) (skipn 40 keyed) /\
  fits keyed [(Span 53 53, more_text (bs "E") (bs "'f g'"))] /\
  splice (splicer_from keyed_doc) (Span 53 53) (more_text (bs "E") (bs "'f g'")) = Ok st /\
  sp_content st = firstn 53 keyed ++ bs " E='f g'" ++ skipn 53 keyed /\ parse enquote_unquote (sp_content st) = Ok d' /\
  nth 3 (d_instructions d') nothing = i' /\ pairs i' = [(bs "A", bs "b"); (bs "C", bs "d"); (bs "E", bs "f g")].
Proof.
  do 3 eexists. split.
  { eapply (adds_var _ _ _ _ _ _ _ _ [_] _ []); [reflexivity|reflexivity|reflexivity| |reflexivity| |reflexivity].
    - split; [discriminate|repeat constructor].
    - exists SQUOTE, (bs "f g"). split; [right; reflexivity|]. split; [reflexivity|]. split; [|reflexivity]. repeat (apply qb_plain; [discriminate..|]). constructor. }
  split; [apply closed_apart; vm_compute; reflexivity|]. split; [reflexivity|]. split.
  { exists []. split; [constructor|]. right. exists (firstn 39 keyed), [LF]. split; [reflexivity|]. split; [apply (complete_line (firstn 16 keyed) (bs "  LABEL k=""o p"" ""l m""=n"))|].
    1: right; exists (firstn 15 keyed), LF; split; reflexivity.
    1: repeat constructor.
    1: exists 76%N; split; [right; right; left; reflexivity|reflexivity].
    1: cbn; intros H; repeat (destruct H as [H|H]; [discriminate|]); exact H.
    1: apply not_backslash; vm_compute; reflexivity.
    split; [apply closed_apart; vm_compute; reflexivity|]. plain_break. }
  split; [vm_compute; reflexivity|]. split; [vm_compute; reflexivity|]. split; [vm_compute; reflexivity|]. split; [vm_compute; reflexivity|]. split; vm_compute; reflexivity.
Qed.

(** Without an equals sign there is only one variable, whatever is written after it. *)
Example C84_single : exists st d',
  map ss_span (names (nth 4 (d_instructions keyed_doc) nothing)) = [Span 58 59] /\ nth_error keyed 59 = Some SP /\
  splice (splicer_from keyed_doc) (Span 63 63) (more_text (bs "E") (bs "'f'")) = Ok st /\ parse enquote_unquote (sp_content st) = Ok d' /\
  pairs (nth 4 (d_instructions keyed_doc) nothing) = [(bs "P", bs "q r")] /\
  pairs (nth 4 (d_instructions d') nothing) = [(bs "P", bs "q r E='f'")].
Proof.
  do 2 eexists. split; [vm_compute; reflexivity|]. split; [reflexivity|]. split; [vm_compute; reflexivity|]. split; [vm_compute; reflexivity|].
  split; vm_compute; reflexivity.
Qed.

Print Assumptions C84_more.
Print Assumptions C84_pairs.
Print Assumptions C84_any_label.
Print Assumptions C84_any_var.

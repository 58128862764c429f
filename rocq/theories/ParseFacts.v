(** What soundness says about the instructions of a parse result. *)

From Coq Require Import String.
From Verif Require Import Bytes BytesFacts Grammar Peg Result Ast Image Convert Dockerfile
  SpecImage SpecSplice SpecSyntax Sound SoundDoc SpecParts PartsFacts SpecLayout LayoutFacts.
Local Open Scope nat_scope.

Section Unq.
Variable unq : bytes -> option bytes.
Variables (input : bytes) (d : dockerfile).
Hypothesis valid : valid_utf8 input = true.
Hypothesis parsed : parse unq input = Ok d.

Lemma parsed_document : d_content d = input /\ document unq input (d_instructions d).
Proof. pose proof (parse_sound unq input valid) as H. rewrite parsed in H. exact H. Qed.

Lemma parsed_instruction i : In i (d_instructions d) -> exists p w, placed input p w /\ instruction_at unq p w i.
Proof.
  intros Hi. destruct parsed_document as [_ H]. eapply document_instruction; [exact H| |exact Hi].
  exists [], []. rewrite app_nil_r. auto.
Qed.

Lemma parsed_text i : In i (d_instructions d) ->
  instruction_at unq (s_start (instruction_span i)) (text_at input (instruction_span i)) i.
Proof.
  intros Hi. destruct (parsed_instruction i Hi) as (p & w & Hp & H).
  destruct (instruction_valid unq p w i H) as (_ & _ & E). rewrite E, (placed_text _ _ _ Hp). exact H.
Qed.

Lemma within_in_place x y : in_place unq input x -> In y (within x) -> in_place unq input y.
Proof.
  revert x y. fix IH 1. intros [s c sub] y H Hy. cbn [within] in Hy. destruct Hy as [<-|Hy]; [exact H|].
  inversion H as [p w c0 sub0 _ _ _ _ _ Hs E]. clear - IH Hs Hy. induction sub as [|x sub IHs]; [destruct Hy|].
  cbn [flat_map] in Hy. inversion Hs as [|? ? Hx Hs']; subst. apply in_app_or in Hy. destruct Hy as [Hy|Hy].
  - exact (IH x y Hx Hy).
  - exact (IHs Hy Hs').
Qed.

Lemma parsed_parts i x : In i (d_instructions d) -> In x (within (instruction_part i)) -> in_place unq input x.
Proof.
  intros Hi Hx. destruct (parsed_instruction i Hi) as (p & w & Hp & H).
  eapply within_in_place; [eapply instruction_in_place; eassumption|exact Hx].
Qed.

(** ** Shell texts *)

Lemma placed_shell p w s : placed input p w -> breakable_at p w s ->
  shell_at (s_start (br_span s)) (text_at input (br_span s)) (br_components s).
Proof. intros Hp (l & Hl & ->). cbn [br_span br_components]. rewrite (placed_text _ _ _ Hp). exact Hl. Qed.

Lemma spaced_in {A} (at1 : nat -> bytes -> A -> Prop) : (forall p w x, at1 p w x -> valid_utf8 w = true) ->
  forall p w l, spaced at1 p w l -> placed input p w -> forall x, In x l -> exists q v, placed input q v /\ at1 q v x.
Proof.
  intros Hv p w l. induction 1 as [|p k g w x w2 l Hg _ Hx Hl IH]; intros Hp y Hy; [destruct Hy|].
  apply placed_app in Hp; [|eauto with vu]. destruct Hp as [_ Hp].
  apply placed_app in Hp; [|eapply Hv; exact Hx]. destruct Hp as [Hp1 Hp].
  destruct Hy as [<-|Hy]; [eauto|auto].
Qed.

Lemma instruction_shell p w i s : placed input p w -> instruction_at unq p w i -> In s (shell_texts_of i) ->
  shell_at (s_start (br_span s)) (text_at input (br_span s)) (br_components s) \/
  ((exists x, i = IEnv x) /\ one_string s).
Proof.
  intros Hp H Hs. destruct i as [x|x|x|x|x|x|x|x|x]; cbn [instruction_at shell_texts_of] in *; try (destruct Hs; fail).
  - destruct (run_expr x) as [t|t]; [|destruct Hs]. destruct Hs as [->|[]]. left.
    destruct H as (kw & g & c & -> & Hk & Hg & _ & He & _).
    apply placed_app in Hp; [|apply (keyword_valid "run"); [reflexivity|exact Hk]]. destruct Hp as [_ Hp].
    apply placed_app in Hp; [|eauto with vu]. destruct Hp as [_ Hp]. eapply placed_shell; eassumption.
  - destruct (entrypoint_expr x) as [t|t]; [|destruct Hs]. destruct Hs as [->|[]]. left.
    destruct H as (kw & g & c & -> & Hk & Hg & _ & He & _).
    apply placed_app in Hp; [|apply (keyword_valid "entrypoint"); [reflexivity|exact Hk]]. destruct Hp as [_ Hp].
    apply placed_app in Hp; [|eauto with vu]. destruct Hp as [_ Hp]. eapply placed_shell; eassumption.
  - destruct (cmd_expr x) as [t|t]; [|destruct Hs]. destruct Hs as [->|[]]. left.
    destruct H as (kw & g & c & -> & Hk & Hg & _ & He & _).
    apply placed_app in Hp; [|apply (keyword_valid "cmd"); [reflexivity|exact Hk]]. destruct Hp as [_ Hp].
    apply placed_app in Hp; [|eauto with vu]. destruct Hp as [_ Hp]. eapply placed_shell; eassumption.
  - apply in_map_iff in Hs. destruct Hs as (v & <- & Hv).
    destruct H as (kw & r & -> & Hk & _ & Hr).
    apply placed_app in Hp; [|apply (keyword_valid "env"); [reflexivity|exact Hk]]. destruct Hp as [_ Hp].
    destruct Hr as [(e & (j & g1 & n & k & g2 & u & -> & H1 & _ & H2 & _ & Hn & _ & Hu & _) & E)|(ps & g & -> & _ & Hps & _)].
    + rewrite E in Hv. destruct Hv as [<-|[]].
      apply placed_app in Hp; [|eauto with vu]. destruct Hp as [_ Hp].
      apply placed_app in Hp; [|auto with vu]. destruct Hp as [_ Hp].
      apply placed_app in Hp; [|eauto with vu]. destruct Hp as [_ Hp].
      destruct Hu as [(y & _ & _ & Eu)|[_ Hu]]; [right|left; eapply placed_shell; eassumption].
      split; [eauto|]. rewrite Eu. eexists. split; reflexivity.
    + apply placed_left in Hp. right. split; [eauto|].
      destruct (spaced_in _ (env_pair_valid unq) _ _ _ Hps Hp v Hv) as (q & u & _ & (n & t & _ & _ & _ & Hu & _)).
      destruct Hu as [(y & _ & _ & Eu)|(_ & _ & Eu)]; rewrite Eu; eexists; split; reflexivity.
  - destruct Hs as [<-|[]]. left. destruct H as (n & a & -> & Hn & _ & _ & Ha & _).
    apply placed_app in Hp; [|auto with vu]. destruct Hp as [_ Hp]. eapply placed_shell; eassumption.
Qed.

Lemma parsed_shell i s : In i (d_instructions d) -> In s (shell_texts_of i) ->
  shell_at (s_start (br_span s)) (text_at input (br_span s)) (br_components s) \/
  ((exists x, i = IEnv x) /\ one_string s).
Proof.
  intros Hi Hs. destruct (parsed_instruction i Hi) as (p & w & Hp & H). eapply instruction_shell; eassumption.
Qed.

Lemma command_exec k p w sp e a : ascii_all (bs k) = true -> placed input p w -> command_at unq k p w sp e ->
  as_exec e = Some a -> array_at unq (s_start (sa_span a)) (text_at input (sa_span a)) a.
Proof.
  intros Hk Hp (kw & g & c & -> & Hkw & Hg & _ & He & _) Ea. destruct e as [t|t]; [discriminate|]. injection Ea as ->.
  apply placed_app in Hp; [|apply (keyword_valid k); assumption]. destruct Hp as [_ Hp].
  apply placed_app in Hp; [|eauto with vu]. destruct Hp as [_ Hp].
  assert (E : sa_span a = at_ (p + length kw + length g) c) by (destruct He; reflexivity).
  rewrite E, (placed_text _ _ _ Hp). exact He.
Qed.

Lemma parsed_exec i a : In i (d_instructions d) -> exec_of i = Some a ->
  array_at unq (s_start (sa_span a)) (text_at input (sa_span a)) a.
Proof.
  intros Hi Ea. destruct (parsed_instruction i Hi) as (p & w & Hp & H).
  destruct i as [x|x|x|x|x|x|x|x|x]; cbn [instruction_at exec_of] in *; try discriminate.
  - eapply (command_exec "run"); [reflexivity|eassumption..].
  - eapply (command_exec "entrypoint"); [reflexivity|eassumption..].
  - eapply (command_exec "cmd"); [reflexivity|eassumption..].
Qed.

(** ** Words of the instructions *)

Lemma copy_paths i x s : In i (d_instructions d) -> i = ICopy x -> In s (copy_sources x ++ [copy_destination x]) ->
  word (text_at input (ss_span s)).
Proof.
  intros Hi -> Hs. destruct (parsed_instruction _ Hi) as (p & w & Hp & (kw & fl & ps & -> & Hk & Hfl & Hps & _)).
  apply placed_app in Hp; [|apply (keyword_valid "copy"); [reflexivity|exact Hk]]. destruct Hp as [_ Hp].
  apply placed_app in Hp; [|eapply spaced_valid; [apply flag_valid|exact Hfl]]. destruct Hp as [_ Hp].
  destruct (spaced_in _ (path_valid unq) _ _ _ Hps Hp s Hs) as (q & v & Hq & [Hv (y & _ & ->)]).
  cbn [ss_span]. rewrite (placed_text _ _ _ Hq). exact Hv.
Qed.

Lemma flag_text f q v : placed input q v -> flag_at unq q v f ->
  letters (ss_content (fl_name f)) /\ word (text_at input (ss_span (fl_value f))) /\
  text_at input (fl_span f) =
    [DASH; DASH] ++ ss_content (fl_name f) ++ EQUALS :: text_at input (ss_span (fl_value f)).
Proof.
  intros Hq (n & u & y & -> & Hn & Hu & (z & _ & ->) & ->). cbn [fl_name fl_value fl_span ss_content ss_span].
  rewrite (placed_text _ _ _ Hq).
  apply placed_app in Hq; [|reflexivity]. destruct Hq as [_ Hq]. cbn [length] in Hq.
  apply placed_app in Hq; [|auto with vu]. destruct Hq as [_ Hq]. apply placed_cons in Hq; [|reflexivity].
  rewrite (placed_text _ _ _ Hq). auto.
Qed.

Lemma parsed_flags i f : In i (d_instructions d) -> In f (flags_of i) ->
  letters (ss_content (fl_name f)) /\ word (text_at input (ss_span (fl_value f))) /\
  text_at input (fl_span f) =
    [DASH; DASH] ++ ss_content (fl_name f) ++ EQUALS :: text_at input (ss_span (fl_value f)).
Proof.
  intros Hi Hf. destruct (parsed_instruction _ Hi) as (p & w & Hp & H).
  destruct i as [x|x|x|x|x|x|x|x|x]; cbn [instruction_at flags_of] in *; try (destruct Hf; fail).
  - destruct H as (kw & fl & k & g & img & al & -> & Hk & Hfl & _).
    apply placed_app in Hp; [|apply (keyword_valid "from"); [reflexivity|exact Hk]]. destruct Hp as [_ Hp].
    apply placed_left in Hp. destruct (spaced_in _ (flag_valid unq) _ _ _ Hfl Hp f Hf) as (q & v & Hq & Hv).
    eapply flag_text; eassumption.
  - destruct H as (kw & fl & ps & -> & Hk & Hfl & _).
    apply placed_app in Hp; [|apply (keyword_valid "copy"); [reflexivity|exact Hk]]. destruct Hp as [_ Hp].
    apply placed_left in Hp. destruct (spaced_in _ (flag_valid unq) _ _ _ Hfl Hp f Hf) as (q & v & Hq & Hv).
    eapply flag_text; eassumption.
Qed.

End Unq.

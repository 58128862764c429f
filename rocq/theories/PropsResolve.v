(** C62: resolving the variables in the images of a parsed document. *)

From Coq Require Import String ZArith Relation_Operators.
From Verif Require Import Bytes BytesFacts Grammar Peg Result Ast Image Splicer Convert ConvertMove Dockerfile Enquote EnquoteFacts SpecImage ImageFacts SubstFacts SpecDoc DocFacts
  SpecSyntax SpecClear SpecParts SpecJoin ParseFacts Forward3 PropsImage PropsDoc PropsParse PropsJoin.
From Verif Require PartsFacts.
Local Open Scope nat_scope.

(** The text of the image, and what was read from it *)
Lemma image_texts unq input d f : valid_utf8 input = true -> parse unq input = Ok d -> In (IFrom f) (d_instructions d) ->
  image_display (from_image_parsed f) = ss_content (from_image f) /\ image_text (ss_content (from_image f)).
Proof.
  intros V E Hi. pose proof (parsed_text unq input d V E (IFrom f) Hi) as T.
  destruct T as (kw & fl & k & g & img & al & _ & _ & _ & _ & _ & Him & Ei & Hr & _).
  rewrite Ei. cbn [ss_content]. apply image_parse_spec in Hr. rewrite <- Hr. split; [apply C13_display_parse|exact Him].
Qed.

Lemma image_read unq input d f : valid_utf8 input = true -> parse unq input = Ok d -> In (IFrom f) (d_instructions d) ->
  image_parse (ss_content (from_image f)) = from_image_parsed f.
Proof.
  intros V E Hi. pose proof (parsed_text unq input d V E (IFrom f) Hi) as T.
  destruct T as (kw & fl & k & g & img & al & _ & _ & _ & _ & _ & Him & Ei & Hr & _).
  rewrite Ei. cbn [ss_content]. apply image_parse_spec in Hr. exact Hr.
Qed.

Lemma captured_mentioned s q n w : In (q, n, w) (captures s 0 0) -> mentions s w.
Proof.
  intros H. destruct (captures_spec s 0) as (l & Hl). apply (mentions_iff s l); [apply (caps_reads _ _ _ _ Hl)|].
  clear -H Hl. induction Hl as [p|p s w0 pre rest l cs E Hb Hl IH|p c s l cs Hn Hl IH]; [destruct H| |right; auto].
  destruct H as [H|H]; [injection H as _ _ ->; left; reflexivity|right; auto].
Qed.

(** [substitute] looks at no variable but those referenced, directly or through others. *)
Lemma substitute_same vs vs' d : forall s used, (forall x, reaches vs s x -> vs x = vs' x) ->
  substitute s vs used d = substitute s vs' used d.
Proof.
  induction d as [|d IH]; intros s used H.
  - cbn [substitute Nat.eqb]. destruct (captures s 0 0) as [|((q & n) & w) cs]; reflexivity.
  - cbn [substitute Nat.eqb].
    assert (K : forall cs, (forall q n w, In (q, n, w) cs -> mentions s w) -> forall st used,
      subst_loop (fun content used' => substitute content vs used' d) false vs cs st used =
      subst_loop (fun content used' => substitute content vs' used' d) false vs' cs st used).
    { induction cs as [|((q & n) & w) cs IHc]; intros Hm st u; [reflexivity|]. cbn [subst_loop].
      assert (M : mentions s w) by (apply (Hm q n); left; reflexivity).
      rewrite <- (H w) by (apply reaches_step; exists w; auto).
      destruct (vs w) as [v|] eqn:Ev; [|reflexivity].
      rewrite (IH v u) by (intros x Hx; apply H, reaches_step; exists w; split; [exact M|right; exists v; auto]).
      destruct (substitute v vs' u d) as [[[o|] u1]|e| |]; cbn [bind]; try reflexivity.
      destruct (splice st (Span q (q + n)) o); cbn [bind]; [|reflexivity..]. apply IHc. intros q0 n0 w0 Hi. apply (Hm q0 n0). right. exact Hi. }
    apply K. intros q n w. apply captured_mentioned.
Qed.

Lemma text_at_length src sp : length (text_at src sp) <= length src.
Proof. unfold text_at, slice. rewrite firstn_length, skipn_length. lia. Qed.

Lemma parsed_arg_strings unq input d : rust_string input -> (forall w v, rust_string w -> unq w = Some v -> rust_string v) ->
  parse unq input = Ok d -> arg_strings (d_global_args d).
Proof.
  intros [V L] Hu E a v Ha Hav. destruct (C09_global_args unq input d E) as (pre & Hp & Eg).
  assert (Hin : In (IArg a) (d_instructions d)).
  { destruct Hp as (post & -> & _). apply in_or_app. left. rewrite Eg in Ha. apply in_flat_map in Ha.
    destruct Ha as (i & Hi & Ha). destruct i; try destruct Ha as [<-|[]]; try (destruct Ha; fail). exact Hi. }
  pose proof (parsed_text unq input d V E (IArg a) Hin) as T. cbn [instruction_at instruction_span] in T.
  pose proof (text_at_length input (arg_span a)) as Lt.
  destruct T as (kw & k & g & name & rest & Et & _ & _ & _ & _ & _ & _ & [(_ & K)|(value & v0 & Er & Hq & (c & Hs & Ev) & K)]); [congruence|].
  rewrite Hav in K. injection K as <-. subst v. cbn [ss_content]. 
  assert (Rv : rust_string value).
  { split.
    - destruct Hq as [Hq|(_ & _ & Hw)]; [exact (PartsFacts.quoted_valid _ Hq)|exact Hw].
    - rewrite Et, Er, !app_length in Lt. cbn [length] in Lt. lia. }
  destruct Hs as [[_ Hs]|[Hnb ->]]; [apply (Hu _ _ Rv Hs)|exact Rv].
Qed.

(** The condition on unescaping used below is met by what the library calls. *)
Lemma enquote_strings w v : rust_string w -> enquote_unquote w = Some v -> rust_string v.
Proof. intros [V L] E. destruct (unquote_valid w v V E) as [Vv Lv]. split; [exact Vv|lia]. Qed.

Lemma image_rust unq input d f : rust_string input -> parse unq input = Ok d -> In (IFrom f) (d_instructions d) ->
  rust_string (image_display (from_image_parsed f)).
Proof.
  intros [V L] E Hi. destruct (image_texts unq input d f V E Hi) as [-> Hit].
  pose proof (parsed_text unq input d V E (IFrom f) Hi) as T. cbn [instruction_at instruction_span] in T.
  pose proof (text_at_length input (from_span f)) as Lt.
  destruct T as (kw & fl & k & g & img & al & Et & _ & _ & _ & _ & Him & Ei & _).
  rewrite Ei in *. cbn [ss_content] in *. split.
  - rewrite <- (app_nil_r img). rewrite (class_valid _ _ _ image_ascii (proj2 Him)). reflexivity.
  - rewrite Et, !app_length in Lt. lia.
Qed.

(** ** C62 *)

(** The image of every FROM of a document that was parsed, under the condition that
    unescaping gives strings (as it does, [enquote_strings]): it is resolved with the values of the global ARGs, or it
    is [None] because a variable has no value or they are nested too deeply. *)
Theorem C62_resolved unq input d f vs : rust_string input -> (forall w v, rust_string w -> unq w = Some v -> rust_string v) ->
  parse unq input = Ok d -> In (IFrom f) (d_instructions d) -> values_of (d_global_args d) vs ->
  (forall t, intermediate vs 16 (ss_content (from_image f)) t -> (Z.of_nat (length t) < two63)%Z) ->
  (stuck vs 16 (ss_content (from_image f)) /\ resolve_vars_with_context (from_image_parsed f) d = Ok None /\
   resolve_vars (from_image_parsed f) d = Ok None) \/
  (exists out r used, expands vs 16 (ss_content (from_image f)) out /\ image_ref_of out r /\
   resolve_vars_with_context (from_image_parsed f) d = Ok (Some (r, used)) /\
   resolve_vars (from_image_parsed f) d = Ok (Some r) /\
   (forall x, In x used <-> reaches vs (ss_content (from_image f)) x) /\ NoDup used).
Proof.
  intros R Hu E Hi Hvs Hm. destruct (image_texts unq input d f (proj1 R) E Hi) as [Et _].
  pose proof (image_rust unq input d f R E Hi) as Hs. pose proof (parsed_arg_strings unq input d R Hu E) as Ha.
  pose proof (values_of_eq _ _ Hvs) as Ev.
  assert (Es : substitute (ss_content (from_image f)) (arg_vars (d_global_args d)) [] 16 = substitute (ss_content (from_image f)) vs [] 16).
  { apply substitute_same. intros x _. symmetry. apply Ev. }
  assert (Hrv : rust_vars vs) by (intros w v Hw; rewrite Ev in Hw; exact (arg_strings_vars _ Ha w v Hw)).
  rewrite Et in Hs. destruct (C16_substitute_decides _ vs [] 16 Hs Hrv Hm) as [(Hst & u & Eu)|(_ & out & u & Eu & Hx)].
  - left. split; [exact Hst|]. unfold resolve_vars, resolve_vars_with_context. rewrite Et, Es, Eu. split; reflexivity.
  - right. exists out, (image_parse out), u. split; [exact Hx|]. split; [apply image_parse_spec; reflexivity|].
    unfold resolve_vars, resolve_vars_with_context. rewrite Et, Es, Eu. split; [reflexivity|]. split; [reflexivity|]. split.
    + intros x. rewrite (C17_used_vars _ _ _ _ _ _ Hs Hrv Eu x). cbn [In]. tauto.
    + apply (C17_used_vars_set _ _ _ _ _ _ (NoDup_nil _) Eu).
Qed.

(** Without a dollar sign the image is resolved to itself and no variable is used. *)
Theorem C62_plain unq input d f : rust_string input -> parse unq input = Ok d -> In (IFrom f) (d_instructions d) ->
  ~ In DOLLAR (ss_content (from_image f)) ->
  resolve_vars_with_context (from_image_parsed f) d = Ok (Some (from_image_parsed f, [])).
Proof.
  intros [V L] E Hi Hd. destruct (image_texts unq input d f V E Hi) as [Et _].
  assert (Ec : captures (ss_content (from_image f)) 0 0 = []).
  { destruct (captures (ss_content (from_image f)) 0 0) as [|((q & n) & w) cs] eqn:Ec; [reflexivity|]. exfalso.
    assert (M : mentions (ss_content (from_image f)) w) by (apply (captured_mentioned _ q n); rewrite Ec; left; reflexivity).
    destruct M as (l & Hr & Hw). clear -Hd Hr Hw. induction Hr as [|s w0 rest l Hb Hr IH|c s l Hn Hr IH]; [destruct Hw|..].
    - apply Hd. destruct Hb; left; reflexivity.
    - destruct Hw as [Hw|Hw]; [discriminate|]. apply IH; [|exact Hw]. intros K. apply Hd. right. exact K. }
  unfold resolve_vars_with_context. rewrite Et. cbn [substitute Nat.eqb]. rewrite Ec. cbn [subst_loop bind splicer_from_str sp_content].
  rewrite (image_read unq input d f V E Hi). reflexivity.
Qed.

(** Only the variables reached matter: two documents whose global ARGs give these the
    same values resolve the image in the same way. *)
Theorem C62_only_reached i d d' vs vs' : values_of (d_global_args d) vs -> values_of (d_global_args d') vs' ->
  (forall x, reaches vs (image_display i) x -> vs x = vs' x) ->
  resolve_vars_with_context i d = resolve_vars_with_context i d' /\ resolve_vars i d = resolve_vars i d'.
Proof.
  intros H H' K. pose proof (values_of_eq _ _ H) as E. pose proof (values_of_eq _ _ H') as E'.
  assert (Es : substitute (image_display i) (arg_vars (d_global_args d)) [] 16 = substitute (image_display i) (arg_vars (d_global_args d')) [] 16).
  { apply substitute_same. intros x Hx. rewrite <- E, <- E'. apply K. apply (reaches_ext _ vs _ _ (fun w => eq_sym (E w)) Hx). }
  assert (Er : resolve_vars_with_context i d = resolve_vars_with_context i d') by (unfold resolve_vars_with_context; rewrite Es; reflexivity).
  split; [exact Er|]. unfold resolve_vars. rewrite Er. reflexivity.
Qed.

(** What is written behind a document with a FROM does not matter. *)
Theorem C62_later_lines unq a n b da d i : valid_utf8 a = true -> valid_utf8 b = true -> complete a -> quotes_apart a (n ++ b) -> breaks a n b ->
  parse unq a = Ok da -> existsb is_from_b (d_instructions da) = true -> parse unq (a ++ n ++ b) = Ok d ->
  resolve_vars_with_context i d = resolve_vars_with_context i da /\ resolve_vars i d = resolve_vars i da.
Proof.
  intros Va Vb C Q B Ea Hf E. destruct (C56_joined unq a n b Va Vb C Q B) as (F & G & _).
  destruct (G d E) as (da' & db & Ea' & Eb). destruct (F da db Ea Eb) as (d' & E' & _ & _ & Eg).
  rewrite E in E'. injection E' as <-. rewrite Hf, app_nil_r in Eg.
  assert (Er : resolve_vars_with_context i d = resolve_vars_with_context i da) by (unfold resolve_vars_with_context; rewrite Eg; reflexivity).
  split; [exact Er|]. unfold resolve_vars. rewrite Er. reflexivity.
Qed.

(** A document whose first image needs two variables, one through the other; the second
    none; a third one that has no value. *)
Definition varied : bytes := lines ["ARG tag=""1.$minor"""; "ARG unused=x"; "ARG minor=2"; "ARG none"; "FROM a:${tag} AS b"; "FROM r.io/c:3"; "ARG minor=4"; "FROM $none"]%string.
Definition answers (o : outcome dockerfile) : list (outcome (option (image_ref * list bytes))) :=
  match o with
  | Ok d => flat_map (fun i => match i with IFrom f => [resolve_vars_with_context (from_image_parsed f) d] | _ => [] end) (d_instructions d)
  | _ => []
  end.
Example C62_case : rust_string varied /\ answers (parse enquote_unquote varied) =
  [Ok (Some (ImageRef None (bs "a") (Some (bs "1.2")) None, [bs "minor"; bs "tag"]));
   Ok (Some (ImageRef (Some (bs "r.io")) (bs "c") (Some (bs "3")) None, []));
   Ok None].
Proof. split; [split; vm_compute; reflexivity|vm_compute; reflexivity]. Qed.

Print Assumptions C62_resolved.
Print Assumptions C62_plain.
Print Assumptions C62_only_reached.
Print Assumptions C62_later_lines.

(** Replacing images in any document that parses (C39, without the restriction to the
    documents of SpecClear.v). *)

From Coq Require Import String Permutation.
From Verif Require Import Bytes BytesFacts Result Ast Image Dockerfile Enquote Splicer
  SpecImage ImageFacts SpecSplice SplicerFacts SpecDoc DocFacts SpecSyntax SpecMove SpecParts PropsDoc PropsParse
  ParseEdit PropsComplete RewriteFacts.
Local Open Scope nat_scope.

(** Any choice of new images, spliced in any order over the images of the document,
    then parsed again: parsing succeeds, the chosen images are new, and all else is
    as before, only moved. *)
Theorem C39_any_images unq input d choose ops : valid_utf8 input = true -> parse unq input = Ok d ->
  (forall f t r, In (IFrom f) (d_instructions d) -> choose f = Some (t, r) -> image_accepted t r) ->
  fits input (image_edits choose (d_instructions d)) -> Permutation (image_edits choose (d_instructions d)) ops ->
  exists st, splice_all (splicer_from d) ops = Ok st /\ valid_utf8 (sp_content st) = true /\
    forall g, g = after_edits (image_edits choose (d_instructions d)) ->
      parse unq (sp_content st) = Ok (Dockerfile (sp_content st) (map (move_arg g) (d_global_args d))
        (map (with_new_image choose g) (d_instructions d))).
Proof.
  intros Hv E Hok Hfit Hp. pose proof (images_in_order_any unq choose input d Hv E) as Ho.
  destruct (splice_disjoint input (image_edits choose (d_instructions d)) ops Hv Ho) as (st & Es & Et & Eu); [|exact Hfit|exact Hp|].
  { intros e He. unfold image_edits in He. apply in_flat_map in He. destruct He as (i & Hi & He).
    destruct i as [f| | | | | | | |]; try contradiction. cbn [image_edit] in He. destruct (choose f) as [[t r]|] eqn:Ef; [|contradiction].
    destruct He as [<-|[]]. cbn [fst snd]. split; [apply (image_sliceable unq input d f Hv E Hi)|].
    destruct (Hok f t r Hi Ef) as [Ht _]. apply PartsFacts.image_text_valid. exact Ht. }
  exists st. split; [unfold splicer_from; rewrite (parse_content _ _ _ E); exact Es|]. split; [exact Eu|]. intros g Eg.
  rewrite Et. apply (rewrite_any unq choose input d Hv E (d_instructions d) [] eq_refl Hok g Eg).
Qed.

(** One image *)
Theorem C39_any_image unq input d l1 f l2 new r : valid_utf8 input = true -> parse unq input = Ok d ->
  d_instructions d = l1 ++ IFrom f :: l2 -> image_accepted new r -> fits input [(ss_span (from_image f), new)] ->
  exists st, splice (splicer_from d) (ss_span (from_image f)) new = Ok st /\
    sp_content st = firstn (s_start (ss_span (from_image f))) input ++ new ++ skipn (s_end (ss_span (from_image f))) input /\
    forall g, g = replacement (s_start (ss_span (from_image f))) (s_end (ss_span (from_image f))) (length new) ->
      parse unq (sp_content st) = Ok (Dockerfile (sp_content st) (map (move_arg g) (d_global_args d))
        (map (move_instruction g) l1 ++ IFrom (with_image (move_from g f) new r) :: map (move_instruction g) l2)).
Proof.
  intros Hv E El Hok Hfit.
  destruct (SwapDoc.parse_replace unq input d l1 f l2 Hv E El) as (pre & post & Ei & Hne & Hsp & Hnew).
  destruct (Hnew new r Hok _ eq_refl) as [Hv2 E2].
  assert (Hin : In (IFrom f) (d_instructions d)) by (rewrite El; apply in_or_app; right; left; reflexivity).
  assert (E1 : firstn (s_start (ss_span (from_image f))) input ++ new ++ skipn (s_end (ss_span (from_image f))) input = pre ++ new ++ post).
  { rewrite Hsp. cbn [s_start s_end]. rewrite Ei at 1. rewrite firstn_app, Nat.sub_diag, firstn_O, app_nil_r, firstn_all. f_equal. f_equal.
    rewrite Ei, app_assoc, <- app_length, skipn_app, Nat.sub_diag, skipn_all. reflexivity. }
  destruct (splice_disjoint input [(ss_span (from_image f), new)] [(ss_span (from_image f), new)] Hv) as (st & Es & Et & Eu).
  - cbn [map fst in_order]. rewrite Hsp. cbn [s_start s_end]. rewrite Ei, !app_length.
    destruct (ss_content (from_image f)); [congruence|]. cbn [length]. repeat split; lia.
  - intros e [<-|[]]. cbn [fst snd]. split; [|apply PartsFacts.image_text_valid, Hok].
    apply (image_sliceable unq input d f Hv E Hin).
  - exact Hfit.
  - apply Permutation_refl.
  - exists st. unfold splice_all in Es. cbn [for_each fst snd] in Es. unfold splicer_from. rewrite (parse_content _ _ _ E).
    assert (Ec : sp_content st = pre ++ new ++ post).
    { rewrite Et, <- E1. cbn [replaced]. unfold slice. cbn [skipn]. rewrite Nat.sub_0_r. reflexivity. }
    split; [unfold splicer_from_str in Es; destruct (splice _ _ _); [exact Es|discriminate Es..]|].
    rewrite Ec. split; [symmetry; exact E1|]. intros g Eg. rewrite Hsp in Eg. cbn [s_start s_end] in Eg. rewrite Eg. exact E2.
Qed.

(** The condition on the new images is necessary: an image that is read satisfies it. *)
Theorem C39_images_accepted unq input d f : valid_utf8 input = true -> parse unq input = Ok d -> In (IFrom f) (d_instructions d) ->
  image_accepted (ss_content (from_image f)) (from_image_parsed f).
Proof.
  intros Hv E Hf. destruct (ParseFacts.parsed_instruction unq input d Hv E (IFrom f) Hf) as (p & w & _ & H).
  cbn [instruction_at] in H. destruct H as (kw & fl & k & g & img & al & _ & _ & _ & _ & _ & H1 & H2 & H3 & H4 & _).
  rewrite H2. cbn [ss_content]. split; [exact H1|]. split; [exact H3|exact H4].
Qed.

(** A document outside the class of SpecClear.v: a backslash at the end of the text,
    an image that begins with a dash, a label that continues after a gap *)
Definition odd : bytes := lines [
  "FROM -a:1 AS b";
  "LABEL x=y\";
  "  z=w ";
  "FROM b@sha256:0123456789abcdef0123456789abcdef0123456789abcdef0123456789abcdef"]%string ++ bs "RUN echo " ++ [BSLASH].

Example C39_any_case : image_accepted (bs "-r.io/c") (image_parse (bs "-r.io/c")) /\
  fits odd [(Span 5 9, bs "-r.io/c")] /\
  reads odd (fun d => exists f1 f2 st, d_instructions d = [IFrom f1; nth 1 (d_instructions d) (IFrom f1); IFrom f2; nth 3 (d_instructions d) (IFrom f1)] /\
    ss_content (from_image f1) = bs "-a:1" /\ ss_span (from_image f1) = Span 5 9 /\
    splice (splicer_from d) (Span 5 9) (bs "-r.io/c") = Ok st /\
    parse enquote_unquote (sp_content st) = Ok (Dockerfile (sp_content st) [] 
      (IFrom (with_image (move_from (replacement 5 9 7) f1) (bs "-r.io/c") (image_parse (bs "-r.io/c"))) ::
       map (move_instruction (fun x => x + 3)) (tl (d_instructions d))))).
Proof.
  split; [split; [split; easy_text|split; [apply image_parse_spec; reflexivity|vm_compute; discriminate]]|].
  split; [vm_compute; reflexivity|]. split; [vm_compute; reflexivity|]. eexists. split; [vm_compute; reflexivity|].
  do 3 eexists. split; [reflexivity|]. split; [reflexivity|]. split; [reflexivity|].
  split; [vm_compute; reflexivity|]. vm_compute. reflexivity.
Qed.

Print Assumptions C39_any_images.
Print Assumptions C39_any_image.
Print Assumptions C39_images_accepted.

(** Image references and variable substitution (C13 - C19).

    The notions used are those of SpecImage.v.  [rust_string s]: [s] is valid UTF-8
    and shorter than 2^63 bytes, as every [String] of a Rust program is. *)

From Coq Require Import Relation_Operators String.
From Verif Require Import Bytes BytesFacts Result Ast Splicer Image SpecImage ImageFacts SubstFacts.
Local Open Scope nat_scope.

(** ** C13 *)
Theorem C13_display_parse s : image_display (image_parse s) = s.
Proof. exact (display_parse s). Qed.

(** ** C14 *)
Theorem C14_parse_rules s i : image_parse s = i <-> image_ref_of s i.
Proof. exact (image_parse_spec s i). Qed.

Theorem C14_tag_or_hash s : i_tag (image_parse s) = None \/ i_hash (image_parse s) = None.
Proof. exact (image_parse_exclusive s). Qed.

Theorem C14_parse_display s : image_parse (image_display (image_parse s)) = image_parse s.
Proof. rewrite display_parse. reflexivity. Qed.

(** Which hand-made references survive printing and parsing. *)
Theorem C14_roundtrip_fields i :
  image_parse (image_display i) = i <->
  (i_tag i = None \/ i_hash i = None) /\
  ~ In AT (i_image i) /\
  (match i_tag i with Some t => ~ In AT t | None => True end) /\
  (i_hash i = None -> ~ In COLON (i_image i)) /\
  (match i_registry i with
   | Some r => ~ In SLASH r /\ registry_host r
   | None => forall r rest, ~ has_registry (image_display i) r rest
   end).
Proof. exact (parse_display_fields i). Qed.

Example C14_case : image_parse (bs "localhost:5000/a/b@sha256:00:1") =
  ImageRef (Some (bs "localhost:5000")) (bs "a/b") None (Some (bs "sha256:00:1")).
Proof. vm_compute. reflexivity. Qed.
Example C14_case2 : image_parse (bs "foo/bar:1.2") =
  ImageRef None (bs "foo/bar") (Some (bs "1.2")) None.
Proof. vm_compute. reflexivity. Qed.

(** ** C15 *)
Theorem C15_substitute_result s vs used d out used' :
  rust_string s -> rust_vars vs ->
  substitute s vs used d = Ok (Some out, used') -> expands vs d s out.
Proof.
  intros Hs Hv H. pose proof (substitute_spec vs Hv d s used Hs) as K.
  unfold call_spec in K. rewrite H in K. apply K.
Qed.

(** The expansion of a text is unique, and so is the way a text is read. *)
Theorem C15_expansion_unique vs d s o1 o2 : expands vs d s o1 -> expands vs d s o2 -> o1 = o2.
Proof. intros H1 H2. apply (proj1 (expands_fun vs) d s o1 H1 o2 H2). Qed.

Theorem C15_reading_unique s : exists l, reads_as s l /\ forall l', reads_as s l' -> l' = l.
Proof.
  destruct (reads_total s) as [l Hl]. exists l. split; [exact Hl|].
  intros l' H. exact (reads_fun _ _ H _ Hl).
Qed.

(** ** C16 *)
Theorem C16_substitute_fails s vs used d used' :
  rust_string s -> rust_vars vs ->
  substitute s vs used d = Ok (None, used') -> stuck vs d s.
Proof.
  intros Hs Hv H. pose proof (substitute_spec vs Hv d s used Hs) as K.
  unfold call_spec in K. rewrite H in K. apply K.
Qed.

(** If all texts that arise during the replacement fit in memory, the answer is
    None exactly if the text is stuck; there is no panic and no other failure. *)
Theorem C16_substitute_decides s vs used d :
  rust_string s -> rust_vars vs ->
  (forall t, intermediate vs d s t -> (Z.of_nat (length t) < two63)%Z) ->
  (stuck vs d s /\ exists used', substitute s vs used d = Ok (None, used')) \/
  (~ stuck vs d s /\ exists out used', substitute s vs used d = Ok (Some out, used') /\ expands vs d s out).
Proof.
  intros Hs Hv Hm. pose proof (substitute_spec vs Hv d s used Hs) as K. unfold call_spec in K.
  destruct (substitute s vs used d) as [[[out|] used']|e| |].
  - right. split; [apply (expands_not_stuck vs d s out); apply K|]. exists out, used'. split; [reflexivity|apply K].
  - left. split; [apply K|]. exists used'. reflexivity.
  - destruct K.
  - destruct K as (t & Ht & Hl). specialize (Hm t Ht). lia.
  - destruct K.
Qed.

(** Cyclic definitions never succeed, whatever the depth. *)
Theorem C16_cycles s vs used d out used' w :
  rust_string s -> rust_vars vs ->
  clos_trans _ (refers vs) w w -> reaches vs s w ->
  substitute s vs used d <> Ok (Some out, used').
Proof.
  intros Hs Hv Hc Hr H. apply (cycle_no_expansion vs w Hc d s out Hr).
  apply (C15_substitute_result s vs used d out used' Hs Hv H).
Qed.

(** A panic needs a text of 2^63 bytes. *)
Theorem C16_no_panic s vs used d :
  rust_string s -> rust_vars vs -> substitute s vs used d = Panic ->
  exists t, intermediate vs d s t /\ (two63 <= Z.of_nat (length t))%Z.
Proof.
  intros Hs Hv H. pose proof (substitute_spec vs Hv d s used Hs) as K.
  unfold call_spec in K. rewrite H in K. exact K.
Qed.

(** ** C17 *)
Theorem C17_used_vars s vs used d out used' :
  rust_string s -> rust_vars vs ->
  substitute s vs used d = Ok (Some out, used') ->
  forall x, In x used' <-> In x used \/ reaches vs s x.
Proof.
  intros Hs Hv H. pose proof (substitute_spec vs Hv d s used Hs) as K.
  unfold call_spec in K. rewrite H in K. apply K.
Qed.

(** A failed call only adds variables that are referenced. *)
Theorem C17_used_vars_failed s vs used d used' :
  rust_string s -> rust_vars vs ->
  substitute s vs used d = Ok (None, used') ->
  (forall x, In x used -> In x used') /\ (forall x, In x used' -> In x used \/ reaches vs s x).
Proof.
  intros Hs Hv H. pose proof (substitute_spec vs Hv d s used Hs) as K.
  unfold call_spec in K. rewrite H in K. split; apply K.
Qed.

Theorem C17_used_vars_set s vs used d r used' :
  NoDup used -> substitute s vs used d = Ok (r, used') -> NoDup used'.
Proof. exact (substitute_nodup vs d s used r used'). Qed.

(** ** C18 *)
Theorem C18_depth_monotone s vs used d d' out used' :
  d <= d' -> substitute s vs used d = Ok (Some out, used') ->
  substitute s vs used d' = Ok (Some out, used').
Proof. exact (substitute_mono vs d d' s used out used'). Qed.

Theorem C18_depth_zero s vs used out used' :
  substitute s vs used 0 = Ok (Some out, used') <->
  (forall w, ~ mentions s w) /\ out = s /\ used' = used.
Proof. exact (substitute_zero vs s used out used'). Qed.

(** A case that meets the hypotheses of C15 - C18: two references, nested twice. *)
Definition example_vars : vars := fun w =>
  if beqb w (bs "tag") then Some (bs "1.$minor") else
  if beqb w (bs "minor") then Some (bs "2") else None.
Example C15_case_vars : rust_vars example_vars.
Proof.
  intros w v. unfold example_vars. destruct (beqb w (bs "tag")); [intros E; injection E as <-; split; reflexivity|].
  destruct (beqb w (bs "minor")); [intros E; injection E as <-; split; reflexivity|discriminate].
Qed.
Example C15_case : rust_string (bs "img:${tag}-$minor$$") /\
  substitute (bs "img:${tag}-$minor$$") example_vars [] 16 =
  Ok (Some (bs "img:1.2-2$$"), [bs "minor"; bs "tag"]).
Proof. split; [split|]; vm_compute; reflexivity. Qed.
Example C16_case : substitute (bs "img:${tag}") example_vars [] 1 = Ok (None, []).
Proof. vm_compute. reflexivity. Qed.
Example C16_case_cycle : clos_trans _ (refers (fun w => Some (bs "$b$a"))) (bs "a") (bs "a").
Proof.
  apply t_step. exists (bs "$b$a"). split; [reflexivity|].
  exists [Ref (bs "b"); Ref (bs "a")]. split; [|right; left; reflexivity].
  apply (reads_ref _ (bs "b") (bs "$a")).
  - apply (ref_plain (bs "b") (bs "$a")); [discriminate|repeat constructor|reflexivity].
  - apply (reads_ref _ (bs "a") []); [|constructor].
    apply (ref_plain (bs "a") []); [discriminate|repeat constructor|exact I].
Qed.

(** ** C19 *)
Lemma segs_ext vs vs' : (forall w, vs w = vs' w) ->
  (forall d s o, expands vs d s o -> expands vs' d s o) /\
  (forall d l o, expands_segs vs d l o -> expands_segs vs' d l o).
Proof.
  intros E. apply (expands_mutind vs (fun d s o _ => expands vs' d s o) (fun d l o _ => expands_segs vs' d l o)).
  - intros d s l out Hr _ H. econstructor; eassumption.
  - intros d. constructor.
  - intros d c l out _ H. constructor. exact H.
  - intros d w v o l out Hv _ H1 _ H2. apply (segs_ref vs' d w v); [rewrite <- E; exact Hv|exact H1|exact H2].
Qed.

Lemma stuck_ext vs vs' d s : (forall w, vs w = vs' w) -> stuck vs d s -> stuck vs' d s.
Proof.
  intros E H. induction H as [s w Hm|d s w Hm Hv|d s w v Hm Hv H IH].
  - eapply stuck_depth; eassumption.
  - eapply stuck_undefined; [eassumption|]. rewrite <- E. exact Hv.
  - eapply stuck_below; [eassumption| |eassumption]. rewrite <- E. exact Hv.
Qed.

Lemma reaches_ext vs vs' s x : (forall w, vs w = vs' w) -> reaches vs s x -> reaches vs' s x.
Proof.
  intros E (a & Ha & H). exists a. split; [exact Ha|]. clear Ha.
  induction H as [a b (v & Hv & Hm)|a|a b c H1 IH1 H2 IH2].
  - apply rt_step. exists v. split; [rewrite <- E; exact Hv|exact Hm].
  - apply rt_refl.
  - apply rt_trans with b; assumption.
Qed.

Lemma values_of_eq l vs : values_of l vs -> forall w, vs w = arg_vars l w.
Proof.
  intros H w. destruct (vs w) as [v|] eqn:E.
  - symmetry. apply arg_vars_spec. apply H. exact E.
  - destruct (arg_vars l w) as [v|] eqn:E2; [|reflexivity].
    apply arg_vars_spec in E2. apply H in E2. congruence.
Qed.

Definition arg_strings (l : list arg_instruction) : Prop :=
  forall a v, In a l -> arg_value a = Some v -> rust_string (ss_content v).

Lemma arg_strings_vars l : arg_strings l -> rust_vars (arg_vars l).
Proof.
  intros H w v E. apply arg_vars_spec in E. destruct E as (l1 & a & l2 & x & -> & _ & Hx & <- & _).
  apply (H a x); [|exact Hx]. apply in_or_app. right. left. reflexivity.
Qed.

(** There is such a map for every list of ARGs. *)
Theorem C19_values_exist l : exists vs, values_of l vs.
Proof. exists (arg_vars l). exact (arg_vars_spec l). Qed.

Theorem C19_resolve_vars i d vs r used :
  values_of (d_global_args d) vs -> arg_strings (d_global_args d) -> rust_string (image_display i) ->
  resolve_vars_with_context i d = Ok (Some (r, used)) ->
  (exists out, expands vs 16 (image_display i) out /\ image_ref_of out r) /\
  (forall x, In x used <-> reaches vs (image_display i) x) /\ NoDup used.
Proof.
  intros Hvs Ha Hi H. unfold resolve_vars_with_context in H.
  pose proof (values_of_eq _ _ Hvs) as E.
  pose proof (substitute_spec _ (arg_strings_vars _ Ha) 16 (image_display i) [] Hi) as K.
  destruct (substitute (image_display i) (arg_vars (d_global_args d)) [] 16) as [[[out|] u]|e| |] eqn:Es;
    cbn [bind] in H; try discriminate.
  injection H as <- <-. destruct K as (K1 & _ & K2). split; [|split].
  - exists out. split; [|apply image_parse_spec; reflexivity].
    apply (proj1 (segs_ext _ vs (fun w => eq_sym (E w)))). exact K1.
  - intros x. rewrite K2. split.
    + intros [[]|Hx]. apply (reaches_ext _ vs _ _ (fun w => eq_sym (E w)) Hx).
    + intros Hx. right. apply (reaches_ext vs _ _ _ E Hx).
  - apply (substitute_nodup _ _ _ _ _ _ (NoDup_nil _) Es).
Qed.

Theorem C19_resolve_vars_none i d vs :
  values_of (d_global_args d) vs -> arg_strings (d_global_args d) -> rust_string (image_display i) ->
  resolve_vars_with_context i d = Ok None -> stuck vs 16 (image_display i).
Proof.
  intros Hvs Ha Hi H. unfold resolve_vars_with_context in H.
  pose proof (values_of_eq _ _ Hvs) as E.
  pose proof (substitute_spec _ (arg_strings_vars _ Ha) 16 (image_display i) [] Hi) as K.
  destruct (substitute (image_display i) (arg_vars (d_global_args d)) [] 16) as [[[out|] u]|e| |] eqn:Es;
    cbn [bind] in H; try discriminate.
  apply (stuck_ext _ _ _ _ (fun w => eq_sym (E w))). apply K.
Qed.

Theorem C19_entry_points_agree i d :
  resolve_vars i d =
  match resolve_vars_with_context i d with
  | Ok (Some (r, _)) => Ok (Some r)
  | Ok None => Ok None
  | Err e => Err e
  | Panic => Panic
  | Diverge => Diverge
  end.
Proof.
  unfold resolve_vars. destruct (resolve_vars_with_context i d) as [[[r u]|]|e| |]; reflexivity.
Qed.

Definition example_arg (n v : string) : arg_instruction :=
  ArgInstruction (Span 0 0) (SpannedString (Span 0 0) (bs n)) (Some (SpannedString (Span 0 0) (bs v))).
Definition example_doc : dockerfile :=
  Dockerfile [] [example_arg "v" "1"; example_arg "base" "a:$v"; example_arg "v" "2"] [].
Example C19_case : arg_strings (d_global_args example_doc) /\
  resolve_vars_with_context (image_parse (bs "r.io/$base")) example_doc =
  Ok (Some (ImageRef (Some (bs "r.io")) (bs "a") (Some (bs "2")) None, [bs "v"; bs "base"])).
Proof.
  split; [|vm_compute; reflexivity].
  intros a v H E. repeat (destruct H as [<-|H]; [injection E as <-; split; reflexivity|]). destruct H.
Qed.

Print Assumptions C13_display_parse.
Print Assumptions C14_parse_rules.
Print Assumptions C14_roundtrip_fields.
Print Assumptions C15_substitute_result.
Print Assumptions C16_substitute_decides.
Print Assumptions C16_cycles.
Print Assumptions C17_used_vars.
Print Assumptions C18_depth_monotone.
Print Assumptions C18_depth_zero.
Print Assumptions C19_resolve_vars.
Print Assumptions C19_resolve_vars_none.

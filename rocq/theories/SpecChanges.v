(** Changes of several kinds to a document, each made at a span of the parse result. *)

From Verif Require Import Bytes Ast Stage SpecImage SpecSyntax SpecParts SpecSplice SpecMove SpecReword SpecArgument SpecAlias.
Local Open Scope nat_scope.

Inductive change :=
  (** another image in a FROM, with what it is read as *)
  | NewImage (sp : span) (t : bytes) (r : image_ref)
  (** another alias in a FROM *)
  | NewAlias (sp : span) (t : bytes)
  (** other text after an equals sign: the value of an ARG, a LABEL, an ENV or a flag *)
  | AfterEquals (sp : span) (t : bytes)
  (** another word in a RUN, a CMD, an ENTRYPOINT, a COPY or another instruction *)
  | NewWord (sp : span) (t : bytes).

Definition change_span (c : change) : span :=
  match c with NewImage sp _ _ | NewAlias sp _ | AfterEquals sp _ | NewWord sp _ => sp end.
Definition change_text (c : change) : bytes :=
  match c with NewImage _ t _ | NewAlias _ t | AfterEquals _ t | NewWord _ t => t end.
(** The call of the splicer for a change *)
Definition change_edit (c : change) : edit := (change_span c, change_text c).

(** The text at the span of an instruction that is replaced must not be part of something
    quoted. *)
Definition not_in_quotes (src : bytes) (sp : span) (i : instruction) : Prop :=
  forall y, In y (quotable_places i) -> around (s_start sp) (s_end sp) y = true -> ~ begins_quoted (text_at src y).

(** When a change can be made: the span is that of an image, of an alias, of a plain text
    after an equals sign or of a plain word, and the new text is of this kind too. *)
Definition can_make (d : dockerfile) (c : change) : Prop :=
  match c with
  | NewImage sp t r => image_accepted t r /\ exists f, In (IFrom f) (d_instructions d) /\ ss_span (from_image f) = sp
  | NewAlias sp t => alias_text t /\ exists f al, In (IFrom f) (d_instructions d) /\ from_alias f = Some al /\ ss_span al = sp
  | AfterEquals sp t =>
    plain_text t /\ plain_text (text_at (d_content d) sp) /\ s_end sp <= length (d_content d) /\
    (exists a, firstn (s_start sp) (d_content d) = a ++ [EQUALS]) /\
    forall i, In i (d_instructions d) -> not_in_quotes (d_content d) sp i
  | NewWord sp t =>
    argument_word t /\ argument_word (text_at (d_content d) sp) /\
    word_before (firstn (s_start sp) (d_content d)) /\ word_after (skipn (s_end sp) (d_content d)) /\
    exists i, In i (d_instructions d) /\ loose_instruction i /\
      s_start (instruction_span i) < s_start sp /\ s_end sp <= s_end (instruction_span i) /\ not_in_quotes (d_content d) sp i
  end.

(** What one change makes of an instruction *)
Definition change_offset (c : change) : nat -> nat :=
  replacement (s_start (change_span c)) (s_end (change_span c)) (length (change_text c)).
Definition changed_instruction (c : change) (i : instruction) : instruction :=
  match c, i with
  | NewImage sp t r, IFrom f =>
    IFrom (if span_eq_dec (ss_span (from_image f)) sp then with_image (move_from (change_offset c) f) t r else move_from (change_offset c) f)
  | NewAlias sp t, IFrom f =>
    IFrom (match from_alias f with
           | Some al => if span_eq_dec (ss_span al) sp then with_alias (move_from (change_offset c) f) t else move_from (change_offset c) f
           | None => move_from (change_offset c) f
           end)
  | NewImage _ _ _, i | NewAlias _ _, i => move_instruction (change_offset c) i
  | AfterEquals sp t, i | NewWord sp t, i => reword_instruction (s_start sp) (s_end sp) t i
  end.
Definition changed_arg (c : change) (x : arg_instruction) : arg_instruction :=
  match c with
  | NewImage _ _ _ | NewAlias _ _ => move_arg (change_offset c) x
  | AfterEquals sp t | NewWord sp t => reword_arg (s_start sp) (s_end sp) t x
  end.

(** What one change makes of a document *)
Definition changed_text (c : change) (text : bytes) : bytes :=
  firstn (s_start (change_span c)) text ++ change_text c ++ skipn (s_end (change_span c)) text.
Definition changed (c : change) (d : dockerfile) : dockerfile :=
  Dockerfile (changed_text c (d_content d)) (map (changed_arg c) (d_global_args d)) (map (changed_instruction c) (d_instructions d)).

(** Several changes, in the order of their spans: the last one first, so that the spans of
    the others stay right. *)
Definition all_changed (cs : list change) (d : dockerfile) : dockerfile := fold_right changed d cs.

(** A FROM before and after these changes: its image and its alias are those of the changes
    made at their spans, or else stay. *)
Definition named (cs : list change) (f f' : from_instruction) : Prop :=
  from_index f' = from_index f /\
  (forall t r, In (NewImage (ss_span (from_image f)) t r) cs -> ss_content (from_image f') = t /\ from_image_parsed f' = r) /\
  ((forall t r, ~ In (NewImage (ss_span (from_image f)) t r) cs) ->
     ss_content (from_image f') = ss_content (from_image f) /\ from_image_parsed f' = from_image_parsed f) /\
  match from_alias f, from_alias f' with
  | Some al, Some al' =>
    (forall t, In (NewAlias (ss_span al) t) cs -> ss_content al' = t) /\
    ((forall t, ~ In (NewAlias (ss_span al) t) cs) -> ss_content al' = ss_content al)
  | None, None => True
  | _, _ => False
  end.

(** The changes of names among others *)
Definition is_name_change (c : change) : bool :=
  match c with NewImage _ _ _ | NewAlias _ _ => true | AfterEquals _ _ | NewWord _ _ => false end.

(** The changes that rename stage number [k] of the stages [ss] to [n], which reads as the
    image [r]: its alias, and the images of the FROMs whose parent it is *)
Definition stage_change (ss : list stage) (k : nat) (n : bytes) (r : image_ref) (i : instruction) : list change :=
  match i with
  | IFrom f =>
    match stage_image ss k n r f with Some (t, r') => [NewImage (ss_span (from_image f)) t r'] | None => [] end ++
    match from_alias f, stage_alias k n f with Some al, Some t => [NewAlias (ss_span al) t] | _, _ => [] end
  | _ => []
  end.
Definition stage_changes (ss : list stage) (k : nat) (n : bytes) (r : image_ref) (l : list instruction) : list change :=
  flat_map (stage_change ss k n r) l.

(** Specification of splicing: what the text should be after a history of
    replacements. *)

From Verif Require Import Bytes Result Ast Splicer.
Local Open Scope nat_scope.

(** An edit: replace the text at a span of the original document. *)
Notation edit := (span * bytes)%type (only parsing).

(** Calling [splice] once for each edit, in this order. *)
Definition splice_all (st : splicer) (ops : list edit) : outcome splicer :=
  for_each (fun st op => splice st (fst op) (snd op)) ops st.

(** Spans in increasing order, non-empty, not overlapping, from [pos] on and up to
    [len]. *)
Fixpoint in_order (pos len : nat) (sps : list span) : Prop :=
  match sps with
  | [] => True
  | sp :: sps' =>
    pos <= s_start sp /\ s_start sp < s_end sp /\ s_end sp <= len /\ in_order (s_end sp) len sps'
  end.

(** The same, but the spans may be empty. *)
Fixpoint ordered (pos len : nat) (sps : list span) : Prop :=
  match sps with
  | [] => True
  | sp :: sps' =>
    pos <= s_start sp /\ s_start sp <= s_end sp /\ s_end sp <= len /\ ordered (s_end sp) len sps'
  end.

(** The document from [pos] on with all the edits made at the same time. *)
Fixpoint replaced (doc : bytes) (pos : nat) (edits : list edit) : bytes :=
  match edits with
  | [] => skipn pos doc
  | (sp, r) :: edits' => slice doc pos (s_start sp) ++ r ++ replaced doc (s_end sp) edits'
  end.

(** Both ends of the span are character boundaries of the document. *)
Definition on_boundaries (doc : bytes) (sp : span) : Prop :=
  is_boundary doc (s_start sp) = true /\ is_boundary doc (s_end sp) = true.

(** The bytes of all replacement texts. *)
Definition text_size (ops : list edit) : nat := list_sum (map (fun op => length (snd op)) ops).

(** The texts together can exist in memory. *)
Definition fits (doc : bytes) (ops : list edit) : Prop :=
  (Z.of_nat (length doc + text_size ops) < two63)%Z.

Definition span_eq_dec (a b : span) : {a = b} + {a <> b}.
Proof. decide equality; apply Nat.eq_dec. Defined.

(** The text given last for a span. *)
Fixpoint last_text (ops : list edit) (sp : span) : option bytes :=
  match ops with
  | [] => None
  | (sp', r) :: ops' =>
    match last_text ops' sp with
    | Some x => Some x
    | None => if span_eq_dec sp' sp then Some r else None
    end
  end.

(** One edit for each of these spans that was spliced, with the text given last. *)
Definition last_edits (sps : list span) (ops : list edit) : list edit :=
  flat_map (fun sp => match last_text ops sp with Some r => [(sp, r)] | None => [] end) sps.

(** A span whose text was deleted is not spliced again. *)
Definition no_splice_after_delete (ops : list edit) : Prop :=
  forall ops1 sp ops2, ops = ops1 ++ (sp, []) :: ops2 -> ~ In sp (map fst ops2).

Definition inside (inner outer : span) : Prop :=
  s_start outer <= s_start inner /\ s_end inner <= s_end outer.

(** Some of these texts, one after the other. *)
Definition made_of (ts : list bytes) (s : bytes) : Prop := exists l, s = concat l /\ incl l ts.

(** Text lies between any two of these spans. *)
Fixpoint apart (sps : list span) : Prop :=
  match sps with
  | sp :: ((sp' :: _) as sps') => s_end sp < s_start sp' /\ apart sps'
  | _ => True
  end.

(** The texts given for a span, in this order *)
Definition texts_for (sp : span) (ops : list edit) : list bytes :=
  map snd (filter (fun op => if span_eq_dec (fst op) sp then true else false) ops).

(** The text at a span, as the part that the next splice replaces and the part that no
    splice reaches any more.  Where the first part is empty, a text that is spliced goes
    to the front of the second. *)
Definition splice_again (now : bytes * bytes) (t : bytes) : bytes * bytes :=
  match fst now with
  | [] => ([], t ++ snd now)
  | _ :: _ => (t, snd now)
  end.
Definition text_after (original : bytes) (ts : list bytes) : bytes :=
  let '(m, r) := fold_left splice_again ts (original, []) in m ++ r.

(** The part that no splice reaches any more, of an inner span that ends where the outer
    span ends *)
Definition left_behind (doc : bytes) (inner : list span) (outer : span) (ops : list edit) : bytes :=
  concat (map (fun sp => if s_end sp =? s_end outer
    then snd (fold_left splice_again (texts_for sp ops) (slice doc (s_start sp) (s_end sp), [])) else []) inner).

(** ** Spans that may touch *)

(** The spans in their order, each with the two parts of its text, as above: the part that
    the next splice replaces and the part that no splice reaches any more *)
Notation spans_now := (list (span * (bytes * bytes)))%type (only parsing).

(** The text [t] given for the span [sp], whose first part is empty; [r] is its second
    part and [rest] are the spans after it.  If the next span begins at the same place, it
    is that span that gets the text: at the front of its first part, if it has one. *)
Fixpoint give (sp : span) (r t : bytes) (rest : spans_now) : spans_now :=
  match r, rest with
  | [], (sp2, (m2, r2)) :: rest2 =>
    if s_end sp =? s_start sp2
    then (sp, ([], [])) :: match m2 with [] => give sp2 r2 t rest2 | _ :: _ => (sp2, (t ++ m2, r2)) :: rest2 end
    else (sp, ([], t)) :: rest
  | _, _ => (sp, ([], t ++ r)) :: rest
  end.

Fixpoint splice_one (op : edit) (now : spans_now) : spans_now :=
  match now with
  | [] => []
  | (sp, (m, r)) :: rest =>
    if span_eq_dec (fst op) sp
    then match m with [] => give sp r (snd op) rest | _ :: _ => (sp, (snd op, r)) :: rest end
    else (sp, (m, r)) :: splice_one op rest
  end.

Definition splice_each (doc : bytes) (sps : list span) (ops : list edit) : spans_now :=
  fold_left (fun now op => splice_one op now) ops (map (fun sp => (sp, (slice doc (s_start sp) (s_end sp), []))) sps).

(** Specification of image references and of variable substitution, written
    without reference to the algorithms of Image.v. *)

From Coq Require Import Relation_Operators.
From Coq Require Import String.
From Verif Require Import Bytes Ast.
Local Open Scope nat_scope.

(** ** Image references *)

(** "localhost", or a text with a dot or a colon *)
Definition registry_host (r : bytes) : Prop :=
  r = bs "localhost" \/ In DOT r \/ In COLON r.

(** [s] begins with a registry [r] and continues, after a slash, with [rest]. *)
Definition has_registry (s r rest : bytes) : Prop :=
  s = r ++ SLASH :: rest /\ ~ In SLASH r /\ registry_host r.

(** The part after the registry: split at the first @, otherwise at the first colon. *)
Inductive splits_into : bytes -> bytes -> option bytes -> option bytes -> Prop :=
| split_hash image hash :
    ~ In AT image -> splits_into (image ++ AT :: hash) image None (Some hash)
| split_tag image tag :
    ~ In AT (image ++ COLON :: tag) -> ~ In COLON image ->
    splits_into (image ++ COLON :: tag) image (Some tag) None
| split_plain image :
    ~ In AT image -> ~ In COLON image -> splits_into image image None None.

Definition image_ref_of (s : bytes) (i : image_ref) : Prop :=
  (exists rest, (exists r, has_registry s r rest /\ i_registry i = Some r) /\
                splits_into rest (i_image i) (i_tag i) (i_hash i))
  \/
  ((forall r rest, ~ has_registry s r rest) /\ i_registry i = None /\
   splits_into s (i_image i) (i_tag i) (i_hash i)).

(** ** Variable references in a text *)

Definition all_word (w : bytes) : Prop := Forall (fun c => is_word c = true) w.

(** The first byte of [s], if any, is not a word character. *)
Definition word_ends (s : bytes) : Prop :=
  match s with [] => True | c :: _ => is_word c = false end.

(** [s] begins with $w or ${w}, and [rest] follows. *)
Inductive begins_with_ref : bytes -> bytes -> bytes -> Prop :=
| ref_plain w rest : w <> [] -> all_word w -> word_ends rest ->
    begins_with_ref (DOLLAR :: w ++ rest) w rest
| ref_brace w rest : w <> [] -> all_word w ->
    begins_with_ref (DOLLAR :: LBRACE :: w ++ RBRACE :: rest) w rest.

(** A text as a sequence of plain bytes and variable references, read from left to
    right: a reference is taken wherever one begins. *)
Inductive segment : Type := Lit (c : N) | Ref (name : bytes).

Inductive reads_as : bytes -> list segment -> Prop :=
| reads_nil : reads_as [] []
| reads_ref s w rest l : begins_with_ref s w rest -> reads_as rest l -> reads_as s (Ref w :: l)
| reads_lit c s l : (forall w rest, ~ begins_with_ref (c :: s) w rest) -> reads_as s l ->
    reads_as (c :: s) (Lit c :: l).

(** The variables referenced in a text. *)
Definition mentions (s w : bytes) : Prop := exists l, reads_as s l /\ In (Ref w) l.

Section Vars.
(** The map of variables: name to value. *)
Variable vs : bytes -> option bytes.

(** [expands d s out]: replacing every reference in [s] by the expansion of its
    value, nested at most [d] deep, gives [out]. *)
Inductive expands : nat -> bytes -> bytes -> Prop :=
| expands_text d s l out : reads_as s l -> expands_segs d l out -> expands d s out
with expands_segs : nat -> list segment -> bytes -> Prop :=
| segs_nil d : expands_segs d [] []
| segs_lit d c l out : expands_segs d l out -> expands_segs d (Lit c :: l) (c :: out)
| segs_ref d w v o l out : vs w = Some v -> expands d v o -> expands_segs (S d) l out ->
    expands_segs (S d) (Ref w :: l) (o ++ out).

(** [stuck d s]: some reference reached from [s] has no value, or is nested deeper
    than [d]. *)
Inductive stuck : nat -> bytes -> Prop :=
| stuck_depth s w : mentions s w -> stuck 0 s
| stuck_undefined d s w : mentions s w -> vs w = None -> stuck d s
| stuck_below d s w v : mentions s w -> vs w = Some v -> stuck d v -> stuck (S d) s.

(** The value of [a] mentions [b]. *)
Definition refers (a b : bytes) : Prop := exists v, vs a = Some v /\ mentions v b.

(** [w] is referenced from [s], directly or through other variables. *)
Definition reaches (s w : bytes) : Prop :=
  exists a, mentions s a /\ clos_refl_trans _ refers a w.

(** Texts that exist while the references of [s] are being replaced from left to
    right: some references replaced, the rest of the text as it was; also those of
    the nested replacements. *)
Inductive intermediate : nat -> bytes -> bytes -> Prop :=
| inter_here d s l1 l2 rest pre o :
    s = pre ++ rest -> reads_as s (l1 ++ l2) -> reads_as rest l2 -> expands_segs d l1 o ->
    intermediate d s (o ++ rest)
| inter_below d s w v t : mentions s w -> vs w = Some v -> intermediate d v t ->
    intermediate (S d) s t.
End Vars.

(** The value that the last of these ARGs with this name and a value gives it. *)
Definition last_value (l : list arg_instruction) (name v : bytes) : Prop :=
  exists l1 a l2 x, l = l1 ++ a :: l2 /\ ss_content (arg_name a) = name /\
    arg_value a = Some x /\ ss_content x = v /\
    (forall b, In b l2 -> ss_content (arg_name b) = name -> arg_value b = None).

(** [vs] is the map of the values of these ARGs. *)
Definition values_of (l : list arg_instruction) (vs : bytes -> option bytes) : Prop :=
  forall name v, vs name = Some v <-> last_value l name v.

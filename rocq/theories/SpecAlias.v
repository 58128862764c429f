(** A FROM with another alias, and documents with new images and aliases. *)

From Coq Require Import String.
From Verif Require Import Bytes Ast Stage SpecImage SpecSplice SpecMove SpecStage SpecRename.
Local Open Scope nat_scope.

Definition with_alias (x : from_instruction) (text : bytes) : from_instruction :=
  FromInstruction (from_span x) (from_flags x) (from_image x) (from_image_parsed x) (from_index x)
    (option_map (fun a => SpannedString (ss_span a) text) (from_alias x)).

Section Names.
(** A new image (with what it is read as) and a new alias for some of the FROMs *)
Variable choose : from_instruction -> option (bytes * image_ref).
Variable call : from_instruction -> option bytes.

Definition alias_edit (f : from_instruction) : list edit :=
  match from_alias f, call f with
  | Some a, Some t => [(ss_span a, t)]
  | _, _ => []
  end.
Definition name_edit (i : instruction) : list edit :=
  match i with
  | IFrom f => image_edit choose (IFrom f) ++ alias_edit f
  | _ => []
  end.
Definition name_edits (l : list instruction) : list edit := flat_map name_edit l.

Definition from_with_names (g : nat -> nat) (f : from_instruction) : from_instruction :=
  let f1 := move_from g f in
  let f2 := match call f with Some t => with_alias f1 t | None => f1 end in
  match choose f with Some (t, r) => with_image f2 t r | None => f2 end.
Definition with_new_names (g : nat -> nat) (i : instruction) : instruction :=
  match i with
  | IFrom f => IFrom (from_with_names g f)
  | i => move_instruction g i
  end.

End Names.

(** ** Renaming one stage *)

(** Stage number [k] of the stages [ss] is to be called [n]: its own alias, and the
    images of the FROMs of the stages whose parent it is; [r] is how [n] reads as an
    image. *)
Definition stage_alias (k : nat) (n : bytes) (f : from_instruction) : option bytes :=
  if from_index f =? k then Some n else None.
Definition stage_image (ss : list stage) (k : nat) (n : bytes) (r : image_ref) (f : from_instruction) : option (bytes * image_ref) :=
  match option_map st_parent (nth_error ss (from_index f)) with
  | Some (PStage j) => if j =? k then Some (n, r) else None
  | _ => None
  end.
Definition stage_edits (ss : list stage) (k : nat) (n : bytes) (r : image_ref) (l : list instruction) : list edit :=
  name_edits (stage_image ss k n r) (stage_alias k n) l.

(** No FROM has this name, as alias or as image, in any letter case; nor is it scratch. *)
Definition new_name (l : list instruction) (n : bytes) : Prop :=
  ~ same_nocase n (bs "scratch") /\
  forall f, In (IFrom f) l -> ~ image_is f n /\ ~ alias_is f n.

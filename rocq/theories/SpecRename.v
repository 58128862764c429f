(** What the stages of two documents have in common when only the names differ. *)

From Coq Require Import String.
From Verif Require Import Bytes Ast Stage SpecStage.
Local Open Scope nat_scope.

(** The FROM instructions, in order *)
Fixpoint froms (l : list instruction) : list from_instruction :=
  match l with
  | [] => []
  | IFrom f :: l' => f :: froms l'
  | _ :: l' => froms l'
  end.

(** The FROM has an alias equal to [name] up to case. *)
Definition alias_is (f : from_instruction) (name : bytes) : Prop :=
  exists a, from_alias f = Some a /\ same_nocase (ss_content a) name.
Definition image_is (f : from_instruction) (name : bytes) : Prop := same_nocase (ss_content (from_image f)) name.

(** Each image is "scratch" in both or in neither; it is the alias of an earlier FROM in
    both or in neither. *)
Definition same_references (fs fs' : list from_instruction) : Prop :=
  length fs = length fs' /\
  forall i f f', nth_error fs i = Some f -> nth_error fs' i = Some f' ->
    (image_is f (bs "scratch") <-> image_is f' (bs "scratch")) /\
    forall j g g', j < i -> nth_error fs j = Some g -> nth_error fs' j = Some g' ->
      (alias_is g (ss_content (from_image f)) <-> alias_is g' (ss_content (from_image f'))).

(** The same parent or root: the same stage, scratch both, or the images of the FROM
    with the same number (which is at most [i]). *)
Inductive alike (fs fs' : list from_instruction) (i : nat) : stage_parent -> stage_parent -> Prop :=
| alike_stage k : k < i -> alike fs fs' i (PStage k) (PStage k)
| alike_scratch : alike fs fs' i PScratch PScratch
| alike_image k f f' : k <= i -> nth_error fs k = Some f -> nth_error fs' k = Some f' ->
    alike fs fs' i (PImage (from_image_parsed f)) (PImage (from_image_parsed f')).

(** A renaming of the aliases and images of a FROM; [r] is applied to names in lower case. *)
Definition renamed (r : bytes -> bytes) (f f' : from_instruction) : Prop :=
  to_lower (ss_content (from_image f')) = r (to_lower (ss_content (from_image f))) /\
  option_map (fun a => to_lower (ss_content a)) (from_alias f') =
    option_map (fun a => r (to_lower (ss_content a))) (from_alias f).

(** The names, in lower case, that a list of FROM uses *)
Definition used_names (fs : list from_instruction) (n : bytes) : Prop :=
  n = bs "scratch" \/
  exists f, In f fs /\ (n = to_lower (ss_content (from_image f)) \/ exists a, from_alias f = Some a /\ n = to_lower (ss_content a)).

Definition keeps_apart (r : bytes -> bytes) (fs : list from_instruction) : Prop :=
  r (bs "scratch") = bs "scratch" /\
  forall n m, used_names fs n -> used_names fs m -> r n = r m -> n = m.

(** Words of the instructions that are not taken apart any further: RUN, CMD,
    ENTRYPOINT, COPY and the other instructions without a meaning of their own. *)

From Coq Require Import String.
From Verif Require Import Bytes Ast SpecSyntax SpecClear SpecReword.
Local Open Scope nat_scope.

(** A word that is neither the beginning or the end of a list, nor a comment, nor a flag *)
Definition argument_word (w : bytes) : Prop :=
  plain_text w /\ ~ begins_with LBRACK w /\ ~ begins_with RBRACK w /\ ~ begins_with COMMA w /\ ~ begins_with HASH w /\
  (forall t, w <> DASH :: DASH :: t).

(** The instructions whose text after the name is read as a command, as words or not at
    all.  The name of another instruction must not begin like a word that the grammar
    looks for elsewhere. *)
Definition sought_words : list string := ["from"; "arg"; "label"; "env"; "as"]%string.
Definition loose_instruction (i : instruction) : Prop :=
  match i with
  | IRun _ | IEntrypoint _ | ICmd _ | ICopy _ => True
  | IMisc x => Forall (fun k => firstn (length (bs k)) (to_lower (ss_content (misc_name x))) <> bs k) sought_words
  | IFrom _ | IArg _ | ILabel _ | IEnv _ => False
  end.

(** A blank or a newline before, and something that ends a word, or nothing, after *)
Definition word_before (a : bytes) : Prop := exists u z, a = u ++ [z] /\ (is_blank z = true \/ is_newline_byte z = true).
Definition word_after (b : bytes) : Prop := match b with c :: _ => plain_byte c = false | [] => True end.

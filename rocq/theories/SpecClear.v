(** Documents written without ambiguity: a part of the concrete syntax of
    SpecSyntax.v, for which it is promised that parsing succeeds and gives exactly
    what was written.  Nothing here refers to the grammar, the parser or its tokens.

    The conditions that are added to those of SpecSyntax.v exclude texts that
    Dockerfile syntax lets one read in two ways: a word that ends in a backslash, a
    path that looks like a flag, a shell command that begins with a list of strings, a value
    that begins with a quote and is not a quoted string, and so on. *)

From Coq Require Import String.
From Verif Require Import Bytes Ast SpecImage SpecSyntax.
Local Open Scope nat_scope.

(** A gap before such a character ends there. *)
Definition solid (c : N) : Prop :=
  is_blank c = false /\ is_newline_byte c = false /\ c <> HASH /\ c <> BSLASH.
Definition begins_solid (w : bytes) : Prop := exists c t, w = c :: t /\ solid c.

Definition begins_with (c : N) (w : bytes) : Prop := exists t, w = c :: t.
Definition begins_with_quote (w : bytes) : Prop := begins_with DQUOTE w \/ begins_with SQUOTE w.

(** With a newline after it, the end would be a line continuation. *)
Definition ends_in_backslash (w : bytes) : Prop := exists t b, w = t ++ BSLASH :: b /\ blanks b.

(** What looks like the beginning of an array of strings *)
Definition begins_array (w : bytes) : Prop :=
  exists b c t, w = LBRACK :: b ++ c :: t /\ blanks b /\
    (c = DQUOTE \/ c = SQUOTE \/ c = RBRACK \/ c = BSLASH).


(** A list of quoted strings between brackets, as text: gaps may stand anywhere, and one
    comma at the end. *)
Inductive more_items : bytes -> Prop :=
| no_more_items : more_items []
| next_item j g1 k g2 w w2 : gap j g1 -> gap k g2 -> quoted_text w -> more_items w2 ->
    more_items (g1 ++ COMMA :: g2 ++ w ++ w2).
Inductive list_text : bytes -> Prop :=
| empty_list k g : gap k g -> list_text (LBRACK :: g ++ [RBRACK])
| string_list k g w m comma j g2 : gap k g -> quoted_text w -> more_items m -> comma = [] \/ comma = [COMMA] -> gap j g2 ->
    list_text (LBRACK :: g ++ w ++ m ++ comma ++ g2 ++ [RBRACK]).

(** A text that begins with a list, and one that does not, whatever the following lines are *)
Definition begins_list (w : bytes) : Prop := exists u r, w = u ++ r /\ list_text u.
Definition never_list (w : bytes) : Prop :=
  forall s, s = [] \/ (exists n t, s = n :: t /\ is_newline_byte n = true) -> valid_utf8 s = true -> ~ begins_list (w ++ s).

(** The keywords with a syntax of their own *)
Definition reserved : list string :=
  ["from"; "run"; "arg"; "label"; "copy"; "entrypoint"; "cmd"; "env"]%string.

Section Clear.
Variable unq : bytes -> option bytes.

(** ** Parts *)

Definition clear_value (w : bytes) : Prop :=
  word w /\ ~ begins_with_quote w /\ ~ ends_in_backslash w.

Definition clear_flag_at (p : nat) (w : bytes) (x : flag) : Prop :=
  flag_at unq p w x /\ ~ ends_in_backslash w.

Definition clear_path_at (p : nat) (w : bytes) (x : spanned_string) : Prop :=
  path_at unq p w x /\ begins_solid w /\ ~ ends_in_backslash w /\ (forall t, w <> DASH :: DASH :: t).

Definition clear_label_name_at (p : nat) (w : bytes) (x : spanned_string) : Prop :=
  clean_quoted_at unq p w x \/
  (label_word w /\ begins_solid w /\ ~ begins_with_quote w /\ string_at unq p w x).
Definition clear_label_value_at (p : nat) (w : bytes) (x : spanned_string) : Prop :=
  clean_quoted_at unq p w x \/ (clear_value w /\ string_at unq p w x).

Definition clear_label_pair_at (p : nat) (w : bytes) (x : label) : Prop :=
  exists n v, w = n ++ EQUALS :: v /\ clear_label_name_at p n (lb_name x) /\
    clear_label_value_at (p + length n + 1) v (lb_value x) /\ lb_span x = at_ p w.

Definition clear_env_pair_at (p : nat) (w : bytes) (x : env_var) : Prop :=
  exists n v, w = n ++ EQUALS :: v /\ env_name_text n /\ ev_key x = SpannedString (at_ p n) n /\
    (quoted_value_at unq (p + length n + 1) v (ev_value x) \/
     (clear_value v /\ plain_value_at (p + length n + 1) v v (ev_value x))) /\
    ev_span x = at_ p w.

(** ** Shell texts: lines joined by continuations, and comment lines after them *)
Inductive clear_shell_at : nat -> bytes -> list breakable_component -> Prop :=
| clear_text p w : chunk w -> ~ comment_like w -> ~ ends_in_backslash w ->
    clear_shell_at p w [text_part p w]
| clear_continued p w c w2 l : chunk w -> ~ comment_like w -> continuation c ->
    clear_shell_at (p + length w + length c) w2 l ->
    clear_shell_at p (w ++ c ++ w2) (text_part p w :: l)
| clear_comment_line p b t n : blanks b -> comment_text t -> newline n -> n <> [CR] ->
    clear_shell_at p (b ++ t ++ n) [comment_part (p + length b) t]
| clear_after_comment p b t n w l : blanks b -> comment_text t -> newline n ->
    clear_shell_at (p + length b + length t + length n) w l ->
    clear_shell_at p (b ++ t ++ n ++ w) (comment_part (p + length b) t :: l).

Definition clear_breakable_at (p : nat) (w : bytes) (x : breakable_string) : Prop :=
  exists l, clear_shell_at p w l /\ x = BreakableString (at_ p w) l.

(** ** Instructions that end with their last character: blanks may follow *)

Definition clear_from_at (p : nat) (w : bytes) (x : from_instruction) : Prop :=
  exists kw fl k g img al, w = kw ++ fl ++ g ++ img ++ al /\ keyword "from" kw /\
    spaced clear_flag_at (p + length kw) fl (from_flags x) /\ gap k g /\ g <> [] /\
    image_text img /\ ~ begins_with DASH img /\
    from_image x = SpannedString (at_ (p + length kw + length fl + length g) img) img /\
    image_ref_of img (from_image_parsed x) /\
    (forall h, i_hash (from_image_parsed x) = Some h -> digest_accepted h) /\
    alias_at (p + length kw + length fl + length g + length img) al (from_alias x) /\
    from_span x = at_ p w.

Definition clear_arg_at (p : nat) (w : bytes) (x : arg_instruction) : Prop :=
  exists kw k g name rest, w = kw ++ g ++ name ++ rest /\ keyword "arg" kw /\ gap k g /\ g <> [] /\
    arg_name_text name /\ arg_name x = SpannedString (at_ (p + length kw + length g) name) name /\
    arg_span x = at_ p w /\
    ((rest = [] /\ arg_value x = None) \/
     exists value v, rest = EQUALS :: value /\ (quoted_text value \/ clear_value value) /\
       string_at unq (p + length kw + length g + length name + 1) value v /\ arg_value x = Some v).

Definition clear_copy_at (p : nat) (w : bytes) (x : copy_instruction) : Prop :=
  exists kw fl paths, w = kw ++ fl ++ paths /\ keyword "copy" kw /\
    spaced clear_flag_at (p + length kw) fl (copy_flags x) /\
    spaced clear_path_at (p + length kw + length fl) paths (copy_sources x ++ [copy_destination x]) /\
    copy_sources x <> [] /\ copy_span x = at_ p w.

(** LABEL name value *)
Definition clear_label_single_at (p : nat) (w : bytes) (x : label_instruction) : Prop :=
  exists kw j g1 n k c g2 v lb, w = kw ++ g1 ++ n ++ (c :: g2) ++ v /\ keyword "label" kw /\
    gap j g1 /\ g1 <> [] /\ is_blank c = true /\ gap k (c :: g2) /\
    clear_label_name_at (p + length kw + length g1) n (lb_name lb) /\ begins_solid v /\
    clear_label_value_at (p + length kw + length g1 + length n + length (c :: g2)) v (lb_value lb) /\
    lb_span lb = at_ (p + length kw) (g1 ++ n ++ (c :: g2) ++ v) /\
    x = LabelInstruction (at_ p w) [lb].

(** RUN, CMD or ENTRYPOINT with an array *)
Definition clear_exec_at (k : string) (p : nat) (w : bytes) (sp : span) (e : shell_or_exec) : Prop :=
  exists kw g cmd a, w = kw ++ g ++ cmd /\ keyword k kw /\ gap 0 g /\ g <> [] /\
    array_at unq (p + length kw + length g) cmd a /\ e = Exec a /\ sp = at_ p w.

(** ENV name "value" *)
Definition clear_env_quoted_at (p : nat) (w : bytes) (x : env_instruction) : Prop :=
  exists kw j g1 n k g2 v e, w = kw ++ g1 ++ n ++ g2 ++ v /\ keyword "env" kw /\
    gap j g1 /\ g1 <> [] /\ gap k g2 /\ g2 <> [] /\
    env_name_text n /\ ev_key e = SpannedString (at_ (p + length kw + length g1) n) n /\
    quoted_value_at unq (p + length kw + length g1 + length n + length g2) v (ev_value e) /\
    ev_span e = at_ (p + length kw + length g1) (n ++ g2 ++ v) /\
    x = EnvInstruction (at_ p w) [e].

Definition clear_closed_at (p : nat) (w : bytes) (i : instruction) : Prop :=
  match i with
  | IFrom x => clear_from_at p w x
  | IArg x => clear_arg_at p w x
  | ILabel x => clear_label_single_at p w x
  | IRun x => clear_exec_at "run" p w (run_span x) (run_expr x)
  | IEntrypoint x => clear_exec_at "entrypoint" p w (entrypoint_span x) (entrypoint_expr x)
  | ICmd x => clear_exec_at "cmd" p w (cmd_span x) (cmd_expr x)
  | ICopy x => clear_copy_at p w x
  | IEnv x => clear_env_quoted_at p w x
  | IMisc _ => False
  end.

(** ** Instructions that run to the end of the line: blanks there belong to them *)

(** LABEL name=value ... *)
Definition clear_labels_at (p : nat) (w : bytes) (x : label_instruction) : Prop :=
  exists kw pairs b, w = kw ++ pairs ++ b /\ keyword "label" kw /\ label_span x = at_ p w /\
    spaced clear_label_pair_at (p + length kw) pairs (label_labels x) /\ blanks b /\ pairs ++ b <> [].

(** ENV name=value ... *)
Definition clear_envs_at (p : nat) (w : bytes) (x : env_instruction) : Prop :=
  exists kw pairs b, w = kw ++ pairs ++ b /\ keyword "env" kw /\ env_span x = at_ p w /\
    spaced clear_env_pair_at (p + length kw) pairs (env_vars x) /\ blanks b /\ pairs ++ b <> [].

(** ENV name text *)
Definition clear_env_shell_at (p : nat) (w : bytes) (x : env_instruction) : Prop :=
  exists kw j g1 n k g2 v e, w = kw ++ g1 ++ n ++ g2 ++ v /\ keyword "env" kw /\
    gap j g1 /\ g1 <> [] /\ gap k g2 /\ g2 <> [] /\
    env_name_text n /\ ev_key e = SpannedString (at_ (p + length kw + length g1) n) n /\
    begins_solid v /\ ~ begins_with_quote v /\
    clear_breakable_at (p + length kw + length g1 + length n + length g2) v (ev_value e) /\
    ev_span e = at_ (p + length kw + length g1) (n ++ g2 ++ v) /\
    x = EnvInstruction (at_ p w) [e].

(** RUN, CMD or ENTRYPOINT with a shell command *)
Definition clear_command_at (k : string) (p : nat) (w : bytes) (sp : span) (e : shell_or_exec) : Prop :=
  exists kw g cmd s, w = kw ++ g ++ cmd /\ keyword k kw /\ gap 0 g /\ g <> [] /\
    begins_solid cmd /\ never_list cmd /\
    clear_breakable_at (p + length kw + length g) cmd s /\ e = Shell s /\ sp = at_ p w.

Definition clear_misc_at (p : nat) (w : bytes) (x : misc_instruction) : Prop :=
  exists name args, w = name ++ args /\ letters name /\ (forall k, In k reserved -> ~ keyword k name) /\
    (match args with c :: _ => is_alpha c = false | [] => True end) /\ ~ comment_like args /\
    misc_name x = SpannedString (at_ p name) name /\
    clear_breakable_at (p + length name) args (misc_arguments x) /\ misc_span x = at_ p w.

Definition clear_open_at (p : nat) (w : bytes) (i : instruction) : Prop :=
  match i with
  | ILabel x => clear_labels_at p w x
  | IRun x => clear_command_at "run" p w (run_span x) (run_expr x)
  | IEntrypoint x => clear_command_at "entrypoint" p w (entrypoint_span x) (entrypoint_expr x)
  | ICmd x => clear_command_at "cmd" p w (cmd_span x) (cmd_expr x)
  | IEnv x => clear_envs_at p w x \/ clear_env_shell_at p w x
  | IMisc x => clear_misc_at p w x
  | _ => False
  end.

(** ** Documents *)

Inductive clear_line_at : nat -> bytes -> list instruction -> Prop :=
| clear_blank p b : blanks b -> clear_line_at p b []
| clear_comment p b t : blanks b -> comment_text t -> clear_line_at p (b ++ t) []
| clear_closed p b w b2 i : blanks b -> clear_closed_at (p + length b) w i -> blanks b2 ->
    clear_line_at p (b ++ w ++ b2) [i]
| clear_open p b w i : blanks b -> clear_open_at (p + length b) w i ->
    clear_line_at p (b ++ w) [i].

Inductive clear_document_at : nat -> bytes -> list instruction -> Prop :=
| clear_last p w l : clear_line_at p w l -> clear_document_at p w l
| clear_more p w n w2 l l2 : clear_line_at p w l -> newline n ->
    clear_document_at (p + length w + length n) w2 l2 ->
    clear_document_at p (w ++ n ++ w2) (l ++ l2).

(** The FROM instructions are numbered from [n] in the order in which they stand
    (a line alone does not determine the number). *)
Fixpoint numbered (n : nat) (l : list instruction) : list instruction :=
  match l with
  | [] => []
  | IFrom f :: l' =>
    IFrom (FromInstruction (from_span f) (from_flags f) (from_image f) (from_image_parsed f) n (from_alias f))
      :: numbered (S n) l'
  | i :: l' => i :: numbered n l'
  end.

Definition clear_document (input : bytes) (l : list instruction) : Prop := clear_document_at 0 input l.

End Clear.

(** Exactly how a document is read.  SpecSyntax.v says what may be written; some texts can
    be divided into its parts in more than one way.  Here each part is given together with
    the text [s] that follows it, and the conditions say which division is meant: gaps and
    words go as far as they can, a quoted string is preferred to a word, a list of strings
    to a shell command, a flag to a path, an instruction with a syntax of its own to one
    with any name.  Nothing here refers to the grammar, the parser or its tokens.

    [X_reads p w s x] reads: the text [w], at offset [p] of the document and followed by
    [s], writes [x]. *)

From Coq Require Import String.
From Verif Require Import Bytes Ast SpecImage SpecSyntax SpecClear.
Local Open Scope nat_scope.

(** ** Where a part ends *)

(** The end of a line or of the document *)
Definition ends_here (s : bytes) : Prop := match s with [] => True | c :: _ => is_newline_byte c = true end.

Definition continues_here (s : bytes) : Prop := exists c t, s = c ++ t /\ continuation c.
Definition has_newline (w : bytes) : Prop := exists c, In c w /\ is_newline_byte c = true.

(** The gap [g] ends before [s]: no blank and no continuation follow, and after a line break
    no empty line and no comment. *)
Definition gap_over (g s : bytes) : Prop :=
  ~ continues_here s /\
  match s with
  | [] => True
  | c :: _ => is_blank c = false /\ (has_newline g -> c <> HASH /\ is_newline_byte c = false)
  end.

(** A gap; at the end of the document the last comment may lack its newline. *)
Definition gap_before (g s : bytes) : Prop :=
  ((exists k, gap k g) \/ (s = [] /\ last_gap g)) /\ gap_over g s.

(** What is left after a gap *)
Definition after_gap (u t : bytes) : Prop := exists g, u = g ++ t /\ g <> [] /\ gap_before g t.

(** The word [w] ends before [s]: a blank, the end of the line or a continuation follows,
    and the last character of the word does not itself begin a continuation. *)
Definition word_over (w s : bytes) : Prop :=
  (ends_here s \/ (exists c t, s = c :: t /\ is_blank c = true) \/ continues_here s) /\
  ~ (exists u b n t, w = u ++ [BSLASH] /\ s = b ++ n ++ t /\ blanks b /\ newline n).

(** The name of a label ends at a blank, at [=] or at the end of the line. *)
Definition label_over (s : bytes) : Prop :=
  match s with [] => True | c :: _ => is_blank c = true \/ is_newline_byte c = true \/ c = EQUALS end.

(** ** Shell commands: up to the end of the line, continuations and comment lines included *)
Inductive shell_reads : nat -> bytes -> bytes -> list breakable_component -> Prop :=
| reads_text p w s : chunk w -> ~ comment_like w -> ends_here s -> (ends_in_backslash w -> s = []) ->
    shell_reads p w s [text_part p w]
| reads_continued p w c w2 s l : chunk w -> ~ comment_like w -> continuation c ->
    shell_reads (p + length w + length c) w2 s l ->
    shell_reads p (w ++ c ++ w2) s (text_part p w :: l)
| reads_comment p b t : blanks b -> comment_text t ->
    shell_reads p (b ++ t) [] [comment_part (p + length b) t]
| reads_comment_line p b t n s : blanks b -> comment_text t -> newline n -> ends_here s ->
    (n = [CR] -> ~ begins_with LF s) ->
    shell_reads p (b ++ t ++ n) s [comment_part (p + length b) t]
| reads_after_comment p b t n w s l : blanks b -> comment_text t -> newline n ->
    shell_reads (p + length b + length t + length n) w s l ->
    shell_reads p (b ++ t ++ n ++ w) s (comment_part (p + length b) t :: l).

Definition breakable_reads (p : nat) (w s : bytes) (x : breakable_string) : Prop :=
  exists l, shell_reads p w s l /\ x = BreakableString (at_ p w) l.

(** ** Flags, as text *)
Definition flag_text (w : bytes) : Prop :=
  exists name value, w = [DASH; DASH] ++ name ++ EQUALS :: value /\ letters name /\ word value.

(** Another flag follows. *)
Definition flag_ahead (u : bytes) : Prop :=
  exists k g w t, u = g ++ w ++ t /\ gap k g /\ g <> [] /\ flag_text w /\ word_over w t.

(** All the flags before [s] *)
Inductive flags_before : bytes -> bytes -> Prop :=
| flags_none s : ~ flag_ahead s -> flags_before [] s
| flags_one k g w fl s : gap k g -> g <> [] -> flag_text w -> word_over w (fl ++ s) -> flags_before fl s ->
    flags_before (g ++ w ++ fl) s.

(** ** Instructions that are read as one with any name: [u] is what follows the keyword. *)

Definition from_begins (u : bytes) : Prop :=
  exists fl t g c r, u = fl ++ t /\ flags_before fl t /\ t = g ++ c :: r /\ g <> [] /\ gap_before g (c :: r) /\
    image_char c = true.

Definition copy_begins (u : bytes) : Prop :=
  exists fl t g1 w1 g2 w2 r, u = fl ++ t /\ flags_before fl t /\ t = g1 ++ w1 ++ g2 ++ w2 ++ r /\
    g1 <> [] /\ gap_before g1 (w1 ++ g2 ++ w2 ++ r) /\ word w1 /\ word_over w1 (g2 ++ w2 ++ r) /\
    g2 <> [] /\ gap_before g2 (w2 ++ r) /\ word w2 /\ word_over w2 r.

(** The text [u] after the keyword [k] cannot be read by the syntax of that keyword. *)
Definition passed_over (k : string) (u : bytes) : Prop :=
  (k = "from" -> ~ from_begins u)%string /\
  (k = "copy" -> ~ copy_begins u)%string /\
  (k = "arg" -> forall c t, after_gap u (c :: t) -> is_alpha c = false)%string /\
  (k = "label" \/ k = "env" -> forall t, ~ after_gap u t)%string /\
  (k = "run" \/ k = "cmd" \/ k = "entrypoint" -> forall t, after_gap u t -> ends_here t)%string.

Section Exact.
Variable unq : bytes -> option bytes.

(** ** Parts of instructions *)

(** The text of a value that is either quoted or a word *)
Definition value_reads (w s : bytes) : Prop :=
  quoted_text w \/ (word w /\ ~ quoted_ahead (w ++ s) /\ word_over w s).

(** Things each preceded by a gap *)
Inductive spaced_reads {A} (at1 : nat -> bytes -> bytes -> A -> Prop) : nat -> bytes -> bytes -> list A -> Prop :=
| spaced_reads_none p s : spaced_reads at1 p [] s []
| spaced_reads_one p k g w x w2 s l : gap k g -> g <> [] -> gap_over g (w ++ w2 ++ s) ->
    at1 (p + length g) w (w2 ++ s) x -> spaced_reads at1 (p + length g + length w) w2 s l ->
    spaced_reads at1 p (g ++ w ++ w2) s (x :: l).

Definition arg_reads (p : nat) (w s : bytes) (x : arg_instruction) : Prop :=
  exists kw k g name rest, w = kw ++ g ++ name ++ rest /\ keyword "arg" kw /\ gap k g /\ g <> [] /\
    arg_name_text name /\ arg_name x = SpannedString (at_ (p + length kw + length g) name) name /\
    arg_span x = at_ p w /\
    ((rest = [] /\ arg_value x = None) \/
     exists value v, rest = EQUALS :: value /\ value_reads value s /\
       string_at unq (p + length kw + length g + length name + 1) value v /\ arg_value x = Some v).

Definition path_reads (p : nat) (w s : bytes) (x : spanned_string) : Prop :=
  path_at unq p w x /\ word_over w s.
Definition copy_reads (p : nat) (w s : bytes) (x : copy_instruction) : Prop :=
  exists kw fl paths, w = kw ++ fl ++ paths /\ keyword "copy" kw /\
    spaced (flag_at unq) (p + length kw) fl (copy_flags x) /\ ~ flag_ahead (paths ++ s) /\
    spaced_reads path_reads (p + length kw + length fl) paths s (copy_sources x ++ [copy_destination x]) /\
    copy_sources x <> [] /\ copy_span x = at_ p w.

Definition label_name_reads (p : nat) (w s : bytes) (x : spanned_string) : Prop :=
  clean_quoted_at unq p w x \/
  (label_word w /\ ~ quoted_ahead (w ++ s) /\ label_over s /\ string_at unq p w x).
Definition label_value_reads (p : nat) (w s : bytes) (x : spanned_string) : Prop :=
  clean_quoted_at unq p w x \/
  (word w /\ ~ quoted_ahead (w ++ s) /\ word_over w s /\ string_at unq p w x).

Definition label_pair_reads (p : nat) (w s : bytes) (x : label) : Prop :=
  exists n v, w = n ++ EQUALS :: v /\ label_name_reads p n (EQUALS :: v ++ s) (lb_name x) /\
    label_value_reads (p + length n + 1) v s (lb_value x) /\ lb_span x = at_ p w.
Definition label_single_reads (p : nat) (w s : bytes) (x : label) : Prop :=
  exists j g1 n k g2 v, w = g1 ++ n ++ g2 ++ v /\ gap j g1 /\ g1 <> [] /\ gap k g2 /\ g2 <> [] /\
    gap_over g1 (n ++ g2 ++ v ++ s) /\ label_name_reads (p + length g1) n (g2 ++ v ++ s) (lb_name x) /\
    gap_over g2 (v ++ s) /\ label_value_reads (p + length g1 + length n + length g2) v s (lb_value x) /\
    lb_span x = at_ p w.
Definition label_reads (p : nat) (w s : bytes) (x : label_instruction) : Prop :=
  exists kw r, w = kw ++ r /\ keyword "label" kw /\ label_span x = at_ p w /\
    ((exists l, label_single_reads (p + length kw) r s l /\ label_labels x = [l]) \/
     (exists pairs g, r = pairs ++ g /\ r <> [] /\
        spaced_reads label_pair_reads (p + length kw) pairs (g ++ s) (label_labels x) /\ gap_before g s)).

Definition env_pair_reads (p : nat) (w s : bytes) (x : env_var) : Prop :=
  exists n v, w = n ++ EQUALS :: v /\ env_name_text n /\ ev_key x = SpannedString (at_ p n) n /\
    (quoted_value_at unq (p + length n + 1) v (ev_value x) \/
     (word v /\ ~ quoted_ahead (v ++ s) /\ word_over v s /\ plain_value_at (p + length n + 1) v v (ev_value x))) /\
    ev_span x = at_ p w.
Definition env_single_reads (p : nat) (w s : bytes) (x : env_var) : Prop :=
  exists j g1 n k g2 v, w = g1 ++ n ++ g2 ++ v /\ gap j g1 /\ g1 <> [] /\ gap k g2 /\ g2 <> [] /\
    env_name_text n /\ ev_key x = SpannedString (at_ (p + length g1) n) n /\ gap_over g2 (v ++ s) /\
    (quoted_value_at unq (p + length g1 + length n + length g2) v (ev_value x) \/
     (~ quoted_ahead (v ++ s) /\ breakable_reads (p + length g1 + length n + length g2) v s (ev_value x))) /\
    ev_span x = at_ (p + length g1) (n ++ g2 ++ v).
Definition env_reads (p : nat) (w s : bytes) (x : env_instruction) : Prop :=
  exists kw r, w = kw ++ r /\ keyword "env" kw /\ env_span x = at_ p w /\
    ((exists e, env_single_reads (p + length kw) r s e /\ env_vars x = [e]) \/
     (exists pairs g, r = pairs ++ g /\ r <> [] /\
        spaced_reads env_pair_reads (p + length kw) pairs (g ++ s) (env_vars x) /\ gap_before g s)).

Definition command_reads (k : string) (p : nat) (w s : bytes) (sp : span) (e : shell_or_exec) : Prop :=
  exists kw g cmd, w = kw ++ g ++ cmd /\ keyword k kw /\ gap 0 g /\ g <> [] /\ gap_over g (cmd ++ s) /\
    match e with
    | Exec a => array_at unq (p + length kw + length g) cmd a
    | Shell x => ~ begins_list (cmd ++ s) /\ breakable_reads (p + length kw + length g) cmd s x
    end /\ sp = at_ p w.

Definition misc_reads (p : nat) (w s : bytes) (x : misc_instruction) : Prop :=
  exists name args, w = name ++ args /\ letters name /\
    (match args with c :: _ => is_alpha c = false | [] => True end) /\
    (forall k, keyword k name -> passed_over k (args ++ s)) /\
    misc_name x = SpannedString (at_ p name) name /\
    breakable_reads (p + length name) args s (misc_arguments x) /\ misc_span x = at_ p w.

Definition instruction_reads (p : nat) (w s : bytes) (i : instruction) : Prop :=
  match i with
  | IFrom x => from_at unq p w x
  | IArg x => arg_reads p w s x
  | ILabel x => label_reads p w s x
  | IRun x => command_reads "run" p w s (run_span x) (run_expr x)
  | IEntrypoint x => command_reads "entrypoint" p w s (entrypoint_span x) (entrypoint_expr x)
  | ICmd x => command_reads "cmd" p w s (cmd_span x) (cmd_expr x)
  | ICopy x => copy_reads p w s x
  | IEnv x => env_reads p w s x
  | IMisc x => misc_reads p w s x
  end.

(** ** Documents *)

(** One logical line, up to the end of a line *)
Inductive line_reads : nat -> bytes -> bytes -> list instruction -> Prop :=
| reads_blank_line p b s : blanks b -> ends_here s -> line_reads p b s []
| reads_comment_only p b t s : blanks b -> comment_text t -> ends_here s -> line_reads p (b ++ t) s []
| reads_instruction p b w b2 s i : blanks b -> instruction_reads (p + length b) w (b2 ++ s) i -> blanks b2 ->
    ends_here s -> line_reads p (b ++ w ++ b2) s [i].

Inductive document_reads : nat -> bytes -> list instruction -> Prop :=
| reads_last p w l : line_reads p w [] l -> document_reads p w l
| reads_more p w n w2 l l2 : line_reads p w (n ++ w2) l -> newline n -> (n = [CR] -> ~ begins_with LF w2) ->
    document_reads (p + length w + length n) w2 l2 ->
    document_reads p (w ++ n ++ w2) (l ++ l2).

Definition reading (input : bytes) (l : list instruction) : Prop := document_reads 0 input l.

End Exact.

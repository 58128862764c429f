(** The concrete syntax of Dockerfiles as this library reads them: which texts
    write which instructions, at which positions.  Nothing here refers to the
    grammar, the parser or its tokens.

    [X p w x] reads: the text [w], found at offset [p] of the document, writes [x]. *)

From Coq Require Import String.
From Verif Require Import Bytes Ast SpecImage.
Local Open Scope nat_scope.

(** ** Lines, blanks, comments *)

Definition blanks (w : bytes) : Prop := Forall (fun c => is_blank c = true) w.

Inductive newline : bytes -> Prop :=
| nl_lf : newline [LF]
| nl_crlf : newline [CR; LF]
| nl_cr : newline [CR].

Definition no_newline (w : bytes) : Prop := Forall (fun c => is_newline_byte c = false) w.

(** # and the rest of the line *)
Definition comment_text (w : bytes) : Prop :=
  exists t, w = HASH :: t /\ no_newline t /\ valid_utf8 t = true.

(** A backslash, blanks and the end of the line *)
Definition continuation (w : bytes) : Prop :=
  exists b n, w = BSLASH :: b ++ n /\ blanks b /\ newline n.

(** Complete lines that are empty or comments; [k] is the number of comments. *)
Inductive skipped_lines : nat -> bytes -> Prop :=
| skipped_none : skipped_lines 0 []
| skipped_empty k b n w : blanks b -> newline n -> skipped_lines k w -> skipped_lines k (b ++ n ++ w)
| skipped_comment k b t n w : blanks b -> comment_text t -> newline n -> skipped_lines k w ->
    skipped_lines (S k) (b ++ t ++ n ++ w).

(** What may stand between the parts of an instruction: blanks, and line
    continuations, each followed by empty lines and comment lines. *)
Inductive gap : nat -> bytes -> Prop :=
| gap_none : gap 0 []
| gap_blank k c w : is_blank c = true -> gap k w -> gap k (c :: w)
| gap_continue j k c l w : continuation c -> skipped_lines j l -> gap k w -> gap (j + k) (c ++ l ++ w).

(** At the end of the document the last comment may lack its newline. *)
Definition last_gap (w : bytes) : Prop :=
  (exists k, gap k w) \/
  exists k g c j l b t, w = g ++ c ++ l ++ b ++ t /\ gap k g /\ continuation c /\
    skipped_lines j l /\ blanks b /\ comment_text t.

(** ** Words *)

Definition keyword (k : string) (w : bytes) : Prop := to_lower w = bs k.

Definition letters (w : bytes) : Prop := w <> [] /\ Forall (fun c => is_alpha c = true) w.

(** No blank and no newline *)
Definition word (w : bytes) : Prop :=
  w <> [] /\ Forall (fun c => is_blank c = false /\ is_newline_byte c = false) w /\
  valid_utf8 w = true.

(** No blank, no newline and no equals sign *)
Definition label_word (w : bytes) : Prop :=
  w <> [] /\ Forall (fun c => is_blank c = false /\ is_newline_byte c = false /\ c <> EQUALS) w /\
  valid_utf8 w = true.

Definition image_char (c : N) : bool :=
  is_alnum c || existsb (N.eqb c) [UNDER; DASH; DOT; COLON; SLASH; DOLLAR; LBRACE; RBRACE; AT].
Definition image_text (w : bytes) : Prop := w <> [] /\ Forall (fun c => image_char c = true) w.

Definition alias_char (c : N) : bool := is_alnum c || (c =? UNDER)%N || (c =? DASH)%N.
Definition alias_text (w : bytes) : Prop := w <> [] /\ Forall (fun c => alias_char c = true) w.

(** A letter, then letters, digits and underscores *)
Definition arg_name_text (w : bytes) : Prop :=
  exists c t, w = c :: t /\ is_alpha c = true /\ Forall (fun c => is_word c = true) t.

(** Letters, digits and underscores *)
Definition env_name_text (w : bytes) : Prop := w <> [] /\ Forall (fun c => is_word c = true) w.

(** ** Quoted text *)

(** Between quotes [q]: no bare quote; a backslash takes the next character with it;
    the control characters 0 and 31 are not allowed. *)
Inductive quoted_body (q : N) : bytes -> Prop :=
| qb_nil : quoted_body q []
| qb_plain c w : c <> q -> c <> BSLASH -> c <> 0%N -> c <> 31%N -> quoted_body q w ->
    quoted_body q (c :: w)
| qb_escape c w : c <> 0%N -> c <> 31%N -> quoted_body q w -> quoted_body q (BSLASH :: c :: w).

Definition quoted_text (w : bytes) : Prop :=
  exists q body, (q = DQUOTE \/ q = SQUOTE) /\ w = q :: body ++ [q] /\ quoted_body q body /\
    valid_utf8 body = true.

(** A quoted text, and perhaps more *)
Definition quoted_ahead (w : bytes) : Prop := exists q t, w = q ++ t /\ quoted_text q.

(** The text with every escaped line break (backslash, LF) taken out. *)
Inductive without_breaks : bytes -> bytes -> Prop :=
| wb_nil : without_breaks [] []
| wb_break w v : without_breaks w v -> without_breaks (BSLASH :: LF :: w) v
| wb_char c w v : (forall t, c :: w <> BSLASH :: LF :: t) -> without_breaks w v ->
    without_breaks (c :: w) (c :: v).

Definition at_ (p : nat) (w : bytes) : span := Span p (p + length w).

Section Syntax.

(** Unescaping of a quoted text, quotes included (the enquote crate). *)
Variable unq : bytes -> option bytes.

(** The string that a text stands for: itself, unless it begins with a quote
    character. *)
Definition begins_quoted (w : bytes) : Prop :=
  exists c t, w = c :: t /\ (c = DQUOTE \/ c = SQUOTE \/ c = BACKTICK).
Definition stands_for (w v : bytes) : Prop :=
  (begins_quoted w /\ unq w = Some v) \/ (~ begins_quoted w /\ v = w).

Definition string_at (p : nat) (w : bytes) (x : spanned_string) : Prop :=
  exists v, stands_for w v /\ x = SpannedString (at_ p w) v.

(** ** Shell commands *)

(** A line of a shell command: text up to the end of the line or up to a
    continuation. *)
Definition chunk (w : bytes) : Prop := w <> [] /\ no_newline w /\ valid_utf8 w = true.

(** Blanks and then a comment *)
Definition comment_like (w : bytes) : Prop := exists b t, w = b ++ HASH :: t /\ blanks b.

Definition text_part (p : nat) (w : bytes) : breakable_component := BString (SpannedString (at_ p w) w).
Definition comment_part (p : nat) (w : bytes) : breakable_component := BComment (SpannedComment (at_ p w) w).

Inductive shell_at : nat -> bytes -> list breakable_component -> Prop :=
| shell_text p w : chunk w -> ~ comment_like w -> shell_at p w [text_part p w]
| shell_continued p w c w2 l : chunk w -> ~ comment_like w -> continuation c ->
    shell_at (p + length w + length c) w2 l ->
    shell_at p (w ++ c ++ w2) (text_part p w :: l)
| shell_comment p b t : blanks b -> comment_text t ->
    shell_at p (b ++ t) [comment_part (p + length b) t]
| shell_comment_line p b t n : blanks b -> comment_text t -> newline n ->
    shell_at p (b ++ t ++ n) [comment_part (p + length b) t]
| shell_after_comment p b t n w l : blanks b -> comment_text t -> newline n ->
    shell_at (p + length b + length t + length n) w l ->
    shell_at p (b ++ t ++ n ++ w) (comment_part (p + length b) t :: l).

Definition breakable_at (p : nat) (w : bytes) (x : breakable_string) : Prop :=
  exists l, shell_at p w l /\ x = BreakableString (at_ p w) l.

(** ** Arrays of quoted strings *)

(** gap, comma, gap, string - repeated *)
Inductive more_strings : nat -> bytes -> list spanned_string -> Prop :=
| more_none p : more_strings p [] []
| more_one p j g1 k g2 w x w2 l : gap j g1 -> gap k g2 -> quoted_text w ->
    string_at (p + length g1 + 1 + length g2) w x ->
    more_strings (p + length g1 + 1 + length g2 + length w) w2 l ->
    more_strings p (g1 ++ COMMA :: g2 ++ w ++ w2) (x :: l).

Inductive array_at : nat -> bytes -> string_array -> Prop :=
| array_empty p k g : gap k g ->
    array_at p (LBRACK :: g ++ [RBRACK]) (StringArray (at_ p (LBRACK :: g ++ [RBRACK])) [])
| array_strings p k g w x m l comma j g2 text :
    gap k g -> quoted_text w -> string_at (p + 1 + length g) w x ->
    more_strings (p + 1 + length g + length w) m l ->
    (comma = [] \/ comma = [COMMA]) -> gap j g2 ->
    text = LBRACK :: g ++ w ++ m ++ comma ++ g2 ++ [RBRACK] ->
    array_at p text (StringArray (at_ p text) (x :: l)).

Definition shell_or_exec_at (p : nat) (w : bytes) (e : shell_or_exec) : Prop :=
  match e with
  | Shell s => breakable_at p w s
  | Exec a => array_at p w a
  end.

(** keyword, gap without comments, command *)
Definition command_at (k : string) (p : nat) (w : bytes) (sp : span) (e : shell_or_exec) : Prop :=
  exists kw g cmd, w = kw ++ g ++ cmd /\ keyword k kw /\ gap 0 g /\ g <> [] /\
    shell_or_exec_at (p + length kw + length g) cmd e /\ sp = at_ p w.

(** ** Flags *)

(** --name=value *)
Definition flag_at (p : nat) (w : bytes) (x : flag) : Prop :=
  exists name value v, w = [DASH; DASH] ++ name ++ EQUALS :: value /\
    letters name /\ word value /\ string_at (p + 2 + length name + 1) value v /\
    x = Flag (at_ p w) (SpannedString (at_ (p + 2) name) name) v.

(** Things each preceded by a gap *)
Inductive spaced {A} (at1 : nat -> bytes -> A -> Prop) : nat -> bytes -> list A -> Prop :=
| spaced_none p : spaced at1 p [] []
| spaced_one p k g w x w2 l : gap k g -> g <> [] -> at1 (p + length g) w x ->
    spaced at1 (p + length g + length w) w2 l ->
    spaced at1 p (g ++ w ++ w2) (x :: l).

(** ** The instructions *)

(** FROM [flags] image [AS alias]; the number of the FROM is not part of the text. *)
Definition alias_at (p : nat) (w : bytes) (x : option spanned_string) : Prop :=
  (w = [] /\ x = None) \/
  exists j g1 as_ k g2 a, w = g1 ++ as_ ++ g2 ++ a /\ gap j g1 /\ g1 <> [] /\ keyword "as" as_ /\
    gap k g2 /\ g2 <> [] /\ alias_text a /\
    x = Some (SpannedString (at_ (p + length g1 + length as_ + length g2) a) a).

(** sha256, a colon and 64 bytes other than a colon, one of them a hexadecimal digit *)
Definition digest_accepted (h : bytes) : Prop :=
  exists x, h = bs "sha256:" ++ x /\ length x = 64 /\ ~ In COLON x /\ exists c, In c x /\ is_hex c = true.

Definition from_at (p : nat) (w : bytes) (x : from_instruction) : Prop :=
  exists kw fl k g img al, w = kw ++ fl ++ g ++ img ++ al /\ keyword "from" kw /\
    spaced flag_at (p + length kw) fl (from_flags x) /\ gap k g /\ g <> [] /\ image_text img /\
    from_image x = SpannedString (at_ (p + length kw + length fl + length g) img) img /\
    image_ref_of img (from_image_parsed x) /\
    (forall h, i_hash (from_image_parsed x) = Some h -> digest_accepted h) /\
    alias_at (p + length kw + length fl + length g + length img) al (from_alias x) /\
    from_span x = at_ p w.

(** ARG name or ARG name=value *)
Definition arg_at (p : nat) (w : bytes) (x : arg_instruction) : Prop :=
  exists kw k g name rest, w = kw ++ g ++ name ++ rest /\ keyword "arg" kw /\ gap k g /\ g <> [] /\
    arg_name_text name /\ arg_name x = SpannedString (at_ (p + length kw + length g) name) name /\
    arg_span x = at_ p w /\
    ((rest = [] /\ arg_value x = None) \/
     exists value v, rest = EQUALS :: value /\ (quoted_text value \/ word value) /\
       string_at (p + length kw + length g + length name + 1) value v /\ arg_value x = Some v).

(** A quoted string in a LABEL: escaped line breaks are removed before unescaping. *)
Definition clean_quoted_at (p : nat) (w : bytes) (x : spanned_string) : Prop :=
  exists u v, quoted_text w /\ without_breaks w u /\ unq u = Some v /\ x = SpannedString (at_ p w) v.
Definition label_name_at (p : nat) (w : bytes) (x : spanned_string) : Prop :=
  clean_quoted_at p w x \/ (label_word w /\ string_at p w x).
Definition label_value_at (p : nat) (w : bytes) (x : spanned_string) : Prop :=
  clean_quoted_at p w x \/ (word w /\ string_at p w x).

(** name=value *)
Definition label_pair_at (p : nat) (w : bytes) (x : label) : Prop :=
  exists n v, w = n ++ EQUALS :: v /\ label_name_at p n (lb_name x) /\
    label_value_at (p + length n + 1) v (lb_value x) /\ lb_span x = at_ p w.

(** gap name gap value *)
Definition label_single_at (p : nat) (w : bytes) (x : label) : Prop :=
  exists j g1 n k g2 v, w = g1 ++ n ++ g2 ++ v /\ gap j g1 /\ g1 <> [] /\ gap k g2 /\ g2 <> [] /\
    label_name_at (p + length g1) n (lb_name x) /\
    label_value_at (p + length g1 + length n + length g2) v (lb_value x) /\ lb_span x = at_ p w.

Definition label_at (p : nat) (w : bytes) (x : label_instruction) : Prop :=
  exists kw r, w = kw ++ r /\ keyword "label" kw /\ label_span x = at_ p w /\
    ((exists l, label_single_at (p + length kw) r l /\ label_labels x = [l]) \/
     (exists pairs g, r = pairs ++ g /\ r <> [] /\ spaced label_pair_at (p + length kw) pairs (label_labels x) /\
        last_gap g)).

(** COPY [flags] source ... destination *)
Definition path_at (p : nat) (w : bytes) (x : spanned_string) : Prop := word w /\ string_at p w x.
Definition copy_at (p : nat) (w : bytes) (x : copy_instruction) : Prop :=
  exists kw fl paths, w = kw ++ fl ++ paths /\ keyword "copy" kw /\
    spaced flag_at (p + length kw) fl (copy_flags x) /\
    spaced path_at (p + length kw + length fl) paths (copy_sources x ++ [copy_destination x]) /\
    copy_sources x <> [] /\ copy_span x = at_ p w.

(** ENV name value, or ENV name=value ... *)
Definition plain_value_at (p : nat) (w v : bytes) (x : breakable_string) : Prop :=
  x = BreakableString (at_ p w) [BString (SpannedString (at_ p w) v)].
Definition quoted_value_at (p : nat) (w : bytes) (x : breakable_string) : Prop :=
  exists v, quoted_text w /\ unq w = Some v /\ plain_value_at p w v x.

Definition env_pair_at (p : nat) (w : bytes) (x : env_var) : Prop :=
  exists n v, w = n ++ EQUALS :: v /\ env_name_text n /\ ev_key x = SpannedString (at_ p n) n /\
    (quoted_value_at (p + length n + 1) v (ev_value x) \/
     (word v /\ ~ quoted_ahead v /\ plain_value_at (p + length n + 1) v v (ev_value x))) /\
    ev_span x = at_ p w.

Definition env_single_at (p : nat) (w : bytes) (x : env_var) : Prop :=
  exists j g1 n k g2 v, w = g1 ++ n ++ g2 ++ v /\ gap j g1 /\ g1 <> [] /\ gap k g2 /\ g2 <> [] /\
    env_name_text n /\ ev_key x = SpannedString (at_ (p + length g1) n) n /\
    (quoted_value_at (p + length g1 + length n + length g2) v (ev_value x) \/
     (~ quoted_ahead v /\ breakable_at (p + length g1 + length n + length g2) v (ev_value x))) /\
    ev_span x = at_ (p + length g1) (n ++ g2 ++ v).

Definition env_at (p : nat) (w : bytes) (x : env_instruction) : Prop :=
  exists kw r, w = kw ++ r /\ keyword "env" kw /\ env_span x = at_ p w /\
    ((exists e, env_single_at (p + length kw) r e /\ env_vars x = [e]) \/
     (exists pairs g, r = pairs ++ g /\ r <> [] /\ spaced env_pair_at (p + length kw) pairs (env_vars x) /\
        last_gap g)).

(** Any other name, and the rest *)
Definition misc_at (p : nat) (w : bytes) (x : misc_instruction) : Prop :=
  exists name args, w = name ++ args /\ letters name /\
    (match args with c :: _ => is_alpha c = false | [] => True end) /\
    misc_name x = SpannedString (at_ p name) name /\
    breakable_at (p + length name) args (misc_arguments x) /\ misc_span x = at_ p w.

Definition instruction_at (p : nat) (w : bytes) (i : instruction) : Prop :=
  match i with
  | IFrom x => from_at p w x
  | IArg x => arg_at p w x
  | ILabel x => label_at p w x
  | IRun x => command_at "run" p w (run_span x) (run_expr x)
  | IEntrypoint x => command_at "entrypoint" p w (entrypoint_span x) (entrypoint_expr x)
  | ICmd x => command_at "cmd" p w (cmd_span x) (cmd_expr x)
  | ICopy x => copy_at p w x
  | IEnv x => env_at p w x
  | IMisc x => misc_at p w x
  end.

(** ** Documents *)

(** One logical line: blanks, then nothing, a comment or an instruction, and blanks. *)
Inductive line_at : nat -> bytes -> list instruction -> Prop :=
| line_blank p b : blanks b -> line_at p b []
| line_comment p b t : blanks b -> comment_text t -> line_at p (b ++ t) []
| line_instruction p b w b2 i : blanks b -> instruction_at (p + length b) w i -> blanks b2 ->
    line_at p (b ++ w ++ b2) [i].

Inductive document_at : nat -> bytes -> list instruction -> Prop :=
| document_last p w l : line_at p w l -> document_at p w l
| document_more p w n w2 l l2 : line_at p w l -> newline n ->
    document_at (p + length w + length n) w2 l2 ->
    document_at p (w ++ n ++ w2) (l ++ l2).

(** ** Why parsing a document may fail after its syntax was accepted *)

(** A text that begins with a quote and does not unescape; in LABEL escaped line
    breaks are removed first. *)
Definition bad_escape (w : bytes) : Prop :=
  begins_quoted w /\ exists u, (u = w \/ without_breaks w u) /\ unq u = None.

(** An image whose digest is not accepted *)
Definition bad_digest (img : bytes) : Prop :=
  image_text img /\ exists r h, image_ref_of img r /\ i_hash r = Some h /\ ~ digest_accepted h.

(** RUN, CMD or ENTRYPOINT with a comment between the keyword and the command *)
Definition comment_in_command (w : bytes) : Prop :=
  exists kw k g, w = kw ++ g /\ (keyword "run" kw \/ keyword "cmd" kw \/ keyword "entrypoint" kw) /\
    gap (S k) g.

Definition document (input : bytes) (l : list instruction) : Prop := document_at 0 input l.

End Syntax.

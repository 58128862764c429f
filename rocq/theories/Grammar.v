(** The grammar of src/dockerfile_parser.pest, rule by rule.

    [expr] is pest's expression language, restricted to what this grammar uses.
    pest's [e+] is [e ~ e*], [e{2,}] is [e ~ e ~ e*] and [e{4}] is
    [e ~ e ~ e ~ e] (pest_meta's unroller does exactly these rewrites).  The
    grammar defines no WHITESPACE or COMMENT rule, so pest's implicit skipping
    between the elements of a sequence is a no-op in every rule. *)

From Coq Require Import String.
From Verif Require Import Bytes.
Local Open Scope N_scope.

(** pest's generated [Rule] enum: all rules of the grammar, in file order, and
    the built-in [EOI].  (Rules whose names begin with [NEWLINE], [ANY], [ASCII_..]
    are built-ins without tokens and are expressions below.) *)
Inductive rule : Type :=
| R_EOI
| R_dockerfile | R_meta_step | R_step | R_ws | R_comment | R_comment_line | R_empty_line
| R_double_quoted_string | R_inner | R_escape | R_unicode
| R_single_quoted_string | R_single_quoted_inner | R_string
| R_line_continuation | R_arg_ws | R_arg_ws_maybe
| R_any_content | R_any_breakable | R_any_eol | R_any_whitespace
| R_identifier_whitespace | R_any_equals | R_string_array
| R_from_flag_name | R_from_flag_value | R_from_flag | R_from_image
| R_from_alias | R_from_alias_outer | R_from
| R_arg_name | R_arg_value | R_arg_quoted_value | R_arg
| R_label_name | R_label_quoted_name | R_label_value | R_label_quoted_value | R_label_pair
| R_label_single_name | R_label_single_quoted_name | R_label_single | R_label
| R_run_shell | R_run_exec | R_run
| R_entrypoint_shell | R_entrypoint_exec | R_entrypoint
| R_cmd_shell | R_cmd_exec | R_cmd
| R_copy_flag_name | R_copy_flag_value | R_copy_flag | R_copy_pathspec | R_copy
| R_env_name | R_env_pair_value | R_env_pair_quoted_value | R_env_pair | R_env_pairs
| R_env_single_quoted_value | R_env_single_value | R_env_single | R_env
| R_misc_instruction | R_misc_arguments | R_misc.

Inductive expr : Type :=
| Str (s : bytes)             (* "..."     : state.match_string *)
| Insens (s : bytes)          (* ^"..."    : state.match_insensitive *)
| Range (lo hi : N)           (* 'a'..'z'  : state.match_range (ASCII only here) *)
| AnyChar                     (* ANY       : state.skip(1), one character *)
| Soi                         (* SOI       : state.start_of_input *)
| EndOfInput                  (* the body of EOI : state.end_of_input *)
| Call (r : rule)             (* a rule *)
| NegPred (e : expr)          (* !e        : state.lookahead(false, ..) *)
| Seq (a b : expr)            (* a ~ b     : state.sequence *)
| Alt (a b : expr)            (* a | b     : or_else *)
| Opt (e : expr)              (* e?        : state.optional *)
| Rep (e : expr).             (* e*        : state.repeat *)

(** pest's rule modifiers: [{..}], [_{..}], [@{..}], [${..}]. *)
Inductive rkind : Type := Normal | Silent | AtomicRule | CompoundRule.

Declare Scope peg_scope.
Delimit Scope peg_scope with peg.
Notation "a ~> b" := (Seq a b) (at level 60, right associativity) : peg_scope.
Notation "a // b" := (Alt a b) (at level 65, right associativity) : peg_scope.
Notation "! a" := (NegPred a) (at level 50) : peg_scope.
Notation opt := Opt.
Notation star := Rep.
Definition rep1 (e : expr) : expr := Seq e (Rep e).
Local Open Scope peg_scope.

(** pest built-ins (pest_generator's [generate_builtin_rules]). *)
Definition NEWLINE : expr := Str [LF] // Str [CR; LF] // Str [CR].
Definition ASCII_HEX_DIGIT : expr := Range 48 57 // Range 97 102 // Range 65 70.
Definition ASCII_ALPHA : expr := Range 97 122 // Range 65 90.
Definition ASCII_ALPHANUMERIC : expr := Range 97 122 // Range 65 90 // Range 48 57.

Definition ws := Call R_ws.
Definition comment := Call R_comment.
Definition comment_line := Call R_comment_line.
Definition empty_line := Call R_empty_line.
Definition line_continuation := Call R_line_continuation.
Definition arg_ws := Call R_arg_ws.
Definition arg_ws_maybe := Call R_arg_ws_maybe.
Definition any_whitespace := Call R_any_whitespace.
Definition any_equals := Call R_any_equals.
Definition any_breakable := Call R_any_breakable.
Definition string_ := Call R_string.

(** (ws | line_continuation ~ (comment_line | empty_line) star ), the body of
    arg_ws and arg_ws_maybe (lines 54 and 57). *)
Definition arg_ws_item : expr :=
  ws // (line_continuation ~> star (comment_line // empty_line)).

Definition grammar (r : rule) : rkind * expr :=
  match r with
  | R_EOI => (Normal, EndOfInput)

  (* line 5 *)
  | R_dockerfile =>
    (Normal, Soi ~> Call R_meta_step ~> star (NEWLINE ~> Call R_meta_step) ~> Call R_EOI)
  (* line 6 *)
  | R_meta_step => (Silent, star ws ~> opt (Call R_step // comment) ~> star ws)
  (* lines 8-30 *)
  | R_step =>
    (Silent,
     Call R_from // Call R_run // Call R_arg // Call R_label // Call R_copy //
     Call R_entrypoint // Call R_cmd // Call R_env // Call R_misc)
  (* line 33 *)
  | R_ws => (Silent, Str [SP] // Str [TAB])

  (* line 35 *)
  | R_comment => (AtomicRule, Str [HASH] ~> star (! NEWLINE ~> AnyChar))
  (* line 36 *)
  | R_comment_line => (Silent, star ws ~> comment ~> opt NEWLINE)
  (* line 37 *)
  | R_empty_line => (Silent, star ws ~> NEWLINE)

  (* line 39 *)
  | R_double_quoted_string =>
    (AtomicRule, Str [DQUOTE] ~> Call R_inner ~> Str [DQUOTE])
  (* line 40 *)
  | R_inner =>
    (AtomicRule,
     star (! (Str [DQUOTE] // Str [BSLASH] // Str [0] // Str [31]) ~> AnyChar)
     ~> opt (Call R_escape ~> Call R_inner))
  (* line 41 *)
  | R_escape =>
    (AtomicRule,
     Str [BSLASH] ~> opt (Str [98] // Str [116] // Str [110] // Str [102] // Str [114] //
                      Str [DQUOTE] // Str [BSLASH] // Str [SQUOTE] //
                      Call R_unicode // NEWLINE))
  (* line 42 *)
  | R_unicode =>
    (AtomicRule,
     (Str [117] ~> ASCII_HEX_DIGIT ~> ASCII_HEX_DIGIT ~> ASCII_HEX_DIGIT ~> ASCII_HEX_DIGIT)
     // (Str [85] ~> ASCII_HEX_DIGIT ~> ASCII_HEX_DIGIT ~> ASCII_HEX_DIGIT ~> ASCII_HEX_DIGIT
                  ~> ASCII_HEX_DIGIT ~> ASCII_HEX_DIGIT ~> ASCII_HEX_DIGIT ~> ASCII_HEX_DIGIT))

  (* line 44 *)
  | R_single_quoted_string =>
    (AtomicRule, Str [SQUOTE] ~> Call R_single_quoted_inner ~> Str [SQUOTE])
  (* line 45 *)
  | R_single_quoted_inner =>
    (AtomicRule,
     star (! (Str [SQUOTE] // Str [BSLASH] // Str [0] // Str [31]) ~> AnyChar)
     ~> opt (Call R_escape ~> Call R_single_quoted_inner))

  (* line 47 *)
  | R_string => (CompoundRule, Call R_single_quoted_string // Call R_double_quoted_string)

  (* line 50 *)
  | R_line_continuation => (Silent, Str [BSLASH] ~> star ws ~> NEWLINE)
  (* line 54 *)
  | R_arg_ws => (Silent, rep1 arg_ws_item)
  (* line 57 *)
  | R_arg_ws_maybe => (Silent, star arg_ws_item)

  (* lines 63-69 *)
  | R_any_content => (AtomicRule, rep1 (! NEWLINE ~> ! line_continuation ~> AnyChar))
  (* lines 70-79 *)
  | R_any_breakable =>
    (CompoundRule,
     (comment_line ~> opt any_breakable)
     // (Call R_any_content ~> opt (line_continuation ~> any_breakable)))

  (* line 82 *)
  | R_any_eol => (Silent, star (! NEWLINE ~> AnyChar))
  (* line 85 *)
  | R_any_whitespace => (Silent, rep1 (! (NEWLINE // Call R_EOI // arg_ws) ~> AnyChar))
  (* line 88 *)
  | R_identifier_whitespace =>
    (Silent, rep1 (! ws ~> (ASCII_ALPHANUMERIC // Str [UNDER] // Str [DASH])))
  (* line 91 *)
  | R_any_equals => (Silent, rep1 (! (NEWLINE // ws // Str [EQUALS]) ~> AnyChar))

  (* lines 94-102 *)
  | R_string_array =>
    (Silent,
     (Str [LBRACK] ~>
      arg_ws_maybe ~> string_ ~>
      star (arg_ws_maybe ~> Str [COMMA] ~> arg_ws_maybe ~> string_) ~>
      opt (Str [COMMA]) ~>
      arg_ws_maybe ~> Str [RBRACK])
     // (Str [LBRACK] ~> arg_ws_maybe ~> Str [RBRACK]))

  (* lines 104-110 *)
  | R_from_flag_name => (AtomicRule, rep1 ASCII_ALPHA)
  | R_from_flag_value => (AtomicRule, any_whitespace)
  | R_from_flag =>
    (Normal, Str [DASH; DASH] ~> Call R_from_flag_name ~> Str [EQUALS] ~> Call R_from_flag_value)
  | R_from_image =>
    (AtomicRule,
     rep1 (ASCII_ALPHANUMERIC // Str [UNDER] // Str [DASH] // Str [DOT] // Str [COLON] //
      Str [SLASH] // Str [DOLLAR] // Str [LBRACE] // Str [RBRACE] // Str [AT]))
  | R_from_alias => (Normal, Call R_identifier_whitespace)
  | R_from_alias_outer => (Silent, arg_ws ~> Insens (bs "as") ~> arg_ws ~> Call R_from_alias)
  | R_from =>
    (Normal,
     Insens (bs "from") ~> star (arg_ws ~> Call R_from_flag) ~> arg_ws ~>
     Call R_from_image ~> opt (Call R_from_alias_outer))

  (* lines 112-115 *)
  | R_arg_name => (AtomicRule, ASCII_ALPHA ~> star (ASCII_ALPHANUMERIC // Str [UNDER]))
  | R_arg_value => (CompoundRule, any_whitespace)
  | R_arg_quoted_value => (CompoundRule, string_)
  | R_arg =>
    (Normal,
     Insens (bs "arg") ~> arg_ws ~> Call R_arg_name ~>
     opt (Str [EQUALS] ~> (Call R_arg_quoted_value // Call R_arg_value)))

  (* lines 117-127 *)
  | R_label_name => (CompoundRule, any_equals)
  | R_label_quoted_name => (CompoundRule, string_)
  | R_label_value => (CompoundRule, any_whitespace)
  | R_label_quoted_value => (CompoundRule, string_)
  | R_label_pair =>
    (Normal,
     (Call R_label_quoted_name // Call R_label_name) ~> Str [EQUALS] ~>
     (Call R_label_quoted_value // Call R_label_value))
  | R_label_single_name => (Normal, any_equals)
  | R_label_single_quoted_name => (Normal, string_)
  | R_label_single =>
    (Normal,
     arg_ws ~> (Call R_label_single_quoted_name // Call R_label_single_name) ~>
     arg_ws ~> (Call R_label_quoted_value // Call R_label_value))
  | R_label =>
    (Normal,
     Insens (bs "label") ~>
     (Call R_label_single // rep1 (arg_ws ~> opt (Call R_label_pair))))

  (* lines 129-131 *)
  | R_run_shell => (AtomicRule, any_breakable)
  | R_run_exec => (Normal, Call R_string_array)
  | R_run => (Normal, Insens (bs "run") ~> arg_ws ~> (Call R_run_exec // Call R_run_shell))

  (* lines 133-135 *)
  | R_entrypoint_shell => (AtomicRule, any_breakable)
  | R_entrypoint_exec => (Normal, Call R_string_array)
  | R_entrypoint =>
    (Normal,
     Insens (bs "entrypoint") ~> arg_ws ~> (Call R_entrypoint_exec // Call R_entrypoint_shell))

  (* lines 137-139 *)
  | R_cmd_shell => (AtomicRule, any_breakable)
  | R_cmd_exec => (Normal, Call R_string_array)
  | R_cmd => (Normal, Insens (bs "cmd") ~> arg_ws ~> (Call R_cmd_exec // Call R_cmd_shell))

  (* lines 141-145 *)
  | R_copy_flag_name => (AtomicRule, rep1 ASCII_ALPHA)
  | R_copy_flag_value => (AtomicRule, any_whitespace)
  | R_copy_flag =>
    (Normal, Str [DASH; DASH] ~> Call R_copy_flag_name ~> Str [EQUALS] ~> Call R_copy_flag_value)
  | R_copy_pathspec => (AtomicRule, any_whitespace)
  | R_copy =>
    (Normal,
     Insens (bs "copy") ~> star (arg_ws ~> Call R_copy_flag) ~>
     ((arg_ws ~> Call R_copy_pathspec) ~> (arg_ws ~> Call R_copy_pathspec) ~>
      star (arg_ws ~> Call R_copy_pathspec)))

  (* lines 147-155 *)
  | R_env_name => (CompoundRule, rep1 (ASCII_ALPHANUMERIC // Str [UNDER]))
  | R_env_pair_value => (CompoundRule, any_whitespace)
  | R_env_pair_quoted_value => (CompoundRule, string_)
  | R_env_pair =>
    (AtomicRule,
     Call R_env_name ~> Str [EQUALS] ~> (Call R_env_pair_quoted_value // Call R_env_pair_value))
  | R_env_pairs => (Normal, rep1 (arg_ws ~> opt (Call R_env_pair)))
  | R_env_single_quoted_value => (CompoundRule, string_)
  | R_env_single_value => (AtomicRule, any_breakable)
  | R_env_single =>
    (Normal,
     arg_ws ~> Call R_env_name ~> arg_ws ~>
     (Call R_env_single_quoted_value // Call R_env_single_value))
  | R_env => (Normal, Insens (bs "env") ~> (Call R_env_single // Call R_env_pairs))

  (* lines 157-159 *)
  | R_misc_instruction => (AtomicRule, rep1 ASCII_ALPHA)
  | R_misc_arguments => (AtomicRule, any_breakable)
  | R_misc => (Normal, Call R_misc_instruction ~> Call R_misc_arguments)
  end.

(** src/error.rs: the text of an error ([Display], which snafu derives from the
    [display] attributes); src/splicer.rs: the [Debug] text of a span. *)

From Coq Require Import String DecimalString.
From Verif Require Import Bytes Grammar Result Ast.

(** [format!("{:?}", rule)]: the derived [Debug] of pest's [Rule] enum prints the name of
    the variant, which is the name of the rule in src/dockerfile_parser.pest. *)
Definition rule_name (r : rule) : string :=
  match r with
  | R_EOI => "EOI"
  | R_dockerfile => "dockerfile"
  | R_meta_step => "meta_step"
  | R_step => "step"
  | R_ws => "ws"
  | R_comment => "comment"
  | R_comment_line => "comment_line"
  | R_empty_line => "empty_line"
  | R_double_quoted_string => "double_quoted_string"
  | R_inner => "inner"
  | R_escape => "escape"
  | R_unicode => "unicode"
  | R_single_quoted_string => "single_quoted_string"
  | R_single_quoted_inner => "single_quoted_inner"
  | R_string => "string"
  | R_line_continuation => "line_continuation"
  | R_arg_ws => "arg_ws"
  | R_arg_ws_maybe => "arg_ws_maybe"
  | R_any_content => "any_content"
  | R_any_breakable => "any_breakable"
  | R_any_eol => "any_eol"
  | R_any_whitespace => "any_whitespace"
  | R_identifier_whitespace => "identifier_whitespace"
  | R_any_equals => "any_equals"
  | R_string_array => "string_array"
  | R_from_flag_name => "from_flag_name"
  | R_from_flag_value => "from_flag_value"
  | R_from_flag => "from_flag"
  | R_from_image => "from_image"
  | R_from_alias => "from_alias"
  | R_from_alias_outer => "from_alias_outer"
  | R_from => "from"
  | R_arg_name => "arg_name"
  | R_arg_value => "arg_value"
  | R_arg_quoted_value => "arg_quoted_value"
  | R_arg => "arg"
  | R_label_name => "label_name"
  | R_label_quoted_name => "label_quoted_name"
  | R_label_value => "label_value"
  | R_label_quoted_value => "label_quoted_value"
  | R_label_pair => "label_pair"
  | R_label_single_name => "label_single_name"
  | R_label_single_quoted_name => "label_single_quoted_name"
  | R_label_single => "label_single"
  | R_label => "label"
  | R_run_shell => "run_shell"
  | R_run_exec => "run_exec"
  | R_run => "run"
  | R_entrypoint_shell => "entrypoint_shell"
  | R_entrypoint_exec => "entrypoint_exec"
  | R_entrypoint => "entrypoint"
  | R_cmd_shell => "cmd_shell"
  | R_cmd_exec => "cmd_exec"
  | R_cmd => "cmd"
  | R_copy_flag_name => "copy_flag_name"
  | R_copy_flag_value => "copy_flag_value"
  | R_copy_flag => "copy_flag"
  | R_copy_pathspec => "copy_pathspec"
  | R_copy => "copy"
  | R_env_name => "env_name"
  | R_env_pair_value => "env_pair_value"
  | R_env_pair_quoted_value => "env_pair_quoted_value"
  | R_env_pair => "env_pair"
  | R_env_pairs => "env_pairs"
  | R_env_single_quoted_value => "env_single_quoted_value"
  | R_env_single_value => "env_single_value"
  | R_env_single => "env_single"
  | R_env => "env"
  | R_misc_instruction => "misc_instruction"
  | R_misc_arguments => "misc_arguments"
  | R_misc => "misc"
  end.

(** src/error.rs lines 57-62: the message of [unexpected_token]; otherwise the message is
    the one given where the error is made. *)
Definition message_text (m : gmsg) : string :=
  match m with
  | MUnexpected r => "unexpected token " ++ rule_name r
  | MText t => t
  end.

(** src/error.rs lines 8-52.  [source] is the text of the error of another crate that the
    error holds (pest, enquote, std::io), and [from] the one that a [ConversionError] has for
    the instruction.  Both are not modelled, so they are parameters here. *)
Definition display (source from : string) (e : error) : string :=
  match e with
  | EParse => "could not parse Dockerfile: " ++ source
  | EGeneric m => "unable to parse Dockerfile: " ++ message_text m
  | EUnescape => "error unescaping string: " ++ source
  | EUnknownParse => "unable to parse Dockerfile"
  | ERead => "could not read Dockerfile: " ++ source
  | EConversion to => "could not convert instruction '" ++ from ++ "' to desired type '" ++ to ++ "'"
  end.

(** src/splicer.rs lines 95-102: [{:?}] of a [Span].  [debug_tuple("")] writes the fields in
    parentheses, with a comma and a space between them, and a number is written in decimal. *)
Definition number (n : nat) : string := NilEmpty.string_of_uint (Nat.to_uint n).
Definition span_debug (sp : span) : string :=
  "(" ++ number (s_start sp) ++ ", " ++ number (s_end sp) ++ ")".

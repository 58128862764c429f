(** From pest's tokens to the public types: src/util.rs and the [from_record]
    functions of src/instructions/*.rs. *)

From Coq Require Import String.
From Verif Require Import Bytes Grammar Peg Result Ast Splicer Image.
Local Open Scope nat_scope.

(** Rules are compared with [match]/[if let] in the code. *)
Definition rule_eq_dec (a b : rule) : {a = b} + {a <> b}.
Proof. decide equality. Defined.

(** [str::replace("\\\n", "")] *)
Fixpoint remove_breaks (s : bytes) : bytes :=
  match s with
  | [] => []
  | c :: t =>
    match t with
    | d :: t' =>
      if ((c =? BSLASH)%N && (d =? LF)%N)%bool then remove_breaks t' else c :: remove_breaks t
    | [] => [c]
    end
  end.

(** src/util.rs lines 49-54: [clean_escaped_breaks] *)
Definition clean_escaped_breaks (s : bytes) : bytes := remove_breaks s.

(** [str::split(":")]: always at least one part *)
Fixpoint split_all (c : N) (s : bytes) : list bytes :=
  match s with
  | [] => [[]]
  | x :: s' =>
    if (x =? c)%N then [] :: split_all c s'
    else match split_all c s' with
         | [] => [[x]]
         | p :: ps => (x :: p) :: ps
         end
  end.

(** src/instructions/from.rs lines 74-77: the regex [[0-9a-fA-F]+], which is not
    anchored: it matches if any hex digit occurs. *)
Definition hex_is_match (s : bytes) : bool := existsb is_hex s.

(** src/instructions/from.rs lines 104-113: the check of an image digest *)
Definition digest_ok (hash : bytes) : bool :=
  match split_all COLON hash with
  | [algo; hexdata] =>
    beqb algo (bs "sha256") && hex_is_match hexdata && (length hexdata =? 64)
  | _ => false
  end.

Definition generic {A} (m : string) : outcome A := Err (EGeneric (MText m)).

Section Convert.

(** [enquote::unquote] (external crate), as an oracle; [None] is its error.
    Enquote.v has the function the crate implements. *)
Variable unq : bytes -> option bytes.

(** The input text, which pest's [Pair::as_str] slices. *)
Variable src : bytes.

(** [Pair::as_str] *)
Definition as_str (t : tree) : bytes := slice src (t_start t) (t_stop t).

(** [unquote(..).context(UnescapeError)?] *)
Definition unquote (s : bytes) : outcome bytes := ok_or (unq s) EUnescape.

Definition is_quote (c : N) : bool := (c =? DQUOTE)%N || (c =? SQUOTE)%N || (c =? BACKTICK)%N.

(** src/util.rs line 37 *)
Definition starts_quoted (s : bytes) : bool :=
  match s with c :: _ => is_quote c | [] => false end.

(** src/util.rs lines 34-47: [parse_string] *)
Definition parse_string (t : tree) : outcome spanned_string :=
  content <- (if starts_quoted (as_str t) then unquote (as_str t) else Ok (as_str t));;
  Ok (SpannedString (span_of t) content).

(** src/util.rs lines 14-32: [parse_string_array] *)
Definition parse_string_array (t : tree) : outcome string_array :=
  elements <- for_each (fun elements field =>
    match t_rule field with
    | R_string => x <- parse_string field;; Ok (elements ++ [x])
    | R_comment => Ok elements
    | r => unexpected_token r
    end) (t_children t) [];;
  Ok (StringArray (span_of t) elements).

(** src/util.rs lines 252-271: [parse_any_breakable_inner]; the [for] loop over the
    children is the inner fixpoint (accumulator [components]). *)
Fixpoint parse_any_breakable_inner (t : tree) : outcome (list breakable_component) :=
  (fix loop (l : list tree) (components : list breakable_component) {struct l} :=
     match l with
     | [] => Ok components
     | field :: l' =>
       match t_rule field with
       | R_any_breakable =>
         more <- parse_any_breakable_inner field;; loop l' (components ++ more)
       | R_comment =>
         loop l' (components ++ [BComment (SpannedComment (span_of field) (as_str field))])
       | R_any_content =>
         loop l' (components ++ [BString (SpannedString (span_of field) (as_str field))])
       | r => unexpected_token r
       end
     end) (let 'Node _ _ _ l := t in l) [].

(** src/util.rs lines 273-278: [parse_any_breakable] *)
Definition parse_any_breakable (t : tree) : outcome breakable_string :=
  components <- parse_any_breakable_inner t;;
  Ok (BreakableString (span_of t) components).

(** ** FROM *)

(** src/instructions/from.rs lines 27-51: [FromFlag::from_record] *)
Definition from_flag_of (t : tree) : outcome flag :=
  '(name, value) <- for_each (fun '(name, value) field =>
    match t_rule field with
    | R_from_flag_name => x <- parse_string field;; Ok (Some x, value)
    | R_from_flag_value => x <- parse_string field;; Ok (name, Some x)
    | r => unexpected_token r
    end) (t_children t) (None, None);;
  name <- ok_or name (EGeneric (MText "from flags require a key"));;
  value <- ok_or value (EGeneric (MText "from flags require a value"));;
  Ok (Flag (span_of t) name value).

(** src/instructions/from.rs lines 73-126: [FromInstruction::from_record] *)
Definition from_of (t : tree) (index : nat) : outcome from_instruction :=
  '(image_field, alias_field, flags) <- for_each (fun '(image_field, alias_field, flags) field =>
    match t_rule field with
    | R_from_flag => x <- from_flag_of field;; Ok (image_field, alias_field, flags ++ [x])
    | R_from_image => Ok (Some field, alias_field, flags)
    | R_from_alias => Ok (image_field, Some field, flags)
    | R_comment => Ok (image_field, alias_field, flags)
    | r => unexpected_token r
    end) (t_children t) (None, None, []);;
  image <- match image_field with
           | Some f => parse_string f
           | None => generic "missing from image"
           end;;
  let image_parsed := image_parse (ss_content image) in
  _ <- match i_hash image_parsed with
       | Some hash => if digest_ok hash then Ok tt
                      else generic "image reference digest is invalid"
       | None => Ok tt
       end;;
  alias <- match alias_field with
           | Some f => x <- parse_string f;; Ok (Some x)
           | None => Ok None
           end;;
  Ok (FromInstruction (span_of t) flags image image_parsed index alias).

(** ** ARG *)

(** src/instructions/arg.rs lines 32-59: [ArgInstruction::from_record] *)
Definition arg_of (t : tree) : outcome arg_instruction :=
  '(name, value) <- for_each (fun '(name, value) field =>
    match t_rule field with
    | R_arg_name => x <- parse_string field;; Ok (Some x, value)
    | R_arg_quoted_value => x <- parse_string field;; Ok (name, Some x)
    | R_arg_value => x <- parse_string field;; Ok (name, Some x)
    | R_comment => Ok (name, value)
    | r => unexpected_token r
    end) (t_children t) (None, None);;
  name <- ok_or name (EGeneric (MText "arg name is required"));;
  Ok (ArgInstruction (span_of t) name value).

(** ** LABEL *)

(** src/instructions/label.rs lines 42-48 and 53-59 *)
Definition unquote_clean (field : tree) : outcome spanned_string :=
  v <- unquote (clean_escaped_breaks (as_str field));;
  Ok (SpannedString (span_of field) v).

(** src/instructions/label.rs lines 32-75: [Label::from_record] *)
Definition label_of (t : tree) : outcome label :=
  '(name, value) <- for_each (fun '(name, value) field =>
    match t_rule field with
    | R_label_name | R_label_single_name => x <- parse_string field;; Ok (Some x, value)
    | R_label_quoted_name | R_label_single_quoted_name =>
      x <- unquote_clean field;; Ok (Some x, value)
    | R_label_value => x <- parse_string field;; Ok (name, Some x)
    | R_label_quoted_value => x <- unquote_clean field;; Ok (name, Some x)
    | R_comment => Ok (name, value)
    | r => unexpected_token r
    end) (t_children t) (None, None);;
  name <- ok_or name (EGeneric (MText "label name is required"));;
  value <- ok_or value (EGeneric (MText "label value is required"));;
  Ok (Label (span_of t) name value).

(** src/instructions/label.rs lines 90-107: [LabelInstruction::from_record] *)
Definition label_instruction_of (t : tree) : outcome label_instruction :=
  labels <- for_each (fun labels field =>
    match t_rule field with
    | R_label_pair => x <- label_of field;; Ok (labels ++ [x])
    | R_label_single => x <- label_of field;; Ok (labels ++ [x])
    | R_comment => Ok labels
    | r => unexpected_token r
    end) (t_children t) [];;
  Ok (LabelInstruction (span_of t) labels).

(** ** RUN, ENTRYPOINT, CMD *)

(** The common body of src/instructions/run.rs lines 24-39, entrypoint.rs lines
    24-39 and cmd.rs lines 24-39; the [unwrap] of line 26 panics if there is no
    inner token. *)
Definition shell_or_exec_of (r_exec r_shell : rule) (t : tree) : outcome shell_or_exec :=
  match t_children t with
  | [] => Panic
  | field :: _ =>
    if rule_eq_dec (t_rule field) r_exec then a <- parse_string_array field;; Ok (Exec a)
    else if rule_eq_dec (t_rule field) r_shell then s <- parse_any_breakable field;; Ok (Shell s)
    else unexpected_token (t_rule field)
  end.

(** src/instructions/run.rs lines 24-39 *)
Definition run_of (t : tree) : outcome run_instruction :=
  e <- shell_or_exec_of R_run_exec R_run_shell t;; Ok (RunInstruction (span_of t) e).

(** src/instructions/entrypoint.rs lines 24-39 *)
Definition entrypoint_of (t : tree) : outcome entrypoint_instruction :=
  e <- shell_or_exec_of R_entrypoint_exec R_entrypoint_shell t;;
  Ok (EntrypointInstruction (span_of t) e).

(** src/instructions/cmd.rs lines 24-39 *)
Definition cmd_of (t : tree) : outcome cmd_instruction :=
  e <- shell_or_exec_of R_cmd_exec R_cmd_shell t;; Ok (CmdInstruction (span_of t) e).

(** ** COPY *)

(** src/instructions/copy.rs lines 24-48: [CopyFlag::from_record] *)
Definition copy_flag_of (t : tree) : outcome flag :=
  '(name, value) <- for_each (fun '(name, value) field =>
    match t_rule field with
    | R_copy_flag_name => x <- parse_string field;; Ok (Some x, value)
    | R_copy_flag_value => x <- parse_string field;; Ok (name, Some x)
    | r => unexpected_token r
    end) (t_children t) (None, None);;
  name <- ok_or name (EGeneric (MText "copy flags require a key"));;
  value <- ok_or value (EGeneric (MText "copy flags require a value"));;
  Ok (Flag (span_of t) name value).

(** [Vec::pop] *)
Fixpoint pop {A} (l : list A) : option (list A * A) :=
  match l with
  | [] => None
  | x :: l' => match pop l' with
               | None => Some ([], x)
               | Some (l'', y) => Some (x :: l'', y)
               end
  end.

(** src/instructions/copy.rs lines 63-93: [CopyInstruction::from_record] *)
Definition copy_of (t : tree) : outcome copy_instruction :=
  '(flags, paths) <- for_each (fun '(flags, paths) field =>
    match t_rule field with
    | R_copy_flag => x <- copy_flag_of field;; Ok (flags ++ [x], paths)
    | R_copy_pathspec => x <- parse_string field;; Ok (flags, paths ++ [x])
    | R_comment => Ok (flags, paths)
    | r => unexpected_token r
    end) (t_children t) ([], []);;
  if length paths <? 2 then generic "copy requires at least one source and a destination" else
  match pop paths with
  | None => Panic
  | Some (sources, destination) => Ok (CopyInstruction (span_of t) flags sources destination)
  end.

(** ** ENV *)

(** [BreakableString::new(&field).add_string(&field, v)], src/instructions/env.rs
    lines 52, 59 and 122 *)
Definition breakable_of_field (field : tree) (v : bytes) : breakable_string :=
  add_string (breakable_new (span_of field)) (span_of field) v.

(** src/instructions/env.rs lines 42-79: [parse_env_pair] *)
Definition env_pair_of (t : tree) : outcome env_var :=
  '(key, value) <- for_each (fun '(key, value) field =>
    match t_rule field with
    | R_env_name => x <- parse_string field;; Ok (Some x, value)
    | R_env_pair_value => Ok (key, Some (breakable_of_field field (as_str field)))
    | R_env_pair_quoted_value =>
      v <- unquote (as_str field);; Ok (key, Some (breakable_of_field field v))
    | r => unexpected_token r
    end) (t_children t) (None, None);;
  key <- ok_or key (EGeneric (MText "env pair requires a key"));;
  value <- ok_or value (EGeneric (MText "env pair requires a value"));;
  Ok (EnvVar (span_of t) key value).

(** src/instructions/env.rs lines 93-108: [from_pairs_record] *)
Definition env_pairs_of (sp : span) (t : tree) : outcome env_instruction :=
  vars <- for_each (fun vars field =>
    match t_rule field with
    | R_env_pair => x <- env_pair_of field;; Ok (vars ++ [x])
    | R_comment => Ok vars
    | r => unexpected_token r
    end) (t_children t) [];;
  Ok (EnvInstruction sp vars).

(** src/instructions/env.rs lines 110-146: [from_single_record] *)
Definition env_single_of (sp : span) (t : tree) : outcome env_instruction :=
  '(key, value) <- for_each (fun '(key, value) field =>
    match t_rule field with
    | R_env_name => x <- parse_string field;; Ok (Some x, value)
    | R_env_single_value => x <- parse_any_breakable field;; Ok (key, Some x)
    | R_env_single_quoted_value =>
      v <- unquote (as_str field);; Ok (key, Some (breakable_of_field field v))
    | R_comment => Ok (key, value)
    | r => unexpected_token r
    end) (t_children t) (None, None);;
  key <- ok_or key (EGeneric (MText "env requires a key"));;
  value <- ok_or value (EGeneric (MText "env requires a value"));;
  Ok (EnvInstruction sp
        [EnvVar (Span (s_start (ss_span key)) (s_end (br_span value))) key value]).

(** src/instructions/env.rs lines 82-91: [EnvInstruction::from_record] *)
Definition env_of (t : tree) : outcome env_instruction :=
  match t_children t with
  | [] => Panic
  | field :: _ =>
    match t_rule field with
    | R_env_single => env_single_of (span_of t) field
    | R_env_pairs => env_pairs_of (span_of t) field
    | r => unexpected_token r
    end
  end.

(** ** Everything else *)

(** src/instructions/misc.rs lines 26-51: [MiscInstruction::from_record] *)
Definition misc_of (t : tree) : outcome misc_instruction :=
  '(name, arguments) <- for_each (fun '(name, arguments) field =>
    match t_rule field with
    | R_misc_instruction => x <- parse_string field;; Ok (Some x, arguments)
    | R_misc_arguments => x <- parse_any_breakable field;; Ok (name, Some x)
    | r => unexpected_token r
    end) (t_children t) (None, None);;
  name <- ok_or name (EGeneric (MText "generic instructions require a name"));;
  arguments <- ok_or arguments (EGeneric (MText "generic instructions require arguments"));;
  Ok (MiscInstruction (span_of t) name arguments).

(** src/dockerfile_parser.rs lines 249-277: [TryFrom<Pair> for Instruction] *)
Definition instruction_of (t : tree) : outcome instruction :=
  match t_rule t with
  | R_from => i <- from_of t 0;; Ok (IFrom i)
  | R_arg => i <- arg_of t;; Ok (IArg i)
  | R_label => i <- label_instruction_of t;; Ok (ILabel i)
  | R_run => i <- run_of t;; Ok (IRun i)
  | R_entrypoint => i <- entrypoint_of t;; Ok (IEntrypoint i)
  | R_cmd => i <- cmd_of t;; Ok (ICmd i)
  | R_copy => i <- copy_of t;; Ok (ICopy i)
  | R_env => i <- env_of t;; Ok (IEnv i)
  | R_misc => i <- misc_of t;; Ok (IMisc i)
  | r => unexpected_token r
  end.

End Convert.

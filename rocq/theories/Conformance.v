(** Conformance tests: the assertions of the crate's own test suite, run on the
    model.  These are tests, not proofs of properties: they check that the model
    (including the parts modelled from memory, pest and enquote) computes what the
    authors of the crate say the code computes.  Generated from the sources. *)

From Coq Require Import String.
From Verif Require Import Bytes Grammar Peg Result Ast Splicer Image Convert Dockerfile Stage Enquote.
Local Open Scope nat_scope.
Local Open Scope string_scope.
Local Open Scope list_scope.

Local Notation U := enquote_unquote.

Definition is_err {A} (x : outcome A) : bool := match x with Err _ => true | _ => false end.
Definition ok {A} (x : outcome A) : option A := match x with Ok a => Some a | _ => None end.
Definition shell_of (i : instruction) : option breakable_string :=
  match i with
  | IRun r => as_shell (run_expr r)
  | ICmd r => as_shell (cmd_expr r)
  | IEntrypoint r => as_shell (entrypoint_expr r)
  | _ => None
  end.
Definition exec_of (i : instruction) : option string_array :=
  match i with
  | IRun r => as_exec (run_expr r)
  | ICmd r => as_exec (cmd_expr r)
  | IEntrypoint r => as_exec (entrypoint_expr r)
  | _ => None
  end.
Definition shell_text (x : outcome instruction) : option bytes :=
  match x with Ok i => option_map display_breakable (shell_of i) | _ => None end.
Definition vars_of (x : outcome instruction) := match x with Ok (IEnv e) => Some (env_vars e) | _ => None end.
Definition labels_of (x : outcome instruction) := match x with Ok (ILabel e) => Some (label_labels e) | _ => None end.
Definition instructions_of (x : outcome dockerfile) := option_map d_instructions (ok x).
Definition first_of (x : outcome dockerfile) :=
  match instructions_of x with Some (i :: _) => Some i | _ => None end.
Definition collect {A} (f : instruction -> list A) (x : outcome dockerfile) : list A :=
  match instructions_of x with Some l => flat_map f l | None => [] end.
Definition to_list {A} (x : option A) : list A := match x with Some a => [a] | None => [] end.
Definition shell_texts := collect (fun i => to_list (option_map display_breakable (shell_of i))).
Definition exec_texts := collect (fun i => to_list (option_map as_str_vec (exec_of i))).
Definition label_instructions := collect (fun i => to_list (as_label i)).
Definition env_vars_of_doc := collect (fun i => match i with IEnv e => env_vars e | _ => [] end).
Definition relative_spans (u : bytes -> option bytes) (s : bytes) : option (list (nat * span)) :=
  match parse u s with
  | Ok d =>
    match d_instructions d with
    | [IFrom f; _; _; ICopy c] =>
      match from_alias f, copy_flags c with
      | Some a, [fl] =>
        Some (flat_map (fun sp => to_list (ok (relative_span sp d)))
                [ss_span a; copy_span c; fl_span fl; ss_span (fl_value fl)])
      | _, _ => None
      end
    | _ => None
    end
  | _ => None
  end.
Definition stages_of (u : bytes -> option bytes) (s : bytes) : option (list stage) :=
  match parse u s with Ok d => ok (stages_new d) | _ => None end.
Definition stage_summary u s :=
  option_map (map (fun x => (st_index x, st_name x, length (st_instructions x), st_parent x, st_root x)))
    (stages_of u s).
Definition stage_lookups u s (l : list bytes) :=
  option_map (fun ss => map (fun x => option_map st_index (stages_get ss x)) l) (stages_of u s).
Definition test_vars : vars := fun n =>
  if beqb n (bs "foo") then Some (bs "bar") else
  if beqb n (bs "baz") then Some (bs "qux") else
  if beqb n (bs "lorem") then Some (bs "$foo") else
  if beqb n (bs "ipsum") then Some (bs "${lorem}") else
  if beqb n (bs "recursion1") then Some (bs "$recursion2") else
  if beqb n (bs "recursion2") then Some (bs "$recursion1") else None.
Definition resolved u s k :=
  match parse u s with
  | Ok d => match nth_error (d_instructions d) k with
            | Some (IFrom f) => ok (resolve_vars (from_image_parsed f) d)
            | _ => None
            end
  | _ => None
  end.

(* src/instructions/arg.rs lines 86-100 *)
Example t01 : parse_single U (bs "arg foo=bar") R_arg = Ok (IArg (ArgInstruction (Span 0 11) (SpannedString (Span 4 7) (bs "foo")) (Some (SpannedString (Span 8 11) (bs "bar"))))).
Proof. vm_compute. reflexivity. Qed.

(* src/instructions/arg.rs lines 102-115 *)
Example t02 : parse_single U (bs "arg foo=""bar""") R_arg = Ok (IArg (ArgInstruction (Span 0 13) (SpannedString (Span 4 7) (bs "foo")) (Some (SpannedString (Span 8 13) (bs "bar"))))).
Proof. vm_compute. reflexivity. Qed.

(* src/instructions/arg.rs lines 117-130 *)
Example t03 : parse_single U (bs "arg foo='bar'") R_arg = Ok (IArg (ArgInstruction (Span 0 13) (SpannedString (Span 4 7) (bs "foo")) (Some (SpannedString (Span 8 13) (bs "bar"))))).
Proof. vm_compute. reflexivity. Qed.

(* src/instructions/arg.rs line 132 *)
Example t04 : is_err (parse U (bs "arg foo=""bar""bar")) = true.
Proof. vm_compute. reflexivity. Qed.

(* src/instructions/arg.rs line 133 *)
Example t05 : is_err (parse U (bs "arg foo='bar'bar")) = true.
Proof. vm_compute. reflexivity. Qed.

(* src/instructions/cmd.rs tests *)
Example t06 : parse_single U (bs "CMD echo ""hello world""") R_cmd = Ok (ICmd (CmdInstruction (Span 0 22) (Shell (add_string (breakable_new (Span 4 22)) (Span 4 22) (bs "echo ""hello world"""))))).
Proof. vm_compute. reflexivity. Qed.

(* src/instructions/cmd.rs tests *)
Example t07 : parse_single U (bs "cmd [""echo"", ""hello world""]") R_cmd = Ok (ICmd (CmdInstruction (Span 0 27) (Exec (StringArray (Span 4 27) [(SpannedString (Span 5 11) (bs "echo")); (SpannedString (Span 13 26) (bs "hello world"))])))).
Proof. vm_compute. reflexivity. Qed.

(* src/instructions/cmd.rs tests *)
Example t08 : parse_single U (bs "cmd\
        [\
        ""echo"", \
        ""hello world""\
        ]") R_cmd = Ok (ICmd (CmdInstruction (Span 0 66) (Exec (StringArray (Span 13 66) [(SpannedString (Span 24 30) (bs "echo")); (SpannedString (Span 42 55) (bs "hello world"))])))).
Proof. vm_compute. reflexivity. Qed.

(* src/instructions/cmd.rs tests *)
Example t09 : parse_single U (bs "cmd echo \
  ""hello world""
") R_cmd = Ok (ICmd (CmdInstruction (Span 0 26) (Shell (add_string (add_string (breakable_new (Span 4 26)) (Span 4 9) (bs "echo ")) (Span 11 26) (bs "  ""hello world"""))))).
Proof. vm_compute. reflexivity. Qed.

(* src/instructions/cmd.rs tests *)
Example t10 : parse_single U (bs "cmd set -x && \
    # lorem ipsum
    echo ""hello world"" && \
    # dolor sit amet,
    # consectetur \
    # adipiscing elit, \
    # sed do eiusmod
    # tempor incididunt ut labore
    echo foo && \
    echo 'bar' \
    && echo baz \
    # et dolore magna aliqua.") R_cmd = Ok (ICmd (CmdInstruction (Span 0 266) (Shell (add_comment (add_string (add_string (add_string (add_comment (add_comment (add_comment (add_comment (add_comment (add_string (add_comment (add_string (breakable_new (Span 4 266)) (Span 4 14) (bs "set -x && ")) (Span 20 33) (bs "# lorem ipsum")) (Span 34 60) (bs "    echo ""hello world"" && ")) (Span 66 83) (bs "# dolor sit amet,")) (Span 88 103) (bs "# consectetur \")) (Span 108 128) (bs "# adipiscing elit, \")) (Span 133 149) (bs "# sed do eiusmod")) (Span 154 183) (bs "# tempor incididunt ut labore")) (Span 184 200) (bs "    echo foo && ")) (Span 202 217) (bs "    echo 'bar' ")) (Span 219 235) (bs "    && echo baz ")) (Span 241 266) (bs "# et dolore magna aliqua."))))).
Proof. vm_compute. reflexivity. Qed.

(* src/instructions/cmd.rs tests *)
Example t11 : shell_text (parse_single U (bs "cmd set -x && \
    # lorem ipsum
    echo ""hello world"" && \
    # dolor sit amet,
    # consectetur \
    # adipiscing elit, \
    # sed do eiusmod
    # tempor incididunt ut labore
    echo foo && \
    echo 'bar' \
    && echo baz \
    # et dolore magna aliqua.") R_cmd) = Some (bs "set -x &&     echo ""hello world"" &&     echo foo &&     echo 'bar'     && echo baz ").
Proof. vm_compute. reflexivity. Qed.

(* src/instructions/entrypoint.rs tests *)
Example t12 : parse_single U (bs "entrypoint echo ""hello world""") R_entrypoint = Ok (IEntrypoint (EntrypointInstruction (Span 0 29) (Shell (add_string (breakable_new (Span 11 29)) (Span 11 29) (bs "echo ""hello world"""))))).
Proof. vm_compute. reflexivity. Qed.

(* src/instructions/entrypoint.rs tests *)
Example t13 : parse_single U (bs "entrypoint [""echo"", ""hello world""]") R_entrypoint = Ok (IEntrypoint (EntrypointInstruction (Span 0 34) (Exec (StringArray (Span 11 34) [(SpannedString (Span 12 18) (bs "echo")); (SpannedString (Span 20 33) (bs "hello world"))])))).
Proof. vm_compute. reflexivity. Qed.

(* src/instructions/entrypoint.rs tests *)
Example t14 : parse_single U (bs "entrypoint\
        [\
        ""echo"", \
        ""hello world""\
        ]") R_entrypoint = Ok (IEntrypoint (EntrypointInstruction (Span 0 73) (Exec (StringArray (Span 20 73) [(SpannedString (Span 31 37) (bs "echo")); (SpannedString (Span 49 62) (bs "hello world"))])))).
Proof. vm_compute. reflexivity. Qed.

(* src/instructions/entrypoint.rs tests *)
Example t15 : parse_single U (bs "entrypoint echo \
  ""hello world""
") R_entrypoint = Ok (IEntrypoint (EntrypointInstruction (Span 0 33) (Shell (add_string (add_string (breakable_new (Span 11 33)) (Span 11 16) (bs "echo ")) (Span 18 33) (bs "  ""hello world"""))))).
Proof. vm_compute. reflexivity. Qed.

(* src/instructions/entrypoint.rs tests *)
Example t16 : parse_single U (bs "entrypoint set -x && \
    # lorem ipsum
    echo ""hello world"" && \
    # dolor sit amet,
    # consectetur \
    # adipiscing elit, \
    # sed do eiusmod
    # tempor incididunt ut labore
    echo foo && \
    echo 'bar' \
    && echo baz \
    # et dolore magna aliqua.") R_entrypoint = Ok (IEntrypoint (EntrypointInstruction (Span 0 273) (Shell (add_comment (add_string (add_string (add_string (add_comment (add_comment (add_comment (add_comment (add_comment (add_string (add_comment (add_string (breakable_new (Span 11 273)) (Span 11 21) (bs "set -x && ")) (Span 27 40) (bs "# lorem ipsum")) (Span 41 67) (bs "    echo ""hello world"" && ")) (Span 73 90) (bs "# dolor sit amet,")) (Span 95 110) (bs "# consectetur \")) (Span 115 135) (bs "# adipiscing elit, \")) (Span 140 156) (bs "# sed do eiusmod")) (Span 161 190) (bs "# tempor incididunt ut labore")) (Span 191 207) (bs "    echo foo && ")) (Span 209 224) (bs "    echo 'bar' ")) (Span 226 242) (bs "    && echo baz ")) (Span 248 273) (bs "# et dolore magna aliqua."))))).
Proof. vm_compute. reflexivity. Qed.

(* src/instructions/entrypoint.rs tests *)
Example t17 : shell_text (parse_single U (bs "entrypoint set -x && \
    # lorem ipsum
    echo ""hello world"" && \
    # dolor sit amet,
    # consectetur \
    # adipiscing elit, \
    # sed do eiusmod
    # tempor incididunt ut labore
    echo foo && \
    echo 'bar' \
    && echo baz \
    # et dolore magna aliqua.") R_entrypoint) = Some (bs "set -x &&     echo ""hello world"" &&     echo foo &&     echo 'bar'     && echo baz ").
Proof. vm_compute. reflexivity. Qed.

(* src/instructions/run.rs tests *)
Example t18 : parse_single U (bs "run echo ""hello world""") R_run = Ok (IRun (RunInstruction (Span 0 22) (Shell (add_string (breakable_new (Span 4 22)) (Span 4 22) (bs "echo ""hello world"""))))).
Proof. vm_compute. reflexivity. Qed.

(* src/instructions/run.rs tests *)
Example t19 : parse_single U (bs "run [""echo"", ""hello world""]") R_run = Ok (IRun (RunInstruction (Span 0 27) (Exec (StringArray (Span 4 27) [(SpannedString (Span 5 11) (bs "echo")); (SpannedString (Span 13 26) (bs "hello world"))])))).
Proof. vm_compute. reflexivity. Qed.

(* src/instructions/run.rs tests *)
Example t20 : parse_single U (bs "run echo \
  ""hello world""
") R_run = Ok (IRun (RunInstruction (Span 0 26) (Shell (add_string (add_string (breakable_new (Span 4 26)) (Span 4 9) (bs "echo ")) (Span 11 26) (bs "  ""hello world"""))))).
Proof. vm_compute. reflexivity. Qed.

(* src/instructions/run.rs tests *)
Example t21 : shell_text (parse_single U (bs "run echo \    	  		
  ""hello world""") R_run) = Some (bs "echo   ""hello world""").
Proof. vm_compute. reflexivity. Qed.

(* src/instructions/run.rs tests *)
Example t22 : parse_single U (bs "run foo && \
    # implicitly escaped
    bar && \
    # explicitly escaped \
    baz
") R_run = Ok (IRun (RunInstruction (Span 0 85) (Shell (add_string (add_comment (add_string (add_comment (add_string (breakable_new (Span 4 85)) (Span 4 11) (bs "foo && ")) (Span 17 37) (bs "# implicitly escaped")) (Span 38 49) (bs "    bar && ")) (Span 55 77) (bs "# explicitly escaped \")) (Span 78 85) (bs "    baz"))))).
Proof. vm_compute. reflexivity. Qed.

(* src/instructions/run.rs tests *)
Example t23 : parse_single U (bs "run set -x && \
    # lorem ipsum
    echo ""hello world"" && \
    # dolor sit amet,
    # consectetur \
    # adipiscing elit, \
    # sed do eiusmod
    # tempor incididunt ut labore
    echo foo && \
    echo 'bar' \
    && echo baz \
    # et dolore magna aliqua.") R_run = Ok (IRun (RunInstruction (Span 0 266) (Shell (add_comment (add_string (add_string (add_string (add_comment (add_comment (add_comment (add_comment (add_comment (add_string (add_comment (add_string (breakable_new (Span 4 266)) (Span 4 14) (bs "set -x && ")) (Span 20 33) (bs "# lorem ipsum")) (Span 34 60) (bs "    echo ""hello world"" && ")) (Span 66 83) (bs "# dolor sit amet,")) (Span 88 103) (bs "# consectetur \")) (Span 108 128) (bs "# adipiscing elit, \")) (Span 133 149) (bs "# sed do eiusmod")) (Span 154 183) (bs "# tempor incididunt ut labore")) (Span 184 200) (bs "    echo foo && ")) (Span 202 217) (bs "    echo 'bar' ")) (Span 219 235) (bs "    && echo baz ")) (Span 241 266) (bs "# et dolore magna aliqua."))))).
Proof. vm_compute. reflexivity. Qed.

(* src/instructions/run.rs tests *)
Example t24 : shell_text (parse_single U (bs "run set -x && \
    # lorem ipsum
    echo ""hello world"" && \
    # dolor sit amet,
    # consectetur \
    # adipiscing elit, \
    # sed do eiusmod
    # tempor incididunt ut labore
    echo foo && \
    echo 'bar' \
    && echo baz \
    # et dolore magna aliqua.") R_run) = Some (bs "set -x &&     echo ""hello world"" &&     echo foo &&     echo 'bar'     && echo baz ").
Proof. vm_compute. reflexivity. Qed.

(* src/instructions/run.rs tests *)
Example t25 : parse_single U (bs "run\
        [\
        ""echo"", \
        ""hello world""\
        ]") R_run = Ok (IRun (RunInstruction (Span 0 66) (Exec (StringArray (Span 13 66) [(SpannedString (Span 24 30) (bs "echo")); (SpannedString (Span 42 55) (bs "hello world"))])))).
Proof. vm_compute. reflexivity. Qed.

(* src/instructions/copy.rs tests *)
Example t26 : parse_single U (bs "copy foo bar") R_copy = Ok (ICopy (CopyInstruction (Span 0 12) [] [(SpannedString (Span 5 8) (bs "foo"))] (SpannedString (Span 9 12) (bs "bar")))).
Proof. vm_compute. reflexivity. Qed.

(* src/instructions/copy.rs tests *)
Example t27 : parse_single U (bs "copy foo bar baz qux") R_copy = Ok (ICopy (CopyInstruction (Span 0 20) [] [(SpannedString (Span 5 8) (bs "foo")); (SpannedString (Span 9 12) (bs "bar")); (SpannedString (Span 13 16) (bs "baz"))] (SpannedString (Span 17 20) (bs "qux")))).
Proof. vm_compute. reflexivity. Qed.

(* src/instructions/copy.rs tests *)
Example t28 : parse_single U (bs "copy foo \
bar") R_copy = Ok (ICopy (CopyInstruction (Span 0 14) [] [(SpannedString (Span 5 8) (bs "foo"))] (SpannedString (Span 11 14) (bs "bar")))).
Proof. vm_compute. reflexivity. Qed.

(* src/instructions/copy.rs tests *)
Example t29 : is_err (parse_single U (bs "copy foo
bar") R_copy) = true.
Proof. vm_compute. reflexivity. Qed.

(* src/instructions/copy.rs tests *)
Example t30 : parse_single U (bs "copy --from=alpine:3.10 /usr/lib/libssl.so.1.1 /tmp/") R_copy = Ok (ICopy (CopyInstruction (Span 0 52) [Flag (Span 5 23) (SpannedString (Span 7 11) (bs "from")) (SpannedString (Span 12 23) (bs "alpine:3.10"))] [(SpannedString (Span 24 46) (bs "/usr/lib/libssl.so.1.1"))] (SpannedString (Span 47 52) (bs "/tmp/")))).
Proof. vm_compute. reflexivity. Qed.

(* src/instructions/copy.rs tests *)
Example t31 : parse_single U (bs "copy \
  --from=alpine:3.10 \

  # hello

  /usr/lib/libssl.so.1.1 \
  # world
  /tmp/
") R_copy = Ok (ICopy (CopyInstruction (Span 0 86) [Flag (Span 9 27) (SpannedString (Span 11 15) (bs "from")) (SpannedString (Span 16 27) (bs "alpine:3.10"))] [(SpannedString (Span 44 66) (bs "/usr/lib/libssl.so.1.1"))] (SpannedString (Span 81 86) (bs "/tmp/")))).
Proof. vm_compute. reflexivity. Qed.

(* src/instructions/env.rs tests *)
Example t32 : parse_single U (bs "env foo=bar") R_env = Ok (IEnv (EnvInstruction (Span 0 11) [EnvVar (Span 4 11) (SpannedString (Span 4 7) (bs "foo")) (add_string (breakable_new (Span 8 11)) (Span 8 11) (bs "bar"))])).
Proof. vm_compute. reflexivity. Qed.

(* src/instructions/env.rs tests *)
Example t33 : parse_single U (bs "env FOO_BAR=""baz""") R_env = Ok (IEnv (EnvInstruction (Span 0 17) [EnvVar (Span 4 17) (SpannedString (Span 4 11) (bs "FOO_BAR")) (add_string (breakable_new (Span 12 17)) (Span 12 17) (bs "baz"))])).
Proof. vm_compute. reflexivity. Qed.

(* src/instructions/env.rs tests *)
Example t34 : parse_single U (bs "env FOO_BAR ""baz""") R_env = Ok (IEnv (EnvInstruction (Span 0 17) [EnvVar (Span 4 17) (SpannedString (Span 4 11) (bs "FOO_BAR")) (add_string (breakable_new (Span 12 17)) (Span 12 17) (bs "baz"))])).
Proof. vm_compute. reflexivity. Qed.

(* src/instructions/env.rs tests *)
Example t35 : parse_single U (bs "env foo=""bar\""baz""") R_env = Ok (IEnv (EnvInstruction (Span 0 18) [EnvVar (Span 4 18) (SpannedString (Span 4 7) (bs "foo")) (add_string (breakable_new (Span 8 18)) (Span 8 18) (bs "bar""baz"))])).
Proof. vm_compute. reflexivity. Qed.

(* src/instructions/env.rs tests *)
Example t36 : parse_single U (bs "env foo='bar'") R_env = Ok (IEnv (EnvInstruction (Span 0 13) [EnvVar (Span 4 13) (SpannedString (Span 4 7) (bs "foo")) (add_string (breakable_new (Span 8 13)) (Span 8 13) (bs "bar"))])).
Proof. vm_compute. reflexivity. Qed.

(* src/instructions/env.rs tests *)
Example t37 : parse_single U (bs "env foo='bar\'baz'") R_env = Ok (IEnv (EnvInstruction (Span 0 18) [EnvVar (Span 4 18) (SpannedString (Span 4 7) (bs "foo")) (add_string (breakable_new (Span 8 18)) (Span 8 18) (bs "bar'baz"))])).
Proof. vm_compute. reflexivity. Qed.

(* src/instructions/env.rs tests *)
Example t38 : parse_single U (bs "env foo=""123"" bar='456' baz=789") R_env = Ok (IEnv (EnvInstruction (Span 0 31) [EnvVar (Span 4 13) (SpannedString (Span 4 7) (bs "foo")) (add_string (breakable_new (Span 8 13)) (Span 8 13) (bs "123")); EnvVar (Span 14 23) (SpannedString (Span 14 17) (bs "bar")) (add_string (breakable_new (Span 18 23)) (Span 18 23) (bs "456")); EnvVar (Span 24 31) (SpannedString (Span 24 27) (bs "baz")) (add_string (breakable_new (Span 28 31)) (Span 28 31) (bs "789"))])).
Proof. vm_compute. reflexivity. Qed.

(* src/instructions/env.rs tests *)
Example t39 : is_err (parse U (bs "env foo=""bar""bar")) = true.
Proof. vm_compute. reflexivity. Qed.

(* src/instructions/env.rs tests *)
Example t40 : is_err (parse U (bs "env foo='bar'bar")) = true.
Proof. vm_compute. reflexivity. Qed.

(* src/instructions/env.rs tests *)
Example t41 : vars_of (parse_single U (bs "env foo=a \
  bar=b \
  baz=c \

") R_env) = (Some [EnvVar (Span 4 9) (SpannedString (Span 4 7) (bs "foo")) (add_string (breakable_new (Span 8 9)) (Span 8 9) (bs "a")); EnvVar (Span 14 19) (SpannedString (Span 14 17) (bs "bar")) (add_string (breakable_new (Span 18 19)) (Span 18 19) (bs "b")); EnvVar (Span 24 29) (SpannedString (Span 24 27) (bs "baz")) (add_string (breakable_new (Span 28 29)) (Span 28 29) (bs "c"))]).
Proof. vm_compute. reflexivity. Qed.

(* src/instructions/env.rs tests *)
Example t42 : vars_of (parse_single U (bs "env foo Lorem ipsum dolor sit amet, \
  consectetur adipiscing elit, \
  sed do eiusmod tempor incididunt ut \
  labore et dolore magna aliqua.
") R_env) = (Some [EnvVar (Span 4 143) (SpannedString (Span 4 7) (bs "foo")) (add_string (add_string (add_string (add_string (breakable_new (Span 8 143)) (Span 8 36) (bs "Lorem ipsum dolor sit amet, ")) (Span 38 69) (bs "  consectetur adipiscing elit, ")) (Span 71 109) (bs "  sed do eiusmod tempor incididunt ut ")) (Span 111 143) (bs "  labore et dolore magna aliqua."))]).
Proof. vm_compute. reflexivity. Qed.

(* src/instructions/env.rs tests *)
Example t43 : vars_of (parse_single U (bs "env \
  foo \
  Lorem ipsum dolor sit amet, \
  consectetur adipiscing elit
") R_env) = (Some [EnvVar (Span 8 75) (SpannedString (Span 8 11) (bs "foo")) (add_string (add_string (breakable_new (Span 16 75)) (Span 16 44) (bs "Lorem ipsum dolor sit amet, ")) (Span 46 75) (bs "  consectetur adipiscing elit"))]).
Proof. vm_compute. reflexivity. Qed.

(* src/instructions/env.rs tests *)
Example t44 : vars_of (parse_single U (bs "env \
  foo \
  # bar
  Lorem ipsum dolor sit amet, \
  # baz
  consectetur adipiscing elit
") R_env) = (Some [EnvVar (Span 8 91) (SpannedString (Span 8 11) (bs "foo")) (add_string (add_comment (add_string (breakable_new (Span 24 91)) (Span 24 52) (bs "Lorem ipsum dolor sit amet, ")) (Span 56 61) (bs "# baz")) (Span 62 91) (bs "  consectetur adipiscing elit"))]).
Proof. vm_compute. reflexivity. Qed.

(* src/instructions/from.rs tests *)
Example t45 : parse_single U (bs "from alpine@sha256:ca5a2eb9b7917e542663152b04c0") R_from = Err (EGeneric (MText "image reference digest is invalid")).
Proof. vm_compute. reflexivity. Qed.

(* src/instructions/from.rs tests *)
Example t46 : parse_single U (bs "from alpine@sha257:ca5a2eb9b7917e542663152b04c0ad0572e0522fcf80ff080156377fc08ea8f8") R_from = Err (EGeneric (MText "image reference digest is invalid")).
Proof. vm_compute. reflexivity. Qed.

(* src/instructions/from.rs tests *)
Example t47 : parse_single U (bs "from alpine@ca5a2eb9b7917e542663152b04c0ad0572e0522fcf80ff080156377fc08ea8f8") R_from = Err (EGeneric (MText "image reference digest is invalid")).
Proof. vm_compute. reflexivity. Qed.

(* src/instructions/from.rs tests *)
Example t48 : parse_single U (bs "from alpine:3.10") R_from = Ok (IFrom (FromInstruction (Span 0 16) [] (SpannedString (Span 5 16) (bs "alpine:3.10")) (ImageRef None (bs "alpine") (Some (bs "3.10")) None) 0 None)).
Proof. vm_compute. reflexivity. Qed.

(* src/instructions/from.rs tests *)
Example t49 : is_err (parse_single U (bs "from alpine:3.10 from example") R_dockerfile) = true.
Proof. vm_compute. reflexivity. Qed.

(* src/instructions/from.rs tests *)
Example t50 : is_err (parse_single U (bs "from alpine:3.10 as") R_dockerfile) = true.
Proof. vm_compute. reflexivity. Qed.

(* src/instructions/from.rs tests *)
Example t51 : parse_single U (bs "FROM --platform=linux/amd64 alpine:3.10") R_from = Ok (IFrom (FromInstruction (Span 0 39) [Flag (Span 5 27) (SpannedString (Span 7 15) (bs "platform")) (SpannedString (Span 16 27) (bs "linux/amd64"))] (SpannedString (Span 28 39) (bs "alpine:3.10")) (ImageRef None (bs "alpine") (Some (bs "3.10")) None) 0 None)).
Proof. vm_compute. reflexivity. Qed.

(* src/instructions/from.rs tests *)
Example t52 : parse_single U (bs "from \
  # foo
  alpine:3.10 \

  # test
  # comment

  as \

  test
") R_from = Ok (IFrom (FromInstruction (Span 0 68) [] (SpannedString (Span 17 28) (bs "alpine:3.10")) (ImageRef None (bs "alpine") (Some (bs "3.10")) None) 0 (Some (SpannedString (Span 64 68) (bs "test"))))).
Proof. vm_compute. reflexivity. Qed.

(* src/instructions/label.rs tests *)
Example t53 : parse_single U (bs "label foo=bar") R_label = Ok (ILabel (LabelInstruction (Span 0 13) [Label (Span 6 13) (SpannedString (Span 6 9) (bs "foo")) (SpannedString (Span 10 13) (bs "bar"))])).
Proof. vm_compute. reflexivity. Qed.

(* src/instructions/label.rs tests *)
Example t54 : parse_single U (bs "label foo.bar=baz") R_label = Ok (ILabel (LabelInstruction (Span 0 17) [Label (Span 6 17) (SpannedString (Span 6 13) (bs "foo.bar")) (SpannedString (Span 14 17) (bs "baz"))])).
Proof. vm_compute. reflexivity. Qed.

(* src/instructions/label.rs tests *)
Example t55 : parse_single U (bs "label ""foo.bar""=""baz qux""") R_label = Ok (ILabel (LabelInstruction (Span 0 25) [Label (Span 6 25) (SpannedString (Span 6 15) (bs "foo.bar")) (SpannedString (Span 16 25) (bs "baz qux"))])).
Proof. vm_compute. reflexivity. Qed.

(* src/instructions/label.rs tests *)
Example t56 : parse_single U (bs "label foo.bar baz") R_label = Ok (ILabel (LabelInstruction (Span 0 17) [Label (Span 5 17) (SpannedString (Span 6 13) (bs "foo.bar")) (SpannedString (Span 14 17) (bs "baz"))])).
Proof. vm_compute. reflexivity. Qed.

(* src/instructions/label.rs tests *)
Example t57 : parse_single U (bs "label ""foo.bar"" ""baz qux""") R_label = Ok (ILabel (LabelInstruction (Span 0 25) [Label (Span 5 25) (SpannedString (Span 6 15) (bs "foo.bar")) (SpannedString (Span 16 25) (bs "baz qux"))])).
Proof. vm_compute. reflexivity. Qed.

(* src/instructions/label.rs tests *)
Example t58 : parse_single U (bs "label foo=bar baz=""qux"" ""quux quuz""=""corge grault""") R_label = Ok (ILabel (LabelInstruction (Span 0 50) [Label (Span 6 13) (SpannedString (Span 6 9) (bs "foo")) (SpannedString (Span 10 13) (bs "bar")); Label (Span 14 23) (SpannedString (Span 14 17) (bs "baz")) (SpannedString (Span 18 23) (bs "qux")); Label (Span 24 50) (SpannedString (Span 24 35) (bs "quux quuz")) (SpannedString (Span 36 50) (bs "corge grault"))])).
Proof. vm_compute. reflexivity. Qed.

(* src/instructions/label.rs tests *)
Example t59 : parse_single U (bs "label foo=bar \
          baz=""qux"" \
          ""quux quuz""=""corge grault""") R_label = Ok (ILabel (LabelInstruction (Span 0 74) [Label (Span 6 13) (SpannedString (Span 6 9) (bs "foo")) (SpannedString (Span 10 13) (bs "bar")); Label (Span 26 35) (SpannedString (Span 26 29) (bs "baz")) (SpannedString (Span 30 35) (bs "qux")); Label (Span 48 74) (SpannedString (Span 48 59) (bs "quux quuz")) (SpannedString (Span 60 74) (bs "corge grault"))])).
Proof. vm_compute. reflexivity. Qed.

(* src/instructions/label.rs tests *)
Example t60 : parse_single U (bs "label ""foo.bar""=""baz\n qux""") R_label = Ok (ILabel (LabelInstruction (Span 0 27) [Label (Span 6 27) (SpannedString (Span 6 15) (bs "foo.bar")) (SpannedString (Span 16 27) (bs "baz
 qux"))])).
Proof. vm_compute. reflexivity. Qed.

(* src/instructions/label.rs tests *)
Example t61 : parse_single U (bs "label ""foo\nbar""=""baz\n qux""") R_label = Ok (ILabel (LabelInstruction (Span 0 28) [Label (Span 6 28) (SpannedString (Span 6 16) (bs "foo
bar")) (SpannedString (Span 17 28) (bs "baz
 qux"))])).
Proof. vm_compute. reflexivity. Qed.

(* src/instructions/label.rs tests *)
Example t62 : parse_single U (bs "label foo=bar \
          ""lorem ipsum
          dolor
          ""=""sit
          amet"" \
          baz=qux") R_label = Ok (ILabel (LabelInstruction (Span 0 107) [Label (Span 6 13) (SpannedString (Span 6 9) (bs "foo")) (SpannedString (Span 10 13) (bs "bar")); Label (Span 26 87) (SpannedString (Span 26 66) (bs "lorem ipsum
          dolor
          ")) (SpannedString (Span 67 87) (bs "sit
          amet")); Label (Span 100 107) (SpannedString (Span 100 103) (bs "baz")) (SpannedString (Span 104 107) (bs "qux"))])).
Proof. vm_compute. reflexivity. Qed.

(* src/instructions/label.rs tests *)
Example t63 : labels_of (parse_single U (bs "label foo=a \
  bar=b \
  baz=c \

") R_label) = (Some [Label (Span 6 11) (SpannedString (Span 6 9) (bs "foo")) (SpannedString (Span 10 11) (bs "a")); Label (Span 16 21) (SpannedString (Span 16 19) (bs "bar")) (SpannedString (Span 20 21) (bs "b")); Label (Span 26 31) (SpannedString (Span 26 29) (bs "baz")) (SpannedString (Span 30 31) (bs "c"))]).
Proof. vm_compute. reflexivity. Qed.

(* src/splicer.rs lines 186-234 *)
Example t64 : relative_spans U (bs "FROM alpine:3.10 as build
FROM alpine:3.10

RUN echo ""hello world""

COPY --from=build /foo /bar
") = Some [(0, Span 20 25); (5, Span 0 27); (5, Span 5 17); (5, Span 12 17)].
Proof. vm_compute. reflexivity. Qed.

(* src/stage.rs lines 212-252 (with the parents and roots the assertion would compare if equality looked at them; the parent of the last stage is stage 1, not 2) *)
Example t65 : stage_summary U (bs "FROM alpine:3.12

FROM ubuntu:18.04 as build
RUN echo ""hello world""

FROM build as build2
COPY /foo /bar
COPY /bar /baz

FROM build as build3
") = Some [(0, None, 1, PImage (image_parse (bs "alpine:3.12")), PImage (image_parse (bs "alpine:3.12"))); (1, Some (bs "build"), 2, (PImage (image_parse (bs "ubuntu:18.04"))), (PImage (image_parse (bs "ubuntu:18.04")))); (2, Some (bs "build2"), 3, PStage 1, (PImage (image_parse (bs "ubuntu:18.04")))); (3, Some (bs "build3"), 1, PStage 1, (PImage (image_parse (bs "ubuntu:18.04"))))].
Proof. vm_compute. reflexivity. Qed.

(* src/stage.rs lines 254-268 *)
Example t66 : stage_lookups U (bs "FROM alpine:3.12

FROM ubuntu:18.04 as build

FROM build as build2
") [bs "0"; bs "1"; bs "build"; bs "2"; bs "build2"; bs "BUILD2"; bs "9"] = Some [Some 0; Some 1; Some 1; Some 2; Some 2; Some 2; None].
Proof. vm_compute. reflexivity. Qed.

(* src/image.rs lines 212-445 *)
Example t67 : image_parse (bs "alpine:3.10") = ImageRef None (bs "alpine") (Some (bs "3.10")) None.
Proof. vm_compute. reflexivity. Qed.

(* src/image.rs lines 212-445 *)
Example t68 : image_parse (bs "foo/bar") = ImageRef None (bs "foo/bar") None None.
Proof. vm_compute. reflexivity. Qed.

(* src/image.rs lines 212-445 *)
Example t69 : image_parse (bs "clux/muslrust") = ImageRef None (bs "clux/muslrust") None None.
Proof. vm_compute. reflexivity. Qed.

(* src/image.rs lines 212-445 *)
Example t70 : image_parse (bs "clux/muslrust:1.41.0-stable") = ImageRef None (bs "clux/muslrust") (Some (bs "1.41.0-stable")) None.
Proof. vm_compute. reflexivity. Qed.

(* src/image.rs lines 212-445 *)
Example t71 : image_parse (bs "fake_project/fake_image@fake_hash") = ImageRef None (bs "fake_project/fake_image") None (Some (bs "fake_hash")).
Proof. vm_compute. reflexivity. Qed.

(* src/image.rs lines 212-445 *)
Example t72 : image_parse (bs "fake_project/fake_image@") = ImageRef None (bs "fake_project/fake_image") None (Some (bs "")).
Proof. vm_compute. reflexivity. Qed.

(* src/image.rs lines 212-445 *)
Example t73 : image_parse (bs "fake_project/fake_image@sha256:") = ImageRef None (bs "fake_project/fake_image") None (Some (bs "sha256:")).
Proof. vm_compute. reflexivity. Qed.

(* src/image.rs lines 212-445 *)
Example t74 : image_parse (bs "quay.io/prometheus/node-exporter:v0.18.1") = ImageRef (Some (bs "quay.io")) (bs "prometheus/node-exporter") (Some (bs "v0.18.1")) None.
Proof. vm_compute. reflexivity. Qed.

(* src/image.rs lines 212-445 *)
Example t75 : image_parse (bs "gcr.io/fake_project/fake_image:fake_tag") = ImageRef (Some (bs "gcr.io")) (bs "fake_project/fake_image") (Some (bs "fake_tag")) None.
Proof. vm_compute. reflexivity. Qed.

(* src/image.rs lines 212-445 *)
Example t76 : image_parse (bs "gcr.io/fake_image") = ImageRef (Some (bs "gcr.io")) (bs "fake_image") None None.
Proof. vm_compute. reflexivity. Qed.

(* src/image.rs lines 212-445 *)
Example t77 : image_parse (bs "quay.io/fake_project/fake_image@fake_hash") = ImageRef (Some (bs "quay.io")) (bs "fake_project/fake_image") None (Some (bs "fake_hash")).
Proof. vm_compute. reflexivity. Qed.

(* src/image.rs lines 212-445 *)
Example t78 : image_parse (bs "localhost/foo") = ImageRef (Some (bs "localhost")) (bs "foo") None None.
Proof. vm_compute. reflexivity. Qed.

(* src/image.rs lines 212-445 *)
Example t79 : image_parse (bs "localhost/foo/bar:baz") = ImageRef (Some (bs "localhost")) (bs "foo/bar") (Some (bs "baz")) None.
Proof. vm_compute. reflexivity. Qed.

(* src/image.rs lines 212-445 *)
Example t80 : image_parse (bs "example.com:1234/foo") = ImageRef (Some (bs "example.com:1234")) (bs "foo") None None.
Proof. vm_compute. reflexivity. Qed.

(* src/image.rs lines 212-445 *)
Example t81 : image_parse (bs "example.com:1234/foo/bar/baz:qux") = ImageRef (Some (bs "example.com:1234")) (bs "foo/bar/baz") (Some (bs "qux")) None.
Proof. vm_compute. reflexivity. Qed.

(* src/image.rs lines 447-549 *)
Example t82 : substitute (bs "hello world") test_vars [] 16 = Ok (Some (bs "hello world"), []).
Proof. vm_compute. reflexivity. Qed.

(* src/image.rs lines 447-549 *)
Example t83 : substitute (bs "hello $foo") test_vars [] 16 = Ok (Some (bs "hello bar"), [bs "foo"]).
Proof. vm_compute. reflexivity. Qed.

(* src/image.rs lines 447-549 *)
Example t84 : substitute (bs "hello $foo") test_vars [] 0 = Ok (None, []).
Proof. vm_compute. reflexivity. Qed.

(* src/image.rs lines 447-549 *)
Example t85 : substitute (bs "hello ${foo}") test_vars [] 16 = Ok (Some (bs "hello bar"), [bs "foo"]).
Proof. vm_compute. reflexivity. Qed.

(* src/image.rs lines 447-549 *)
Example t86 : substitute (bs "$baz $foo") test_vars [] 16 = Ok (Some (bs "qux bar"), [bs "baz"; bs "foo"]).
Proof. vm_compute. reflexivity. Qed.

(* src/image.rs lines 447-549 *)
Example t87 : substitute (bs "hello $lorem") test_vars [] 16 = Ok (Some (bs "hello bar"), [bs "foo"; bs "lorem"]).
Proof. vm_compute. reflexivity. Qed.

(* src/image.rs lines 447-549 *)
Example t88 : substitute (bs "hello $lorem") test_vars [] 1 = Ok (None, []).
Proof. vm_compute. reflexivity. Qed.

(* src/image.rs lines 447-549 *)
Example t89 : substitute (bs "hello $ipsum") test_vars [] 16 = Ok (Some (bs "hello bar"), [bs "foo"; bs "lorem"; bs "ipsum"]).
Proof. vm_compute. reflexivity. Qed.

(* src/image.rs lines 447-549 *)
Example t90 : substitute (bs "hello $ipsum") test_vars [] 2 = Ok (None, []).
Proof. vm_compute. reflexivity. Qed.

(* src/image.rs lines 447-549 *)
Example t91 : substitute (bs "hello $recursion1") test_vars [] 16 = Ok (None, []).
Proof. vm_compute. reflexivity. Qed.

(* src/image.rs lines 551-639 *)
Example t92 : resolved U (bs "ARG image=alpine:3.12
FROM $image
") 1 = Some (Some (image_parse (bs "alpine:3.12"))).
Proof. vm_compute. reflexivity. Qed.

(* src/image.rs lines 551-639 *)
Example t93 : resolved U (bs "ARG image=alpine
ARG unnecessarily_nested=${image}
ARG tag=3.12
FROM ${unnecessarily_nested}:${tag}
") 3 = Some (Some (image_parse (bs "alpine:3.12"))).
Proof. vm_compute. reflexivity. Qed.

(* src/image.rs lines 551-639 *)
Example t94 : resolved U (bs "ARG image
FROM $image
") 1 = Some None.
Proof. vm_compute. reflexivity. Qed.

(* src/image.rs lines 551-639 *)
Example t95 : resolved U (bs "ARG image=""alpine:3.12""
FROM $foo
") 1 = Some None.
Proof. vm_compute. reflexivity. Qed.

(* src/image.rs lines 551-639 *)
Example t96 : resolved U (bs "FROM $image
ARG image=""alpine:3.12""
") 0 = Some None.
Proof. vm_compute. reflexivity. Qed.

(* tests/parsing.rs *)
Example t97 : option_map (@length _) (instructions_of (parse U (bs "
    FROM alpine:3.10

    RUN apk add --no-cache curl
  "))) = Some 2.
Proof. vm_compute. reflexivity. Qed.

(* tests/parsing.rs *)
Example t98 : first_of (parse U (bs "
    FROM alpine:3.10

    RUN apk add --no-cache curl
  ")) = Some (IFrom (FromInstruction (Span 5 21) [] (SpannedString (Span 10 21) (bs "alpine:3.10")) (ImageRef None (bs "alpine") (Some (bs "3.10")) None) 0 None)).
Proof. vm_compute. reflexivity. Qed.

(* tests/parsing.rs *)
Example t99 : shell_texts (parse U (bs "
    FROM alpine:3.10

    RUN apk add --no-cache curl
  ")) = [bs "apk add --no-cache curl"].
Proof. vm_compute. reflexivity. Qed.

(* tests/parsing.rs *)
Example t100 : shell_texts (parse U (bs "RUN apk add --no-cache \
    curl

RUN foo
")) = [bs "apk add --no-cache     curl"; bs "foo"].
Proof. vm_compute. reflexivity. Qed.

(* tests/parsing.rs *)
Example t101 : exec_texts (parse U (bs "
    RUN [""apk"", \
         ""add"", \
         ""--no-cache"", \
         ""curl""]

    RUN foo
  ")) = [[bs "apk"; bs "add"; bs "--no-cache"; bs "curl"]].
Proof. vm_compute. reflexivity. Qed.

(* tests/parsing.rs *)
Example t102 : shell_texts (parse U (bs "
    RUN [""apk"", \
         ""add"", \
         ""--no-cache"", \
         ""curl""]

    RUN foo
  ")) = [bs "foo"].
Proof. vm_compute. reflexivity. Qed.

(* tests/parsing.rs *)
Example t103 : label_instructions (parse U (bs "
    LABEL foo=bar

    LABEL ""foo""=""bar""

    LABEL ""foo=bar""=bar

    LABEL foo=""bar\
          baz""

    RUN foo
  ")) = [LabelInstruction (Span 5 18) [Label (Span 11 18) (SpannedString (Span 11 14) (bs "foo")) (SpannedString (Span 15 18) (bs "bar"))]; LabelInstruction (Span 24 41) [Label (Span 30 41) (SpannedString (Span 30 35) (bs "foo")) (SpannedString (Span 36 41) (bs "bar"))]; LabelInstruction (Span 47 66) [Label (Span 53 66) (SpannedString (Span 53 62) (bs "foo=bar")) (SpannedString (Span 63 66) (bs "bar"))]; LabelInstruction (Span 72 102) [Label (Span 78 102) (SpannedString (Span 78 81) (bs "foo")) (SpannedString (Span 82 102) (bs "bar          baz"))]].
Proof. vm_compute. reflexivity. Qed.

(* tests/parsing.rs *)
Example t104 : is_err (parse U (bs "
    LABEL foo=""bar\
          baz""\

    RUN foo
  ")) = true.
Proof. vm_compute. reflexivity. Qed.

(* tests/parsing.rs *)
Example t105 : option_map (@length _) (instructions_of (parse U (bs "
    # lorem ipsum
    LABEL foo=bar
    #dolor sit amet
    # consectetur adipiscing elit

    # sed do eiusmod
    # Duis aute irure dolor
    # tempor incididunt ut labore
    LABEL ""foo""=""bar""
    # et dolore magna aliqua
    LABEL ""foo=bar""=bar
    #Ut enim ad minim veniam
    LABEL foo=""bar\
          baz""
    # quis nostrud exercitation

    # ullamco laboris nisi

    RUN foo

    ENV foo=a \
      # test comment


      bar=b

    run [ \
      ""echo"", \
      # hello world
      ""hello"", \
      ""world"" \
    ]

    run echo 'hello # world'
  "))) = Some 8.
Proof. vm_compute. reflexivity. Qed.

(* tests/parsing.rs *)
Example t106 : shell_texts (parse U (bs "
    # lorem ipsum
    LABEL foo=bar
    #dolor sit amet
    # consectetur adipiscing elit

    # sed do eiusmod
    # Duis aute irure dolor
    # tempor incididunt ut labore
    LABEL ""foo""=""bar""
    # et dolore magna aliqua
    LABEL ""foo=bar""=bar
    #Ut enim ad minim veniam
    LABEL foo=""bar\
          baz""
    # quis nostrud exercitation

    # ullamco laboris nisi

    RUN foo

    ENV foo=a \
      # test comment


      bar=b

    run [ \
      ""echo"", \
      # hello world
      ""hello"", \
      ""world"" \
    ]

    run echo 'hello # world'
  ")) = [bs "foo"; bs "echo 'hello # world'"].
Proof. vm_compute. reflexivity. Qed.

(* tests/parsing.rs *)
Example t107 : exec_texts (parse U (bs "
    # lorem ipsum
    LABEL foo=bar
    #dolor sit amet
    # consectetur adipiscing elit

    # sed do eiusmod
    # Duis aute irure dolor
    # tempor incididunt ut labore
    LABEL ""foo""=""bar""
    # et dolore magna aliqua
    LABEL ""foo=bar""=bar
    #Ut enim ad minim veniam
    LABEL foo=""bar\
          baz""
    # quis nostrud exercitation

    # ullamco laboris nisi

    RUN foo

    ENV foo=a \
      # test comment


      bar=b

    run [ \
      ""echo"", \
      # hello world
      ""hello"", \
      ""world"" \
    ]

    run echo 'hello # world'
  ")) = [[bs "echo"; bs "hello"; bs "world"]].
Proof. vm_compute. reflexivity. Qed.

(* tests/parsing.rs *)
Example t108 : env_vars_of_doc (parse U (bs "
    # lorem ipsum
    LABEL foo=bar
    #dolor sit amet
    # consectetur adipiscing elit

    # sed do eiusmod
    # Duis aute irure dolor
    # tempor incididunt ut labore
    LABEL ""foo""=""bar""
    # et dolore magna aliqua
    LABEL ""foo=bar""=bar
    #Ut enim ad minim veniam
    LABEL foo=""bar\
          baz""
    # quis nostrud exercitation

    # ullamco laboris nisi

    RUN foo

    ENV foo=a \
      # test comment


      bar=b

    run [ \
      ""echo"", \
      # hello world
      ""hello"", \
      ""world"" \
    ]

    run echo 'hello # world'
  ")) = [EnvVar (Span 396 401) (SpannedString (Span 396 399) (bs "foo")) (add_string (breakable_new (Span 400 401)) (Span 400 401) (bs "a")); EnvVar (Span 433 438) (SpannedString (Span 433 436) (bs "bar")) (add_string (breakable_new (Span 437 438)) (Span 437 438) (bs "b"))].
Proof. vm_compute. reflexivity. Qed.

(* tests/parsing.rs *)
Example t109 : first_of (parse U (bs "
    FROM alpine@sha256:074d3636ebda6dd446d0d00304c4454f468237fdacf08fb0eeac90bdbfa1bac7 as foo
  ")) = Some (IFrom (FromInstruction (Span 5 95) [] (SpannedString (Span 10 88) (bs "alpine@sha256:074d3636ebda6dd446d0d00304c4454f468237fdacf08fb0eeac90bdbfa1bac7")) (ImageRef None (bs "alpine") None (Some (bs "sha256:074d3636ebda6dd446d0d00304c4454f468237fdacf08fb0eeac90bdbfa1bac7"))) 0 (Some (SpannedString (Span 92 95) (bs "foo"))))).
Proof. vm_compute. reflexivity. Qed.

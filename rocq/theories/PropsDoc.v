(** The document level (C02, C08 - C10, C41).  [unq] stands for the unquoting function
    of the enquote crate: the theorems hold for every such function. *)

From Coq Require Import String.
From Verif Require Import Bytes BytesFacts Grammar Peg Result Ast Image Convert Dockerfile SpecDoc DocFacts.
Local Open Scope nat_scope.

(** ** C02 *)
Theorem C02_content unq input d : parse unq input = Ok d -> d_content d = input.
Proof. exact (parse_content unq input d). Qed.

Theorem C02_from_str unq input : from_str unq input = parse unq input.
Proof. reflexivity. Qed.

(** However the reader cuts the bytes into pieces. *)
Theorem C02_from_reader unq evs tail : steady evs -> (tail = [] \/ exists t, tail = Chunk [] :: t) ->
  from_reader unq (evs ++ tail) =
  if valid_utf8 (delivered evs) then parse unq (delivered evs) else Err ERead.
Proof. exact (from_reader_end unq evs tail). Qed.

Theorem C02_from_reader_fails unq evs tail : steady evs ->
  from_reader unq (evs ++ ReadFails :: tail) = Err ERead.
Proof. exact (from_reader_fails unq evs tail). Qed.

Example C02_case unq : steady [Chunk (bs "FRO"); Interrupted; Chunk (bs "M x")] /\
  from_reader unq [Chunk (bs "FRO"); Interrupted; Chunk (bs "M x")] = parse unq (bs "FROM x") /\
  exists d, parse unq (bs "FROM x") = Ok d.
Proof.
  split; [repeat constructor|]. split; [vm_compute; reflexivity|]. eexists. vm_compute. reflexivity.
Qed.

(** ** C08 *)
Theorem C08_from_index unq input d l1 f l2 : parse unq input = Ok d ->
  d_instructions d = l1 ++ IFrom f :: l2 -> from_index f = count_from l1.
Proof. exact (parse_from_index unq input d l1 f l2). Qed.

(** ** C09 *)
Theorem C09_global_args unq input d : parse unq input = Ok d ->
  exists pre, before_first_from (d_instructions d) pre /\ d_global_args d = args_among pre.
Proof. exact (parse_global_args unq input d). Qed.

Theorem C09_before_unique l p1 p2 : before_first_from l p1 -> before_first_from l p2 -> p1 = p2.
Proof. exact (before_first_from_fun l p1 p2). Qed.

Definition lines (l : list string) : bytes := List.concat (map (fun s => bs s ++ [LF]) l).
Example C09_case unq : exists d, parse unq (lines ["ARG a=1"; "RUN x"; "ARG b"; "FROM c"; "ARG d"; "FROM e"]%string) = Ok d /\
  map (fun a => ss_content (arg_name a)) (d_global_args d) = [bs "a"; bs "b"] /\
  count_from (d_instructions d) = 2.
Proof. eexists. split; [vm_compute; reflexivity|]. split; vm_compute; reflexivity. Qed.

(** ** C10 *)
(** If only ARGs come before the first FROM, the first global ARG of the name. *)
Theorem C10_get_global_arg_partial unq input d args name : parse unq input = Ok d ->
  before_first_from (d_instructions d) (map IArg args) ->
  get_global_arg d name = find (fun a => beqb (ss_content (arg_name a)) name) (d_global_args d).
Proof.
  intros H Hb. destruct (parse_global_args unq input d H) as (pre & Hp & ->).
  rewrite (before_first_from_fun _ _ _ Hp Hb), args_among_map. apply (get_global_arg_spec d args name Hb).
Qed.

(** In general it is false: the search stops at the first other instruction. *)
Theorem C10_refuted unq : exists input d name a,
  parse unq input = Ok d /\ In a (d_global_args d) /\ ss_content (arg_name a) = name /\
  get_global_arg d name = None.
Proof.
  exists (lines ["LABEL a=b"; "ARG foo"; "FROM x"]%string). eexists. exists (bs "foo"). eexists.
  split; [vm_compute; reflexivity|]. split; [left; reflexivity|]. split; vm_compute; reflexivity.
Qed.

(** What holds for every document: the first ARG of that name among the ARGs that
    the document begins with. *)
Theorem C10_get_global_arg_leading d args rest name :
  d_instructions d = map IArg args ++ rest -> (match rest with IArg _ :: _ => False | _ => True end) ->
  get_global_arg d name = find (fun a => beqb (ss_content (arg_name a)) name) args.
Proof. intros E Hr. exact (find_leading_arg_spec (d_instructions d) name args rest E Hr). Qed.

(** So the answer for a parse result is right exactly if the document begins with ARGs of
    which one has that name, or no global ARG has it. *)
Theorem C10_exact unq input d args rest name : parse unq input = Ok d ->
  d_instructions d = map IArg args ++ rest -> (match rest with IArg _ :: _ => False | _ => True end) ->
  (exists more, d_global_args d = args ++ more) /\
  (get_global_arg d name = find (fun a => beqb (ss_content (arg_name a)) name) (d_global_args d) <->
   In name (map (fun a => ss_content (arg_name a)) args) \/ ~ In name (map (fun a => ss_content (arg_name a)) (d_global_args d))).
Proof.
  intros H E Hr. rewrite (C10_get_global_arg_leading d args rest name E Hr).
  destruct (parse_global_args unq input d H) as (pre & (post & E2 & Hf & Hpost) & ->).
  assert (K : exists pre', pre = map IArg args ++ pre').
  { rewrite E in E2. clear E Hr H. revert pre E2 Hf. induction args as [|a args IH]; intros pre E2 Hf; [exists pre; reflexivity|].
    destruct pre as [|i pre]; cbn [map app] in E2.
    - subst post. discriminate Hpost.
    - injection E2 as <- E2. inversion Hf. subst. destruct (IH pre E2) as (pre' & ->); [assumption|]. exists pre'. reflexivity. }
  destruct K as (pre' & ->). unfold args_among. rewrite flat_map_app. fold (args_among (map IArg args)). fold (args_among pre'). rewrite args_among_map.
  split; [exists (args_among pre'); reflexivity|]. set (P := fun a => beqb (ss_content (arg_name a)) name).
  assert (Fa : forall l1 l2, find P (l1 ++ l2) = match find P l1 with Some a => Some a | None => find P l2 end).
  { induction l1 as [|x l1 IH]; intros l2; [reflexivity|]. cbn [app find]. destruct (P x); [reflexivity|apply IH]. }
  assert (Fn : forall l, find P l = None <-> ~ In name (map (fun a => ss_content (arg_name a)) l)).
  { induction l as [|x l IH]; [cbn; tauto|]. cbn [find map In]. unfold P at 1. destruct (beqb (ss_content (arg_name x)) name) eqn:B.
    - apply beqb_eq in B. split; [discriminate|]. intros K. exfalso. apply K. left. exact B.
    - rewrite IH. split; [|tauto]. intros K [K2|K2]; [|tauto]. rewrite K2 in B. rewrite (proj2 (beqb_eq name name) eq_refl) in B. discriminate. }
  rewrite Fa. rewrite map_app, in_app_iff. pose proof (Fn args) as F1. pose proof (Fn (args_among pre')) as F2.
  destruct (find P args) as [a|].
  - split; [intros _|reflexivity]. left. destruct (in_dec (list_eq_dec N.eq_dec) name (map (fun a0 => ss_content (arg_name a0)) args)) as [K|K]; [exact K|].
    apply F1 in K. discriminate.
  - assert (N1 : ~ In name (map (fun a => ss_content (arg_name a)) args)) by (apply F1; reflexivity). split.
    + intros K. symmetry in K. apply F2 in K. tauto.
    + intros [K|K]; [contradiction|]. symmetry. apply F2. tauto.
Qed.

Example C10_exact_case unq : exists d args rest, parse unq (lines ["ARG foo"; "LABEL a=b"; "ARG bar"; "FROM x"]%string) = Ok d /\
  d_instructions d = map IArg args ++ rest /\ (match rest with IArg _ :: _ => False | _ => True end) /\
  In (bs "foo") (map (fun a => ss_content (arg_name a)) args) /\
  In (bs "bar") (map (fun a => ss_content (arg_name a)) (d_global_args d)) /\ ~ In (bs "bar") (map (fun a => ss_content (arg_name a)) args).
Proof.
  eexists. exists [ArgInstruction (Span 0 7) (SpannedString (Span 4 7) (bs "foo")) None]. eexists. split; [vm_compute; reflexivity|].
  split; [reflexivity|]. split; [exact I|]. split; [left; reflexivity|]. split; [right; left; reflexivity|]. intros [K|[]]. discriminate.
Qed.

(** ** C41 *)
Definition accessors (i : instruction) : list (option instruction) :=
  [option_map IFrom (as_from i); option_map IArg (as_arg i); option_map ILabel (as_label i);
   option_map IRun (as_run i); option_map IEntrypoint (as_entrypoint i); option_map ICmd (as_cmd i);
   option_map ICopy (as_copy i); option_map IEnv (as_env i); option_map IMisc (as_misc i)].

(** Exactly one accessor succeeds, and wrapping what it returns gives the
    instruction back. *)
Theorem C41_one_accessor i : exists n, n < length (accessors i) /\
  forall k x, nth_error (accessors i) k = Some x -> x = if k =? n then Some i else None.
Proof.
  destruct i; [exists 0|exists 1|exists 2|exists 3|exists 4|exists 5|exists 6|exists 7|exists 8];
    (split; [cbn; lia|]; intros k x H; do 9 (destruct k as [|k]; [injection H as <-; reflexivity|]);
     destruct k; discriminate).
Qed.

Theorem C41_try_from i :
  (forall x, try_from_from i = Ok x <-> as_from i = Some x) /\
  (forall x, try_from_arg i = Ok x <-> as_arg i = Some x) /\
  (forall x, try_from_label i = Ok x <-> as_label i = Some x) /\
  (forall x, try_from_run i = Ok x <-> as_run i = Some x) /\
  (forall x, try_from_entrypoint i = Ok x <-> as_entrypoint i = Some x) /\
  (forall x, try_from_cmd i = Ok x <-> as_cmd i = Some x) /\
  (forall x, try_from_copy i = Ok x <-> as_copy i = Some x) /\
  (forall x, try_from_env i = Ok x <-> as_env i = Some x) /\
  (forall x, try_from_misc i = Ok x <-> as_misc i = Some x).
Proof.
  destruct i; repeat split; intros H; try discriminate; injection H as <-; reflexivity.
Qed.

(** A conversion to another type fails, and the error names the type asked for. *)
Theorem C41_try_from_error i :
  (as_from i = None -> try_from_from i = Err (EConversion "FromInstruction")) /\
  (as_arg i = None -> try_from_arg i = Err (EConversion "ArgInstruction")) /\
  (as_label i = None -> try_from_label i = Err (EConversion "LabelInstruction")) /\
  (as_run i = None -> try_from_run i = Err (EConversion "RunInstruction")) /\
  (as_entrypoint i = None -> try_from_entrypoint i = Err (EConversion "EntrypointInstruction")) /\
  (as_cmd i = None -> try_from_cmd i = Err (EConversion "CmdInstruction")) /\
  (as_copy i = None -> try_from_copy i = Err (EConversion "CopyInstruction")) /\
  (as_env i = None -> try_from_env i = Err (EConversion "EnvInstruction")) /\
  (as_misc i = None -> try_from_misc i = Err (EConversion "MiscInstruction")).
Proof.
  destruct i; repeat split; intros H; try discriminate; reflexivity.
Qed.

Theorem C41_span i :
  (forall x, as_from i = Some x -> instruction_span i = from_span x) /\
  (forall x, as_arg i = Some x -> instruction_span i = arg_span x) /\
  (forall x, as_label i = Some x -> instruction_span i = label_span x) /\
  (forall x, as_run i = Some x -> instruction_span i = run_span x) /\
  (forall x, as_entrypoint i = Some x -> instruction_span i = entrypoint_span x) /\
  (forall x, as_cmd i = Some x -> instruction_span i = cmd_span x) /\
  (forall x, as_copy i = Some x -> instruction_span i = copy_span x) /\
  (forall x, as_env i = Some x -> instruction_span i = env_span x) /\
  (forall x, as_misc i = Some x -> instruction_span i = misc_span x).
Proof.
  destruct i; repeat split; intros y H; try discriminate; injection H as <-; reflexivity.
Qed.

Theorem C41_shell_or_exec e :
  (exists s, e = Shell s /\ as_shell e = Some s /\ as_exec e = None) \/
  (exists a, e = Exec a /\ as_exec e = Some a /\ as_shell e = None).
Proof. destruct e as [s|a]; [left; exists s|right; exists a]; auto. Qed.

(** The same on RUN, CMD and ENTRYPOINT: one of the two forms, and the instruction is the one
    with that form. *)
Theorem C41_forms :
  (forall x, (exists s, run_as_shell x = Some s /\ run_as_exec x = None /\ x = RunInstruction (run_span x) (Shell s)) \/
             (exists a, run_as_exec x = Some a /\ run_as_shell x = None /\ x = RunInstruction (run_span x) (Exec a))) /\
  (forall x, (exists s, cmd_as_shell x = Some s /\ cmd_as_exec x = None /\ x = CmdInstruction (cmd_span x) (Shell s)) \/
             (exists a, cmd_as_exec x = Some a /\ cmd_as_shell x = None /\ x = CmdInstruction (cmd_span x) (Exec a))) /\
  (forall x, (exists s, entrypoint_as_shell x = Some s /\ entrypoint_as_exec x = None /\ x = EntrypointInstruction (entrypoint_span x) (Shell s)) \/
             (exists a, entrypoint_as_exec x = Some a /\ entrypoint_as_shell x = None /\ x = EntrypointInstruction (entrypoint_span x) (Exec a))).
Proof. split; [|split]; intros [sp [s|a]]; (left; exists s; repeat split; fail) || (right; exists a; repeat split). Qed.

(** Converting a value to an instruction and back *)
Theorem C41_conversions :
  (forall x, as_from (instruction_from_from x) = Some x /\ forall i, as_from i = Some x -> i = instruction_from_from x) /\
  (forall x, as_arg (instruction_from_arg x) = Some x /\ forall i, as_arg i = Some x -> i = instruction_from_arg x) /\
  (forall x, as_label (instruction_from_label x) = Some x /\ forall i, as_label i = Some x -> i = instruction_from_label x) /\
  (forall x, as_run (instruction_from_run x) = Some x /\ forall i, as_run i = Some x -> i = instruction_from_run x) /\
  (forall x, as_entrypoint (instruction_from_entrypoint x) = Some x /\ forall i, as_entrypoint i = Some x -> i = instruction_from_entrypoint x) /\
  (forall x, as_cmd (instruction_from_cmd x) = Some x /\ forall i, as_cmd i = Some x -> i = instruction_from_cmd x) /\
  (forall x, as_copy (instruction_from_copy x) = Some x /\ forall i, as_copy i = Some x -> i = instruction_from_copy x) /\
  (forall x, as_env (instruction_from_env x) = Some x /\ forall i, as_env i = Some x -> i = instruction_from_env x) /\
  (forall x, as_misc (instruction_from_misc x) = Some x /\ forall i, as_misc i = Some x -> i = instruction_from_misc x).
Proof. repeat split; intros [] H; try discriminate; injection H as <-; reflexivity. Qed.

Print Assumptions C41_forms.
Print Assumptions C41_conversions.
Print Assumptions C02_content.
Print Assumptions C02_from_reader.
Print Assumptions C02_from_reader_fails.
Print Assumptions C08_from_index.
Print Assumptions C09_global_args.
Print Assumptions C10_get_global_arg_partial.
Print Assumptions C10_refuted.
Print Assumptions C10_get_global_arg_leading.
Print Assumptions C10_exact.
Print Assumptions C41_one_accessor.
Print Assumptions C41_try_from.
Print Assumptions C41_try_from_error.
Print Assumptions C41_span.

(** What a parse result says about the text (C01, C03 - C07, C11, C12, C31 - C37,
    C40, C42).  [unq] stands for the unquoting function of the enquote crate: the
    theorems hold for every such function.  [valid_utf8 input] is what the type &str
    guarantees. *)

From Coq Require Import String.
From Verif Require Import Bytes BytesFacts Grammar Peg Result Ast Image Convert Dockerfile Enquote
  SpecImage SpecSplice SplicerFacts SpecDoc SpecSyntax Sound SoundDoc SpecParts PartsFacts SpecLayout LayoutFacts
  ParseFacts PropsDoc.
Local Open Scope nat_scope.

(** A document that uses most of the syntax, with multi-byte characters. *)
Definition sample : bytes := lines [
  "# syntax";
  "ARG v=1";
  "";
  "FROM --platform=$p r.io/a:${v} AS b";
  "  LABEL a=b 'c d'=""e\";
  "f"" x=y";
  "ENV k hello \";
  "# inside";
  "world";
  "ENV m=1 n='2 3'";
  "COPY --from=b x y z/";
  "	# about the command";
  "RUN echo é \";
  "  # note";
  "";
  "CMD [ ""sh"" , '-c' \";
  ", ""x\ty"" ]";
  "EXPOSE 80"]%string.

Definition reads (input : bytes) (f : dockerfile -> Prop) : Prop :=
  valid_utf8 input = true /\ exists d, parse enquote_unquote input = Ok d /\ f d.

(** ** C01 *)
Theorem C01_total unq input : valid_utf8 input = true ->
  (exists d, parse unq input = Ok d) \/ (exists e, parse unq input = Err e).
Proof.
  intros Hv. pose proof (parse_sound unq input Hv) as H.
  destruct (parse unq input) as [d|e| |]; [left; eauto|right; eauto|destruct H|destruct H].
Qed.

Example C01_case : valid_utf8 sample = true /\ exists d, parse enquote_unquote sample = Ok d.
Proof. split; [vm_compute; reflexivity|]. eexists. vm_compute. reflexivity. Qed.

(** ** C03 *)
Theorem C03_spans_sliceable unq input d i x : valid_utf8 input = true -> parse unq input = Ok d ->
  In i (d_instructions d) -> In x (within (instruction_part i)) -> sliceable (d_content d) (part_span x).
Proof.
  intros Hv H Hi Hx. rewrite (proj1 (parsed_document unq input d Hv H)).
  destruct (parsed_parts unq input d Hv H i x Hi Hx) as [p w c sub Hp Hw]. apply placed_sliceable; assumption.
Qed.

(** All parts of the document: 55 spans *)
Example C03_case : reads sample (fun d =>
  length (flat_map (fun i => within (instruction_part i)) (d_instructions d)) = 55 /\
  map (fun i => length (within (instruction_part i))) (d_instructions d) = [3; 6; 10; 7; 9; 7; 4; 5; 4]).
Proof. split; [vm_compute; reflexivity|]. eexists. split; [vm_compute; reflexivity|]. split; vm_compute; reflexivity. Qed.

(** ** C04 *)
Theorem C04_contents unq input d i x : valid_utf8 input = true -> parse unq input = Ok d ->
  In i (d_instructions d) -> In x (within (instruction_part i)) ->
  match part_carried x with
  | Nothing => True
  | AString c => read_as unq (text_at (d_content d) (part_span x)) c
  | AComment c => c = text_at (d_content d) (part_span x) /\ comment_text c
  end.
Proof.
  intros Hv H Hi Hx. rewrite (proj1 (parsed_document unq input d Hv H)).
  destruct (parsed_parts unq input d Hv H i x Hi Hx) as [p w c sub Hp Hw _ Hc].
  cbn [part_carried part_span]. rewrite (placed_text _ _ _ Hp). destruct c; [exact I|apply Hc|]. destruct Hc; subst; auto.
Qed.

(** Only quoted strings can extend over several lines. *)
Theorem C04_one_line unq input d i x : valid_utf8 input = true -> parse unq input = Ok d ->
  In i (d_instructions d) -> In x (within (instruction_part i)) -> part_carried x <> Nothing ->
  no_newline (text_at (d_content d) (part_span x)) \/ quoted_text (text_at (d_content d) (part_span x)).
Proof.
  intros Hv H Hi Hx. rewrite (proj1 (parsed_document unq input d Hv H)).
  destruct (parsed_parts unq input d Hv H i x Hi Hx) as [p w c sub Hp Hw _ Hc].
  cbn [part_carried part_span]. rewrite (placed_text _ _ _ Hp). intros Hn. destruct c; [congruence|apply Hc|].
  destruct Hc as [_ (t & -> & Ht & _)]. left. constructor; [reflexivity|exact Ht].
Qed.

(** Text that does not begin with a quote character is taken as it is. *)
Theorem C04_unquoted unq input d i x c : valid_utf8 input = true -> parse unq input = Ok d ->
  In i (d_instructions d) -> In x (within (instruction_part i)) -> part_carried x = AString c ->
  ~ begins_quoted (text_at (d_content d) (part_span x)) -> c = text_at (d_content d) (part_span x).
Proof.
  intros Hv H Hi Hx Ec Hq. pose proof (C04_contents unq input d i x Hv H Hi Hx) as K. rewrite Ec in K.
  destruct K as [K|[K _]]; [exact K|contradiction].
Qed.

Definition carries_text (x : part) (input text content : bytes) : Prop :=
  text_at input (part_span x) = text /\ part_carried x = AString content.
Example C04_case : reads sample (fun d => exists i1 x1 i2 x2, In i1 (d_instructions d) /\ In i2 (d_instructions d) /\
  In x1 (within (instruction_part i1)) /\ In x2 (within (instruction_part i2)) /\
  carries_text x1 sample (bs """x\ty""") [120; 9; 121]%N /\
  carries_text x2 sample (bs "echo é ") (bs "echo é ")).
Proof.
  split; [vm_compute; reflexivity|]. eexists. split; [vm_compute; reflexivity|].
  do 4 eexists. split; [cbn [d_instructions]; do 7 right; left; reflexivity|].
  split; [cbn [d_instructions]; do 6 right; left; reflexivity|].
  split; [vm_compute; do 4 right; left; reflexivity|]. split; [vm_compute; do 2 right; left; reflexivity|].
  repeat split; vm_compute; reflexivity.
Qed.

(** ** C05 *)
Theorem C05_parts_in_order unq input d i x : valid_utf8 input = true -> parse unq input = Ok d ->
  In i (d_instructions d) -> In x (within (instruction_part i)) ->
  in_order (s_start (part_span x)) (s_end (part_span x)) (map part_span (part_sub x)).
Proof.
  intros Hv H Hi Hx. destruct (parsed_parts unq input d Hv H i x Hi Hx) as [p w c sub _ _ _ _ Ho _]. exact Ho.
Qed.

Example C05_case : reads sample (fun d => exists i, In i (d_instructions d) /\
  map part_span (part_sub (instruction_part i)) = [Span 23 36; Span 37 48; Span 52 53] /\
  map (fun x => map part_span (part_sub x)) (part_sub (instruction_part i)) = [[Span 25 33; Span 34 36]; []; []]).
Proof.
  split; [vm_compute; reflexivity|]. eexists. split; [vm_compute; reflexivity|].
  eexists. split; [right; left; reflexivity|]. split; vm_compute; reflexivity.
Qed.

(** ** C06 *)
Theorem C06_instructions_in_order unq input d : valid_utf8 input = true -> parse unq input = Ok d ->
  in_order 0 (length (d_content d)) (map instruction_span (d_instructions d)).
Proof.
  intros Hv H. destruct (parsed_document unq input d Hv H) as [-> Hd]. apply tiled_in_order, (document_tiled unq), Hd.
Qed.

(** Between neighbours: blanks, the end of the line, blank and comment lines, blanks. *)
Theorem C06_separated unq input d l1 i j l2 : valid_utf8 input = true -> parse unq input = Ok d ->
  d_instructions d = l1 ++ i :: j :: l2 ->
  filler_between (text_at (d_content d) (Span (s_end (instruction_span i)) (s_start (instruction_span j)))).
Proof.
  intros Hv H E. destruct (parsed_document unq input d Hv H) as [-> Hd]. apply document_tiled in Hd.
  rewrite E, map_app in Hd. apply tiled_between in Hd. exact Hd.
Qed.

(** ** C07 *)
Theorem C07_nothing_dropped unq input d : valid_utf8 input = true -> parse unq input = Ok d ->
  tiled (d_content d) (map instruction_span (d_instructions d)).
Proof. intros Hv H. destruct (parsed_document unq input d Hv H) as [-> Hd]. apply (document_tiled unq), Hd. Qed.

Example C06_case : reads sample (fun d => map instruction_span (d_instructions d) =
  [Span 9 16; Span 18 53; Span 56 82; Span 83 111; Span 112 127; Span 128 148; Span 170 193; Span 194 224; Span 225 234] /\
  text_at sample (Span 148 170) = [LF; TAB] ++ bs "# about the command" ++ [LF]).
Proof. split; [vm_compute; reflexivity|]. eexists. split; [vm_compute; reflexivity|]. split; vm_compute; reflexivity. Qed.


(** ** C11 *)
Definition keyword_of (i : instruction) : option string :=
  match i with
  | IFrom _ => Some "from" | IArg _ => Some "arg" | ILabel _ => Some "label" | IRun _ => Some "run"
  | IEntrypoint _ => Some "entrypoint" | ICmd _ => Some "cmd" | ICopy _ => Some "copy" | IEnv _ => Some "env"
  | IMisc _ => None
  end%string.

(** The text of an instruction begins with its keyword, in any letter case; that of an
    unknown instruction with its name, which consists of all the letters there. *)
Theorem C11_keyword unq input d i : valid_utf8 input = true -> parse unq input = Ok d -> In i (d_instructions d) ->
  exists kw rest, text_at (d_content d) (instruction_span i) = kw ++ rest /\
    match i with
    | IMisc x => ss_content (misc_name x) = kw /\ letters kw /\
        match rest with c :: _ => is_alpha c = false | [] => True end
    | _ => exists k, keyword_of i = Some k /\ to_lower kw = bs k
    end.
Proof.
  intros Hv H Hi. rewrite (proj1 (parsed_document unq input d Hv H)).
  pose proof (parsed_text unq input d Hv H i Hi) as K. revert K.
  generalize (text_at input (instruction_span i)) (s_start (instruction_span i)). intros w p.
  destruct i as [x|x|x|x|x|x|x|x|x]; cbn [instruction_at keyword_of]; unfold command_at, keyword.
  - intros (kw & fl & k & g & img & al & -> & Hk & _). do 2 eexists; split; [reflexivity|]. eexists; split; [reflexivity|exact Hk].
  - intros (kw & k & g & n & r & -> & Hk & _). do 2 eexists; split; [reflexivity|]. eexists; split; [reflexivity|exact Hk].
  - intros (kw & r & -> & Hk & _). do 2 eexists; split; [reflexivity|]. eexists; split; [reflexivity|exact Hk].
  - intros (kw & g & c & -> & Hk & _). do 2 eexists; split; [reflexivity|]. eexists; split; [reflexivity|exact Hk].
  - intros (kw & g & c & -> & Hk & _). do 2 eexists; split; [reflexivity|]. eexists; split; [reflexivity|exact Hk].
  - intros (kw & g & c & -> & Hk & _). do 2 eexists; split; [reflexivity|]. eexists; split; [reflexivity|exact Hk].
  - intros (kw & fl & ps & -> & Hk & _). do 2 eexists; split; [reflexivity|]. eexists; split; [reflexivity|exact Hk].
  - intros (kw & r & -> & Hk & _). do 2 eexists; split; [reflexivity|]. eexists; split; [reflexivity|exact Hk].
  - intros (n & a & -> & Hn & Ha & -> & _). exists n, a. auto.
Qed.

Example C11_case : reads (lines ["fRoM x"; "WORKDIR /a"]%string) (fun d => exists f m, d_instructions d = [IFrom f; IMisc m]).
Proof. split; [vm_compute; reflexivity|]. eexists. split; [vm_compute; reflexivity|]. do 2 eexists. vm_compute. reflexivity. Qed.

(** A known keyword with arguments that do not fit it gives an unknown instruction. *)
Theorem C11_refuted : exists input, valid_utf8 input = true /\ forall unq, exists d m,
  parse unq input = Ok d /\ In (IMisc m) (d_instructions d) /\ to_lower (ss_content (misc_name m)) = bs "copy".
Proof.
  exists (bs "COPY foo"). split; [vm_compute; reflexivity|]. intros unq. do 2 eexists.
  split; [vm_compute; reflexivity|]. split; [left; reflexivity|]. vm_compute. reflexivity.
Qed.

(** ** C12 *)
Theorem C12_digest_partial unq input d f h : valid_utf8 input = true -> parse unq input = Ok d ->
  In (IFrom f) (d_instructions d) -> i_hash (from_image_parsed f) = Some h ->
  exists x, h = bs "sha256:" ++ x /\ length x = 64 /\ ~ In COLON x /\ exists c, In c x /\ is_hex c = true.
Proof.
  intros Hv H Hi Hh. destruct (parsed_instruction unq input d Hv H _ Hi) as (p & w & _ & K).
  destruct K as (kw & fl & k & g & img & al & _ & _ & _ & _ & _ & _ & _ & _ & Hd & _). apply Hd. exact Hh.
Qed.

(** Without a digest of that form the document is rejected. *)
Example C12_case : parse enquote_unquote (bs "FROM alpine@sha256:0123") = Err (EGeneric (MText digest_message)) /\
  parse enquote_unquote (bs "FROM alpine@md5:" ++ repeat 97%N 64) = Err (EGeneric (MText digest_message)) /\
  reads (bs "FROM alpine@sha256:" ++ repeat 97%N 64) (fun d => exists f h, d_instructions d = [IFrom f] /\
    i_hash (from_image_parsed f) = Some h).
Proof.
  split; [vm_compute; reflexivity|]. split; [vm_compute; reflexivity|]. split; [vm_compute; reflexivity|].
  eexists. split; [vm_compute; reflexivity|]. do 2 eexists. split; vm_compute; reflexivity.
Qed.

(** The 64 characters need not all be hexadecimal digits. *)
Theorem C12_refuted : exists input, valid_utf8 input = true /\ forall unq, exists d f h,
  parse unq input = Ok d /\ In (IFrom f) (d_instructions d) /\ i_hash (from_image_parsed f) = Some h /\
  ~ exists x, h = bs "sha256:" ++ x /\ length x = 64 /\ Forall (fun c => is_hex c = true) x.
Proof.
  exists (bs "FROM alpine@sha256:a" ++ repeat 122%N 63). split; [vm_compute; reflexivity|]. intros unq.
  do 3 eexists. split; [vm_compute; reflexivity|]. split; [left; reflexivity|]. split; [vm_compute; reflexivity|].
  intros (x & E & _ & Hx). vm_compute in E. repeat (injection E as E; try discriminate E). subst x.
  rewrite Forall_forall in Hx. assert (K : is_hex 122%N = true) by (apply Hx; right; left; reflexivity). discriminate.
Qed.

(** ** C31 *)
(** The logical line of a text is unique, so this determines the Display. *)
Theorem C31_logical_line unq input d i s : valid_utf8 input = true -> parse unq input = Ok d ->
  In i (d_instructions d) -> In s (shell_texts_of i) ->
  (logical_line (text_at (d_content d) (br_span s)) (display_breakable s) /\ no_newline (display_breakable s)) \/
  ((exists x, i = IEnv x) /\ one_string s).
Proof.
  intros Hv H Hi Hs. rewrite (proj1 (parsed_document unq input d Hv H)).
  destruct (parsed_shell unq input d Hv H i s Hi Hs) as [K|K]; [left|right; exact K].
  apply shell_logical in K. split; [exact K|]. eapply logical_no_newline. exact K.
Qed.

Theorem C31_logical_line_unique w v v' : logical_line w v -> logical_line w v' -> v = v'.
Proof. exact (logical_line_fun w v v'). Qed.

Example C31_case : reads (lines ["RUN a \"; "# x"; "b #y \ "; "  c"]%string) (fun d => exists i s,
  In i (d_instructions d) /\ In s (shell_texts_of i) /\ display_breakable s = bs "a b #y   c" /\
  text_at (d_content d) (br_span s) = bs "a \" ++ [LF] ++ bs "# x" ++ [LF] ++ bs "b #y \ " ++ [LF] ++ bs "  c").
Proof.
  split; [vm_compute; reflexivity|]. eexists. split; [vm_compute; reflexivity|]. do 2 eexists.
  split; [left; reflexivity|]. split; [left; reflexivity|]. split; vm_compute; reflexivity.
Qed.

(** ** C32 *)
Theorem C32_components_tile unq input d i s : valid_utf8 input = true -> parse unq input = Ok d ->
  In i (d_instructions d) -> In s (shell_texts_of i) ->
  laid_out (s_start (br_span s)) (text_at (d_content d) (br_span s)) (map component_span (br_components s)) \/
  ((exists x, i = IEnv x) /\ one_string s).
Proof.
  intros Hv H Hi Hs. rewrite (proj1 (parsed_document unq input d Hv H)).
  destruct (parsed_shell unq input d Hv H i s Hi Hs) as [K|K]; [left; apply shell_laid_out; exact K|right; exact K].
Qed.

Example C32_case : reads sample (fun d => exists i s, In i (d_instructions d) /\ In s (shell_texts_of i) /\
  map component_span (br_components s) = [Span 174 182; Span 186 192] /\ br_span s = Span 174 193).
Proof.
  split; [vm_compute; reflexivity|]. eexists. split; [vm_compute; reflexivity|]. do 2 eexists.
  split; [do 6 right; left; reflexivity|]. split; [left; reflexivity|]. split; reflexivity.
Qed.

(** ** C33 *)
Theorem C33_exec unq input d i a : valid_utf8 input = true -> parse unq input = Ok d ->
  In i (d_instructions d) -> exec_of i = Some a ->
  array_at unq (s_start (sa_span a)) (text_at (d_content d) (sa_span a)) a.
Proof.
  intros Hv H Hi Ha. rewrite (proj1 (parsed_document unq input d Hv H)). eapply parsed_exec; eassumption.
Qed.

(** [as_str_vec] lists the contents of the elements, each at its place. *)
Theorem C33_as_str_vec a k : nth_error (as_str_vec a) k =
  match nth_error (sa_elements a) k with Some x => Some (ss_content x) | None => None end.
Proof.
  unfold as_str_vec. revert k. induction (sa_elements a) as [|x l IH]; intros [|k]; try reflexivity. apply IH.
Qed.

Example C33_case : reads sample (fun d => exists i a, In i (d_instructions d) /\ exec_of i = Some a /\
  as_str_vec a = [bs "sh"; bs "-c"; [120; 9; 121]%N]).
Proof.
  split; [vm_compute; reflexivity|]. eexists. split; [vm_compute; reflexivity|]. do 2 eexists.
  split; [do 7 right; left; reflexivity|]. split; [reflexivity|]. vm_compute. reflexivity.
Qed.

(** ** C34 *)
Theorem C34_copy unq input d x : valid_utf8 input = true -> parse unq input = Ok d ->
  In (ICopy x) (d_instructions d) ->
  copy_sources x <> [] /\ copy_at unq (s_start (copy_span x)) (text_at (d_content d) (copy_span x)) x.
Proof.
  intros Hv H Hi. rewrite (proj1 (parsed_document unq input d Hv H)).
  pose proof (parsed_text unq input d Hv H _ Hi) as K. split; [|exact K].
  destruct K as (kw & fl & ps & _ & _ & _ & _ & Hs & _). exact Hs.
Qed.

(** Paths have no blank and no newline in the source. *)
Theorem C34_paths unq input d x s : valid_utf8 input = true -> parse unq input = Ok d ->
  In (ICopy x) (d_instructions d) -> In s (copy_sources x ++ [copy_destination x]) ->
  word (text_at (d_content d) (ss_span s)).
Proof.
  intros Hv H Hi Hs. rewrite (proj1 (parsed_document unq input d Hv H)).
  eapply copy_paths; [exact Hv|exact H|exact Hi|reflexivity|exact Hs].
Qed.

(** --name=value, with a name of letters and a value without blanks and newlines *)
Theorem C34_flags unq input d i f : valid_utf8 input = true -> parse unq input = Ok d ->
  In i (d_instructions d) -> In f (flags_of i) ->
  letters (ss_content (fl_name f)) /\ word (text_at (d_content d) (ss_span (fl_value f))) /\
  text_at (d_content d) (fl_span f) =
    bs "--" ++ ss_content (fl_name f) ++ bs "=" ++ text_at (d_content d) (ss_span (fl_value f)).
Proof.
  intros Hv H Hi Hf. rewrite (proj1 (parsed_document unq input d Hv H)).
  exact (parsed_flags unq input d Hv H i f Hi Hf).
Qed.

Example C34_case : reads sample (fun d => exists x, In (ICopy x) (d_instructions d) /\
  map ss_content (copy_sources x) = [bs "x"; bs "y"] /\ ss_content (copy_destination x) = bs "z/" /\
  map (fun f => ss_content (fl_name f)) (copy_flags x) = [bs "from"]).
Proof.
  split; [vm_compute; reflexivity|]. eexists. split; [vm_compute; reflexivity|]. eexists.
  split; [do 5 right; left; reflexivity|]. repeat split; reflexivity.
Qed.

(** ** C35 *)
Theorem C35_env unq input d x : valid_utf8 input = true -> parse unq input = Ok d ->
  In (IEnv x) (d_instructions d) -> env_at unq (s_start (env_span x)) (text_at (d_content d) (env_span x)) x.
Proof.
  intros Hv H Hi. rewrite (proj1 (parsed_document unq input d Hv H)). exact (parsed_text unq input d Hv H _ Hi).
Qed.

Theorem C35_variables unq input d x v : valid_utf8 input = true -> parse unq input = Ok d ->
  In (IEnv x) (d_instructions d) -> In v (env_vars x) ->
  env_name_text (ss_content (ev_key v)) /\
  ev_span v = Span (s_start (ss_span (ev_key v))) (s_end (br_span (ev_value v))).
Proof.
  intros Hv H Hi Hx. destruct (parsed_instruction unq input d Hv H _ Hi) as (p & w & Hp & K).
  destruct K as (kw & r & -> & Hk & _ & Hr).
  destruct Hr as [(e & (j & g1 & n & k & g2 & u & -> & H1 & _ & H2 & _ & Hn & Ek & Hu & Es) & E)|(ps & g & -> & _ & Hps & _)].
  - rewrite E in Hx. destruct Hx as [<-|[]]. rewrite Ek, Es. split; [exact Hn|].
    assert (Eb : br_span (ev_value e) = at_ (p + length kw + length g1 + length n + length g2) u)
      by (destruct Hu as [(y & _ & _ & ->)|(_ & l & _ & ->)]; reflexivity).
    rewrite Eb. unfold at_; cbn [s_start s_end ss_span]. rewrite !app_length. f_equal. lia.
  - apply placed_app in Hp; [|apply (keyword_valid "env"); [reflexivity|exact Hk]]. destruct Hp as [_ Hp].
    apply placed_left in Hp.
    destruct (spaced_in _ _ (env_pair_valid unq) _ _ _ Hps Hp v Hx) as (q & t & _ & (n & u & -> & Hn & Ek & Hu & Es)).
    rewrite Ek, Es. split; [exact Hn|].
    assert (Eb : br_span (ev_value v) = at_ (q + length n + 1) u)
      by (destruct Hu as [(y & _ & _ & ->)|(_ & _ & ->)]; reflexivity).
    rewrite Eb. unfold at_; cbn [s_start s_end ss_span]. rewrite !app_length. cbn [length]. f_equal. lia.
Qed.

Example C35_case : reads sample (fun d => exists x y, In (IEnv x) (d_instructions d) /\ In (IEnv y) (d_instructions d) /\
  map (fun v => (ss_content (ev_key v), display_breakable (ev_value v))) (env_vars x) = [(bs "k", bs "hello world")] /\
  map (fun v => (ss_content (ev_key v), display_breakable (ev_value v))) (env_vars y) = [(bs "m", bs "1"); (bs "n", bs "2 3")]).
Proof.
  split; [vm_compute; reflexivity|]. eexists. split; [vm_compute; reflexivity|]. do 2 eexists.
  split; [do 3 right; left; reflexivity|]. split; [do 4 right; left; reflexivity|]. split; vm_compute; reflexivity.
Qed.

(** ** C36 *)
Theorem C36_label unq input d x : valid_utf8 input = true -> parse unq input = Ok d ->
  In (ILabel x) (d_instructions d) -> label_at unq (s_start (label_span x)) (text_at (d_content d) (label_span x)) x.
Proof.
  intros Hv H Hi. rewrite (proj1 (parsed_document unq input d Hv H)). exact (parsed_text unq input d Hv H _ Hi).
Qed.

Example C36_case : reads sample (fun d => exists x, In (ILabel x) (d_instructions d) /\
  map (fun l => (ss_content (lb_name l), ss_content (lb_value l))) (label_labels x) =
    [(bs "a", bs "b"); (bs "c d", bs "ef"); (bs "x", bs "y")]).
Proof.
  split; [vm_compute; reflexivity|]. eexists. split; [vm_compute; reflexivity|]. eexists.
  split; [do 2 right; left; reflexivity|]. vm_compute; reflexivity.
Qed.

(** ** C37 *)
Theorem C37_arg unq input d x : valid_utf8 input = true -> parse unq input = Ok d ->
  In (IArg x) (d_instructions d) ->
  arg_at unq (s_start (arg_span x)) (text_at (d_content d) (arg_span x)) x.
Proof.
  intros Hv H Hi. rewrite (proj1 (parsed_document unq input d Hv H)). exact (parsed_text unq input d Hv H _ Hi).
Qed.

(** The value is what follows the equals sign; without one there is no value. *)
Theorem C37_value unq input d x : valid_utf8 input = true -> parse unq input = Ok d ->
  In (IArg x) (d_instructions d) ->
  arg_name_text (ss_content (arg_name x)) /\
  match arg_value x with
  | None => s_end (arg_span x) = s_end (ss_span (arg_name x))
  | Some v => text_at (d_content d) (Span (s_end (ss_span (arg_name x))) (s_end (arg_span x))) =
      bs "=" ++ text_at (d_content d) (ss_span v)
  end.
Proof.
  intros Hv H Hi. rewrite (proj1 (parsed_document unq input d Hv H)).
  destruct (parsed_instruction unq input d Hv H _ Hi) as (p & w & Hp & K).
  destruct K as (kw & k & g & n & r & -> & Hk & Hg & _ & Hn & En & Es & Hr). rewrite En. split; [exact Hn|].
  apply placed_app in Hp; [|apply (keyword_valid "arg"); [reflexivity|exact Hk]]. destruct Hp as [_ Hp].
  apply placed_app in Hp; [|eauto with vu]. destruct Hp as [_ Hp].
  apply placed_app in Hp; [|auto with vu]. destruct Hp as [_ Hp].
  cbn [ss_span at_ s_end]. rewrite Es. cbn [at_ s_end]. rewrite !app_length.
  destruct Hr as [[-> ->]|(v & y & -> & _ & (z & _ & ->) & ->)]; [cbn; lia|]. cbn [ss_span].
  pose proof (placed_text _ _ _ Hp) as T. unfold at_ in T.
  match goal with |- text_at _ (Span ?a ?b) = _ =>
    replace b with (p + length kw + length g + length n + length (EQUALS :: v)) by lia end.
  rewrite T. apply placed_cons in Hp; [|reflexivity]. rewrite (placed_text _ _ _ Hp). reflexivity.
Qed.

Example C37_case : reads (lines ["ARG v=1"; "ARG w"]%string) (fun d => exists x y, d_instructions d = [IArg x; IArg y] /\
  option_map ss_content (arg_value x) = Some (bs "1") /\ arg_value y = None).
Proof. split; [vm_compute; reflexivity|]. eexists. split; [vm_compute; reflexivity|]. do 2 eexists. repeat split; reflexivity. Qed.

(** ** C40 *)
(** Every newline in the text of an instruction belongs to a continuation, to blank and
    comment lines after one, or to a quoted string - unless a command begins with a
    comment. *)
Theorem C40_ends_at_line_partial unq input d i : valid_utf8 input = true -> parse unq input = Ok d ->
  In i (d_instructions d) -> Forall (fun s => ~ comment_first s) (shell_texts_of i) ->
  joined (has_quotes i) (text_at (d_content d) (instruction_span i)).
Proof.
  intros Hv H Hi Hs. rewrite (proj1 (parsed_document unq input d Hv H)).
  eapply instruction_joined; [exact (parsed_text unq input d Hv H i Hi)|exact Hs].
Qed.

Example C40_case : reads sample (fun d => Forall (fun i => Forall (fun s => ~ comment_first s) (shell_texts_of i)) (d_instructions d) /\
  length (filter (fun i => existsb is_newline_byte (text_at sample (instruction_span i))) (d_instructions d)) = 4).
Proof.
  split; [vm_compute; reflexivity|]. eexists. split; [vm_compute; reflexivity|]. split; [|vm_compute; reflexivity].
  cbn [d_instructions]. repeat (constructor; [cbn [shell_texts_of run_expr cmd_expr env_vars map]; repeat constructor; intros []|]). constructor.
Qed.

(** Without a condition: every newline in the text of an instruction is one of those, or
    it ends one of the comment lines with which a shell text of the instruction begins.
    What is after these comment lines is then part of the shell text, and its newlines
    are again of the first kinds. *)
Theorem C40_exact unq input d i : valid_utf8 input = true -> parse unq input = Ok d -> In i (d_instructions d) ->
  joined (has_quotes i) (text_at (d_content d) (instruction_span i)) \/
  exists s, In s (shell_texts_of i) /\
    goes_on_after_comments (has_quotes i) (s_start (instruction_span i)) (text_at (d_content d) (instruction_span i)) s.
Proof.
  intros Hv H Hi. rewrite (proj1 (parsed_document unq input d Hv H)).
  eapply instruction_or_on. exact (parsed_text unq input d Hv H i Hi).
Qed.

(** A joined text without backslashes and quotes is on one line. *)
Lemma joined_one_line q w : joined q w -> ~ In BSLASH w -> ~ In DQUOTE w -> ~ In SQUOTE w -> no_newline w.
Proof.
  induction 1 as [|c w Hc Hw IH|c k l w (b & n & -> & _) Hl Hw IH|c k l b t (b0 & n & -> & _)|v w _ (q0 & body & Hq & -> & _)]; intros N1 N2 N3.
  - constructor.
  - constructor; [exact Hc|]. apply IH; intros K; [apply N1|apply N2|apply N3]; right; exact K.
  - exfalso. apply N1. left. reflexivity.
  - exfalso. apply N1. left. reflexivity.
  - exfalso. destruct Hq; subst; [apply N2|apply N3]; left; reflexivity.
Qed.

(** The line after a comment is absorbed. *)
Theorem C40_refuted : exists input, valid_utf8 input = true /\ forall unq, exists d i,
  parse unq input = Ok d /\ d_instructions d = [i] /\ ~ joined true (text_at (d_content d) (instruction_span i)).
Proof.
  exists (bs "RUN # x" ++ [LF] ++ bs "FROM alpine"). split; [vm_compute; reflexivity|]. intros unq. do 2 eexists.
  split; [vm_compute; reflexivity|]. split; [reflexivity|]. intros H. apply joined_one_line in H.
  - unfold no_newline in H. rewrite Forall_forall in H. assert (K : is_newline_byte LF = false); [|discriminate].
    apply H. vm_compute. do 7 right. left. reflexivity.
  - vm_compute. intros K. repeat (destruct K as [K|K]; [discriminate K|]). exact K.
  - vm_compute. intros K. repeat (destruct K as [K|K]; [discriminate K|]). exact K.
  - vm_compute. intros K. repeat (destruct K as [K|K]; [discriminate K|]). exact K.
Qed.

(** One instruction of the second kind and one of the first *)
Example C40_exact_case : reads (lines ["RUN # x"; "  # y"; "FROM alpine \"; "  # z"; "  as b"; "CMD a \"; " b"]%string) (fun d =>
  exists i j s, d_instructions d = [i; j] /\ shell_texts_of i = [s] /\ comment_first s /\ length (br_components s) = 5 /\
    shell_texts_of j <> []).
Proof. split; [vm_compute; reflexivity|]. eexists. split; [vm_compute; reflexivity|]. do 3 eexists. repeat split; discriminate. Qed.

(** ** C42 *)
Definition occurs (w input : bytes) : Prop := exists a b, input = a ++ w ++ b.

Theorem C42_errors_partial unq input e : valid_utf8 input = true -> parse unq input = Err e ->
  e = EParse \/
  (e = EUnescape /\ exists w, occurs w input /\ bad_escape unq w) \/
  (e = EGeneric (MText "image reference digest is invalid") /\ exists w, occurs w input /\ bad_digest w) \/
  (e = EGeneric (MUnexpected R_comment) /\ exists w, occurs w input /\ comment_in_command w).
Proof.
  intros Hv H. pose proof (parse_sound unq input Hv) as K. rewrite H in K. destruct K as [K|K]; [left; exact K|].
  right. destruct K as [w Hw He|w Hw He|w Hw He].
  - left. split; [reflexivity|]. exists w. auto.
  - right. left. split; [reflexivity|]. exists w. auto.
  - right. right. split; [reflexivity|]. exists w. auto.
Qed.

Example C42_case :
  parse enquote_unquote (bs "FROM") = Err EParse /\
  parse enquote_unquote (bs "ARG a=""\u00ff""") <> Err EUnescape /\
  parse enquote_unquote (bs "COPY ""a b""") = Err EUnescape /\
  parse enquote_unquote (bs "FROM a@b") = Err (EGeneric (MText digest_message)).
Proof. repeat split; vm_compute; congruence. Qed.

(** A generic error without any digest: a comment between RUN and its command. *)
Theorem C42_refuted : exists input m, valid_utf8 input = true /\ ~ In AT input /\ forall unq, parse unq input = Err (EGeneric m).
Proof.
  exists (bs "RUN \" ++ [LF] ++ bs "# x" ++ [LF] ++ bs "echo"), (MUnexpected R_comment).
  split; [vm_compute; reflexivity|]. split; [|intros unq; vm_compute; reflexivity].
  vm_compute. intros K. repeat (destruct K as [K|K]; [discriminate K|]). exact K.
Qed.
Print Assumptions C01_total.
Print Assumptions C03_spans_sliceable.
Print Assumptions C04_contents.
Print Assumptions C04_unquoted.
Print Assumptions C05_parts_in_order.
Print Assumptions C06_instructions_in_order.
Print Assumptions C06_separated.
Print Assumptions C07_nothing_dropped.
Print Assumptions C11_keyword.
Print Assumptions C11_refuted.
Print Assumptions C12_digest_partial.
Print Assumptions C12_refuted.
Print Assumptions C31_logical_line.
Print Assumptions C31_logical_line_unique.
Print Assumptions C32_components_tile.
Print Assumptions C33_exec.
Print Assumptions C33_as_str_vec.
Print Assumptions C34_copy.
Print Assumptions C34_paths.
Print Assumptions C34_flags.
Print Assumptions C35_env.
Print Assumptions C35_variables.
Print Assumptions C36_label.
Print Assumptions C37_arg.
Print Assumptions C37_value.
Print Assumptions C40_ends_at_line_partial.
Print Assumptions C40_exact.
Print Assumptions C40_refuted.
Print Assumptions C42_errors_partial.
Print Assumptions C42_refuted.

(** src/splicer.rs *)

From Verif Require Import Bytes Grammar Result Ast Peg.
Local Open Scope Z_scope.

(** ** Machine integers (64-bit target) *)
Definition two64 : Z := 18446744073709551616.
Definition two63 : Z := 9223372036854775808.
(** [x as usize] for an isize *)
Definition as_usize (z : Z) : Z := z mod two64.
(** [x as isize] for a usize, and isize addition without overflow checks *)
Definition as_isize (z : Z) : Z := (z + two63) mod two64 - two63.
(** [isize::try_into::<usize>().ok().unwrap_or(0)] *)
Definition try_usize (z : Z) : nat := if z <? 0 then O else Z.to_nat z.

(** src/splicer.rs lines 9-14 *)
Record splice_offset : Type := SpliceOffset { so_position : nat; so_offset : Z }.

(** src/splicer.rs lines 28-35: [Span::from_pair] *)
Definition span_of (t : tree) : span := Span (t_start t) (t_stop t).

(** src/splicer.rs lines 41-48: one round of the loop of [adjust_offsets].
    [+=] on isize wraps here (a release build); in a debug build an overflow
    panics, which needs offsets of 2^63 bytes. *)
Definition adjust_step (st : Z * Z) (o : splice_offset) : Z * Z :=
  let '(start, stop) := st in
  if Z.of_nat (so_position o) <? as_usize start then
    (as_isize (start + so_offset o), as_isize (stop + so_offset o))
  else if Z.of_nat (so_position o) <? as_usize stop then
    (start, as_isize (stop + so_offset o))
  else (start, stop).

(** src/splicer.rs lines 37-54: [Span::adjust_offsets] *)
Definition adjust_offsets (sp : span) (offs : list splice_offset) : span :=
  let '(start, stop) :=
    fold_left adjust_step offs
      (as_isize (Z.of_nat (s_start sp)), as_isize (Z.of_nat (s_end sp))) in
  Span (try_usize start) (try_usize stop).

(** src/splicer.rs lines 132-137 *)
Record splicer : Type := Splicer {
  sp_content : bytes;
  sp_offsets : list splice_offset
}.

(** src/splicer.rs lines 148-153: [Splicer::from_str]; also [Splicer::from]
    (lines 141-146), which starts from the content of the Dockerfile *)
Definition splicer_from_str (s : bytes) : splicer := Splicer s [].
Definition splicer_from (d : dockerfile) : splicer := Splicer (d_content d) [].

(** [str::split_at]: panics unless the index is a character boundary *)
Definition split_at (s : bytes) (i : nat) : outcome (bytes * bytes) :=
  if ((i <=? length s)%nat && is_boundary s i)%bool then Ok (firstn i s, skipn i s) else Panic.

(** [format!] of a text: a [String] holds at most [isize::MAX] bytes, beyond that
    the allocation panics ("capacity overflow"). *)
Definition new_string (s : bytes) : outcome bytes :=
  if Z.of_nat (length s) <? two63 then Ok s else Panic.

(** src/splicer.rs lines 163-178: [Splicer::splice].  [span.end - span.start]
    panics on underflow in a debug build; in a release build it wraps and the
    [split_at] on line 176 panics. *)
Definition splice (st : splicer) (sp : span) (replacement : bytes) : outcome splicer :=
  let sp' := adjust_offsets sp (sp_offsets st) in
  if (s_end sp' <? s_start sp')%nat then Panic else
  let prev_len := (s_end sp' - s_start sp')%nat in
  let offset := Z.of_nat (length replacement) - Z.of_nat prev_len in
  let offs := sp_offsets st ++ [SpliceOffset (s_start sp') offset] in
  '(beginning, rest) <- split_at (sp_content st) (s_start sp');;
  '(_, ending) <- split_at rest prev_len;;
  content <- new_string (beginning ++ replacement ++ ending);;
  Ok (Splicer content offs).

(** src/splicer.rs lines 63-74: the loop of [relative_span] over the bytes from
    index [i]; [lines] and [line_start] are the loop's variables. *)
Fixpoint relative_loop (s : bytes) (i start lines line_start : nat) : nat * nat :=
  match s with
  | [] => (lines, line_start)
  | c :: s' =>
    if (i =? start)%nat then (lines, line_start)
    else if (c =? LF)%N then relative_loop s' (S i) start (S lines) (S i)
    else relative_loop s' (S i) start lines line_start
  end.

(** src/splicer.rs lines 62-80: [Span::relative_span] *)
Definition relative_span (sp : span) (d : dockerfile) : outcome (nat * span) :=
  let '(lines, line_start) := relative_loop (d_content d) 0 (s_start sp) 0 0 in
  if (s_start sp <? line_start)%nat then Panic else
  if (s_end sp <? s_start sp)%nat then Panic else
  let start := (s_start sp - line_start)%nat in
  Ok (lines, Span start (start + (s_end sp - s_start sp))).

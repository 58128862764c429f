# Formal model of dockerfile-parser-rs

The Rust source is in /repo (not built, not changed).  The model and the proofs
are Coq 8.16 files in `rocq/theories` (logical name `Verif`), using only the Coq
standard library.  `properties.jsonl` states the properties, `MANIFEST.json` maps
each to its theorems, `seeded/LOG.jsonl` records the wrong programs the theorems
were tried on.

## Layout

The model (no proofs in these files; every definition cites the lines it models):

| File | Models |
| --- | --- |
| `Bytes.v` | text as byte lists, UTF-8, byte classes, the `str` operations used |
| `Grammar.v` | `src/dockerfile_parser.pest`, rule by rule, as a deep embedding |
| `Peg.v` | the parser pest generates from such a grammar (`eval`, `pest_parse`) |
| `Attempts.v` | pest's memory of the rules tried in vain: the position of a syntax error |
| `Result.v` | `src/error.rs`; panics as explicit results |
| `Ast.v` | the public data types and accessors |
| `Splicer.v` | `src/splicer.rs` |
| `Image.v` | `src/image.rs` |
| `Convert.v` | `src/util.rs` and every `from_record` of `src/instructions/*.rs` |
| `Dockerfile.v` | `src/dockerfile_parser.rs` |
| `Stage.v` | `src/stage.rs` |
| `Cost.v` | the steps and the nesting of rule calls of a run of that parser |
| `Messages.v` | `src/error.rs`: the texts of errors; `src/splicer.rs`: `Debug` of a span |
| `Programs.v` | `examples/splice.rs`, `examples/stages.rs` (without the `Debug` texts) |
| `Order.v` | the derived `Ord` of spans and strings |
| `Enquote.v` | the external `enquote::unquote`, for examples and tests only |
| `Conformance.v` | the crate's own test assertions, run on the model (tests, not proofs) |

Specifications, written without the model's algorithms (no proofs either):

| File | Specifies |
| --- | --- |
| `SpecImage.v` | image references, simultaneous substitution as a relation |
| `SpecSplice.v` | the text after a history of replacements |
| `SpecNested.v` | the same for spans inside one another |
| `SpecStage.v` | stages, parents, roots |
| `SpecRename.v` | stages with other names |
| `SpecArgument.v` | words of commands and of other loose texts |
| `SpecDoc.v` | global arguments, lines, readers |
| `SpecSyntax.v` | which texts write which instructions at which offsets |
| `SpecParts.v`, `SpecLayout.v` | parts of an instruction with the text they carry; what lies between instructions; logical lines |
| `SpecClear.v` | documents that can be read in one way only |
| `SpecExact.v` | exactly how a document is read, every part together with the text after it |
| `SpecFail.v` | exactly which error a text that is not accepted gives |
| `SpecTried.v` | the rules tried in vain while a text is parsed, and those named for a place |
| `SpecLines.v` | texts that differ only in how line ends are written |
| `SpecJoin.v` | texts that ask for no further line |
| `SpecOrder.v` | total orders, sorting |
| `SpecMove.v` | a parse result with its offsets moved by an edit |
| `SpecReword.v` | a parse result with one word replaced |
| `SpecAlias.v` | a parse result with new images and aliases; the edits that rename a stage |
| `SpecChanges.v` | changes of several kinds, when each can be made and what it makes of a parse result |
| `SpecValues.v` | another value in an ARG, LABEL, ENV or exec form: the texts that may stand there, what they mean, and what becomes of the parse result |
| `SpecKeys.v` | another name of an ARG, a label or an environment variable: which texts may be one, and what becomes of the parse result |
| `SpecActs.v` | names, values and other changes together: when they can be made, and what comes of several |
| `SpecGrow.v` | one more label or environment variable: what is written, and what becomes of the instruction |
| `SpecShrink.v` | labels or environment variables taken out of an instruction |
| `SpecSteps.v` | values put in several places together with the changes of `SpecChanges.v`, and what becomes of the parse result |

Proofs: `BytesFacts`, `ImageFacts`, `SplicerFacts`, `SplicerSafe`, `SplicerOuter`, `NestedFacts`, `SubstFacts`,
`StageFacts`, `DocFacts`, `PegFacts` (fuel, equations of the evaluator), `PegRules`,
`PegTokens`, `PegQuoted` (small rules as languages), `Sound*` (from runs of the grammar to
SpecSyntax), `PartsFacts`, `LayoutFacts`, `ParseFacts`, `SelectFacts`, `Forward*`
(from SpecClear to runs of the grammar), `MoveFacts`, `EditFacts`, `ParseEdit`
(edits of clear documents), `Shift`, `Swap`, `ConvertMove`, `SwapParse`, `SwapDoc`,
`RewriteFacts` (edits of any document that parses), `CostFacts`, `DepthFacts`,
`Twin`, `Once`, `ConvertSame`, `TwinDoc` (the same document spelt differently), `Spelt`,
`Oracle` (the same tokens converted with another unescaping function), `Lines`,
`LinesDoc` (and with other line ends), `EqSwap`, `ConvertReword`, `RewordDoc`, `RewordFacts`, `WordSwap`, `ArgumentDoc` (and with another word), `AliasDoc`, `NamesFacts` (and with other names), `ChangesFacts`, `ChangesNames` (and several of these together), `ReadsMove`, `ValuesFacts`, `ValuesDoc` (the readings of `SpecExact.v` moved, and with another value), `KeysFacts`, `KeysDoc` (and with another name), `StepsFacts`, `ActsFacts` (and several values and names among other changes), `GrowFacts`, `GrowDoc` (and with one more pair), `ShrinkFacts`, `FrontFacts`, `ShrinkDoc` (and without some of its pairs),
`Local`, `Idle` (what the parse of one line depends on), `Mirror`, `JoinDoc` (cutting a
document in two), `AttemptsFacts`, `JoinError`, `TriedFacts` (what was tried in vain), `Exact*` (runs of the
grammar and SpecExact, in both directions), `Fail*` (the same for SpecFail), `OrderFacts`, `EnquoteFacts`.

The property theorems, their `Print Assumptions` and an `Example` that meets the
hypotheses of each are in the `Props*.v` files, with a few helper lemmas.

## How the code is modelled

* A text is a list of bytes; offsets are byte offsets, as in Rust.  `&str` inputs
  are byte lists with the hypothesis `valid_utf8`.
* The grammar is data.  `eval` interprets it the way pest's generated code does:
  ordered choice, greedy repetition, lookahead, and pest's rules about which rule
  leaves a token in which atomicity.  It is fuelled, and a theorem (part of C01)
  shows that the fuel `parse` uses is always enough.
* The tokens are turned into instructions by the same loops as in the code.
  `unwrap`, slicing and indexing out of bounds are explicit `Panic` results.
* `enquote::unquote` is a parameter `unq` of the model: all theorems about the
  parser hold for every function in its place; where a statement needs to know what
  unquoting does, it says so with a visible hypothesis.
* Integer widths: `usize`/`isize` arithmetic of the splicer is exact (`Z`), with the
  conversions checked; the theorems that depend on it carry `rust_string` (shorter
  than 2^63 bytes).  An unsigned subtraction below zero (in `relative_span`) is `Panic`,
  as in a build with overflow checks; without them it would wrap.
* `HashMap`/`HashSet` are association lists/lists without duplicates, compared by
  membership.

## Plan and result per property

"Soundness" is the decomposition of a successful run of the grammar into the text it
consumed and the tokens it left, by induction on the derivation, and from there to
the relations of `SpecSyntax.v`.  "Clear" documents are those of `SpecClear.v`.

* C01 totality: fuel adequacy by a well-founded argument on (rest length, rule rank,
  height of the expression) with a nullability analysis of the grammar; no panic by
  the shape of the tokens of each rule.
* C02: equations of the entry points, with a model of `Read` as the list of results
  of its `read` calls.
* C03, C04, C05: soundness; parts are nested and ordered; UTF-8 boundaries are an
  invariant of a derivation.
* C06, C07: decomposition of the input into instructions and layout.
* C08, C09: invariant of the loop of `parse_dockerfile`.
* C10: proved if only ARGs precede the first FROM; refuted in general; for which names it holds, exactly.
* C11: the variant tells the keyword, by soundness.  That the keyword tells the
  variant is refuted by a witness.  What must be wrong with an instruction for that to
  happen is proved keyword by keyword (`Idle.v`), from the failure of the keyword's
  rule on the text.
* C12: refuted by a witness (the regex is not anchored); what does hold is proved,
  and that exactly these digests are accepted (from C69 and C70).
* C13, C14: equations on lists.
* C15-C19: an independent definition of substitution as a relation on segmented
  text; the code's loop with the splicer refines it.
* C20-C23: refinement of the splicer to one cell of text per original byte.  C21 and
  C22 are refuted for a span that was replaced by the empty text and then spliced
  again, and proved otherwise; C23 holds for these histories too, and so does what
  remains of C22 (`SplicerSafe.v`, three pieces of text per span; the two ends of the
  outer span are followed as two empty spans).  `SplicerOuter.v` keeps the exact three
  pieces and gives the exact result of C22.
* C24: induction over the text.
* C25-C30, C44: invariant of the loop of `Stages::new` against a declarative
  specification of stages; for every list of instructions.
* C31, C32: soundness for `any_breakable`, and uniqueness of the logical line.
* C33-C37: soundness for the argument rules.
* C38: completeness: clear documents parse to exactly what was written, spans
  included, by running the grammar forward over each construct.
* C39: for any document that parses.  Two runs of the grammar, on texts that differ
  in one image, are related step by step (`Swap.v`: before, across and after the
  image), the conversion is stable under moving offsets (`ConvertMove.v`), and the
  splicer theorems give the text.  For clear documents the edited document is clear
  again.
* C40: refuted by a witness (a comment at the start of a shell command absorbs the
  following line); proved otherwise.  C40_exact says of every instruction where its
  newlines can be: as stated, or at the end of the comment lines a shell text begins with.
* C41: case analysis.
* C42: the possible errors by soundness; the digest half is refuted by a witness;
  C70_exact gives the error of every rejected text.
* C43: for clear documents by C38; refuted for arbitrary documents.
* C45: parts chosen from a parse result are disjoint or nested (C05), so C20 applies.
* C46: clear documents can be joined; by C38.
* C47: the loop of the program is a splice of all images; by C39 for any document.
  That the printed text (with the line feed `println!` adds) parses is refuted.
* C48: each expression of the grammar gets a bound `A (1 + consumed) (n + 1)^j` for
  its successes and `A (n + 1)^k` for its failures, computed by a function on the
  grammar that is proved sound; the three recursive rules by induction on the input.
* C49: from above, the same way, with the number of backslashes and hash signs in the
  rest of the input as the measure; from below, the depth of the token tree is at most
  the depth of the run, and the tokens of shell texts nest once per component.
* C50: runs on texts that are equal up to case and kind of blank end alike and leave
  the same tokens, by induction on the run (a checker on the grammar finds that no rule
  but those inside quoted strings tells such texts apart; quoted strings separately).
  The converters read the text only at parts that the instruction carries, because the
  grammar fills each field at most once (also a checker on the grammar, proved sound).
* C51: every instruction of a result comes from a run of `step` at its start
  (`Local.v`); where the text there is clear, C38's forward runs say what it gave.
* C52: the order laws by composition of lexicographic orders; a sorted permutation is
  unique, and the spans of disjoint parts are in order by C05 and C06.
* C53: induction over the calls.
* C54: the loop that writes digits against the definition of decimal numbers of C29.
* C55: induction over the stages, with C08, C25 and C26.
* C56: the run of the grammar on the end of a text and on the same followed by a line
  break and anything are the same (`Mirror.v`): by induction on the run for expressions
  that match no newline (a checker on the grammar), rule by rule for those that may ask
  for a further line; the rest is shifted and converted as in C39 (`JoinDoc.v`).
* C57: from C56; blank and comment lines leave only comment tokens.
* C58: the two texts are one list of marks (a common byte, or a line end written in two
  ways).  Runs on its two sides leave the same tokens at corresponding offsets
  (`Lines.v`): by induction on the run, with a checker on the grammar for the
  expressions that could see half a line end; quoted strings separately.  The
  conversion reads the text only at the carried parts, as in C50 (`LinesDoc.v`).
* C59: C56 twice, in both directions; the errors of joined texts are determined too
  (`C56_errors`).
* C60: induction over the added instructions, on the loop of `Stages::new`.
* C61: a forward run of the grammar that stops at the backslash; anywhere in a document
  by C56.
* C62: the theorems C15–C17 and C19 about `substitute`, with the facts about the parsed image text and the
  parsed ARG defaults that make its hypotheses true.
* C63: from C04/C35's description of every instruction; the description of ENV values now
  excludes the plain reading of a text that has a quoted string in front.
* C64: the writer's text has the layout C38 asks for (`layout`), so it parses to the
  instruction that the layout describes; `unquote` inverts the escaping by induction.
  `enquote::unquote` stays a parameter; what the theorems ask of it is stated, and
  `EnquoteFacts.v` proves it for the model of the crate in `Enquote.v`.
* C65: `attempts` (`Attempts.v`) follows the control flow of `eval` and keeps pest's
  memory of the furthest rules tried.  That every remembered position was reached is an
  induction over it; that nothing behind the first part is tried while it is read is the
  induction of C56 once more (`within` in `Mirror.v`); the second part's attempts are
  those of the second part alone, moved (`JoinError.v`).  `SpecTried.v` says without that
  memory, by rules over the grammar, what is tried in vain and which rules are named for a
  place; `TriedFacts.v` proves by induction over those rules that the memory holds the
  furthest place, and what is named for it.
* C66: the converters are compared for two oracles, token by token (`Oracle.v`), with what
  the grammar guarantees about the text of each token (`Spelt.v`); the errors about
  comments and digests by running the grammar on the first instruction of a text whose
  rest is arbitrary.
* C67: the rule for lists matches exactly where a list begins (`list_here` in
  `ListFacts.v`, from the two directions of the grammar's description and its totality);
  the shell alternative is tried only after it failed, and nothing is tried after it
  matched.
* C68: the rule of the instruction is run forward over the part that it accepts; how far
  it gets is settled by inverting its optional last part, and once a rule has matched no
  other alternative is tried, so anything left on the line is an error.
* C69: SpecExact.v gives every part of a document together with the text that follows it,
  and says where a part ends by conditions on that text (no quoted string ahead, no flag
  ahead, the gap over, the word over).  Each rule of the grammar is inverted to it and run
  forward from it; `rule_passed` in `Exact6.v` shows that the rule of a keyword fails
  exactly where `passed_over` says so, which decides between it and the rule for any name.
  C11_exact is the same fact about a parse result.
* C70: SpecFail.v defines the texts without syntax errors by replacing the unquoting function
  by one that never fails and adding the two other causes of errors. A token tree without
  comments in the wrong places (an invariant of all runs, checked rule by rule on the grammar)
  can fail to convert only because of a string. Determinism of the grammar gives the negative
  conditions. `document_fails` is the error of the first line that has one.
* C71: by C42 and C41; the texts of other crates are parameters.  C72: decimal printing and
  its inverse from the standard library.
* C73: for histories from the inside out, the cells of `SplicerFacts.v` (one per byte of the
  original) give the text if no target is empty.  For any such history `NestedFacts.v` keeps
  a monotone map from the original offsets to the current ones and the place of every byte
  that was never spliced.  The other order is computed: there is one offset.
* C74: `EqSwap.v` runs the grammar on both texts at the same time.  Inside and around the word
  the two runs agree step by step, because no rule of the grammar tells one byte of such a
  word from another in a way that matters after an equals sign; positions are related by
  the move.  `ConvertReword.v` follows the converters over the moved tokens.
* C75: modelled by `stages_new` on two documents at once.  By C27 each parent is determined by which
  images are aliases of which earlier FROM; induction along the chain of parents gives the roots; C39
  gives the document after images are rewritten.  `C75_alias_alone` shows that renaming an alias without
  its references changes parents.
* C76: by induction on the depth and the segments of the text, over the relation `expands` that C15 ties
  to `substitute`; a literal dollar sign among the segments is a stray one.
* C77: `WordSwap.v` runs the grammar on both texts as for C74, with a blank or newline before the word.
  Outside the instruction the runs agree by locality (`Local.v`); inside, the rules that tell words apart
  are those for keywords, flags, lists and comments, which the conditions on the words exclude.
  `ArgumentDoc.v` puts the instruction back into the document.
* C78: `Swap.v` runs the grammar on a FROM with two aliases, as for the images of C39; `AliasDoc.v` converts
  the tokens.  `NamesFacts.v` splices images and aliases from the last to the first, by induction on the
  instructions; the splicer gives the same text in every order (C20).  The stages of the result are compared
  with those before by the relation `parent_spec` of C27, for each of its cases.  `C78_taken` shows that the
  new name must be new.
* C79: the theorems for one change (C39, C74, C77, C78) are applied from the last span to the first.
  `change_kept` shows that a change to the right leaves every other change possible, by looking at the text
  and the places of strings to its left; `changes_made` is the induction.  For the names of the FROMs
  (`ChangesNames.v`) it is also shown that no other kind of change reaches an image or an alias: the byte
  before those is a blank or a newline, and none of their bytes is an equals sign.
* C80: by the exact readings of C69.  The reading of the line is taken apart at the value and put together with the
  new one; the conditions on what follows each piece are shown not to see the change.  The lines behind it are moved,
  the lines before it are joined on by C56.  That these lines can be read on their own is a hypothesis
  (`lines_before`), as in C56.
* C81: the induction of C79, from the last place to the first, over both kinds of steps.  `step_kept` shows that a
  step to the right leaves every step to the left possible; for this the conditions of C80 are made ones on the text
  in front only (`closed_quotes`, `closed_lines`).  For values alone the result is also given in one piece, by
  `values_at_once`: putting a value commutes with moving the offsets behind it.
* C82: as C80, with the reading taken apart at the name.  The pairs before it see only the gap in front of the new
  name, which does not begin with a blank, a newline, a comment or a backslash.  `C82_follows` shows that the condition
  on what comes behind the name of a label is needed.
* C83: the induction of C81 with one more kind of step.  The condition on the text behind the name of a label could be
  lost through a change that begins where the name ends; `act_after` shows that there is none: in the same LABEL the
  next name or value begins later, the name does not end in an equals sign, and other instructions begin with a letter.
  `name_not_value` lets one list of spans serve for names and values.
* C84: the readings of `SpecExact.v` again.  The pairs of an instruction are read one after the other, each with the gap in front
  of it; induction on the pairs before the new one shows that each is read as before, although other text follows now: a word
  still ends where it did because a blank or a gap is there, and no quote that was closed nowhere is closed by the new text.
  The pairs behind it are carried (`carries`, C80).  The lines before and behind are joined as in C80.  The splice is one at an empty
  span, for which C21_exact gives the text.
* C85: the list of pairs is split in three, with the text of each.  The first part is read as before with other text behind it:
  every pair has an equals sign in it, so that no line continuation can reach from one pair over the next, and the last pair of the part
  does not end in a backslash.  The third part is carried (C80), and the rest is as in C82.
* C86: as C85, with the cut at the starts of two pairs.  The gap in front of the cut stays and ends where it did, because the byte behind
  the cut can be neither a space nor the start of a comment or of a line continuation.  What the two have in common is proved once, for any
  relation between an instruction and a shorter one (`pairs_dropped`, `fewer_parsed`).

## Behaviour found to violate a property (proved as `..._refuted`)

* C76 (unrestricted): `resolve_vars` of `$$a` with `a=b` returns `$b`, which still refers to a variable;
  resolved again it is another image or none.
* C73 (the last part): splicing a part after the part that contains it can change another
  instruction or panic.
* C67 (the last part): a command that begins with a list of strings and goes on, such as
  `RUN [ "a" ] && y`, makes the whole document a syntax error.
* C10: `get_global_arg` stops at the first instruction that is not an ARG.
* C11: an instruction with a known keyword and arguments its rule rejects is reported
  as Misc, not as an error.
* C12: the digest regex is not anchored; one hexadecimal digit among 64 characters
  is enough.
* C21: splicing a span again after it was replaced by the empty text inserts the new
  text before those given since the deletion (C21_exact and C21_text give the exact
  result of every history for spans with text between them, C21_touching for any spans
  that do not overlap).  Where spans touch, like the name and the arguments of a Misc
  instruction, a text given for the deleted one is taken for a part of the next one, and
  lost when that one is spliced (C21_touching_lost).
* C22: a text spliced where an inner span was deleted can survive the splice of the
  outer span; with text between the spans exactly if the inner span ends where the outer
  one ends (C22_exact, C22_left).
* C40, C42: a comment after RUN, CMD or ENTRYPOINT and a gap is taken as the start of
  the command; the next line is absorbed, or the document is rejected.
* C43 for arbitrary documents: removing a comment line can change the result.
* C47: a document that ends in a backslash parses, and no longer does with the line
  feed that examples/splice.rs prints after it.
* C52 for `BreakableStringComponent`: its derived order puts every string before every
  comment, whatever their spans.
* C58 inside quoted strings: an escaped line break in a LABEL value is only recognised if
  it is written LF.
* C61: an empty line (or the end) directly after a line continuation in a shell command
  makes the whole document a syntax error.
* C64 for LABEL: a backslash in front of a line feed, correctly escaped, is taken for an
  escaped line break and lost, together with what unescaping makes of the next character.
* C49 is no violation, but worth knowing: a long continued command needs a call depth
  proportional to its number of lines, in the parser and in `parse_any_breakable`.

## Trusted base

* Coq's kernel (checked again by `coqchk`).  Every `Print Assumptions` answers
  "Closed under the global context": no axioms are used.  The only library items a
  scan of the loaded modules finds are the seven parameters of the standard library's
  `Coq.ssr.ssrunder.Under_rel`, which no theorem uses.
* The reading of the Rust sources and of pest's semantics.  `Conformance.v` checks it
  against the crate's own test assertions.
* External crates and `std` parts that are modelled, not verified: pest 2 (the
  combinators `ParserState` offers and the code pest_derive generates; its
  optimizer, which is semantics preserving on this grammar, is not modelled; it may try
  a rule once where the model tries it twice, at the same position),
  `regex` for the two patterns used, `str`/`Vec`/`HashMap`/`HashSet` operations,
  `Read::read_to_string`, `enquote::unquote` (a parameter).
* Not modelled: the texts of the errors of other crates inside an error (other than the
  position and the rules a syntax error names), `Debug` output other than a span's, memory
  use, the
  size of the machine stack, `Clone` and `Hash` derive output, the constructors `Span::new`,
  `Label::new` and `EnvVar::new`, which only fill in the fields.

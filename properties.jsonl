{"id": "C01", "title": "Parsing is total: no panic, no hang", "statement": "Dockerfile::parse returns either Ok(Dockerfile) or Err(Error) for every string; no unwrap, index, slice or loop in the grammar or in the tree conversion can panic or run forever.", "quantifier": "every valid UTF-8 string, of any length", "why_tests_cant": "Panics and non-termination hide in unsampled inputs; tests only show that the sampled strings come back.", "anchors": ["src/dockerfile_parser.rs: parse_dockerfile", "src/dockerfile_parser.pest", "src/instructions/*.rs: from_record", "src/util.rs"]}
{"id": "C02", "title": "Content is preserved and all entry points agree", "statement": "If parsing succeeds, the content field is byte for byte the input; FromStr gives the same result as parse; from_reader on bytes gives the same result as parse if the bytes are valid UTF-8 and a read error otherwise.", "quantifier": "every byte string", "why_tests_cant": "An equality between entry points over all inputs is not established by examples.", "anchors": ["src/dockerfile_parser.rs: Dockerfile::parse, from_reader, from_str"]}
{"id": "C03", "title": "Every span in a parse result is a safe slice", "statement": "Every span reachable from a parse result (instruction, image, alias, flag, argument, label, variable, array element, string component, comment) satisfies start <= end <= content.len() and both ends are UTF-8 character boundaries, so &content[span.start..span.end] never panics.", "quantifier": "every valid UTF-8 input that parses, every span in its result", "why_tests_cant": "Off-by-one and mid-character spans only show up on unsampled multi-byte inputs.", "anchors": ["src/splicer.rs: Span::from_pair", "src/util.rs", "src/instructions/*.rs"]}
{"id": "C04", "title": "Spans and contents agree", "statement": "For every spanned string in a parse result, the content equals the text of the input at its span, or, for quoted text, equals the unescaped form of that text.", "quantifier": "every input that parses, every spanned string or comment in the result", "why_tests_cant": "Needs every combination of instruction, quoting and layout.", "anchors": ["src/util.rs: parse_string, parse_any_breakable", "src/instructions/*.rs"]}
{"id": "C05", "title": "Parts lie inside their instruction, in order and without overlap", "statement": "Within each instruction the spans of its parts (flags, image, alias, paths, names, values, elements, components) lie inside the instruction's span and appear in source order without overlapping.", "quantifier": "every input that parses, every instruction in the result", "why_tests_cant": "Splicing several parts of one instruction is only safe if this holds for every instruction.", "anchors": ["src/instructions/*.rs: from_record", "src/util.rs"]}
{"id": "C06", "title": "Instructions are in source order and disjoint", "statement": "The spans of consecutive instructions are non-empty, disjoint, in increasing order, and separated by at least one newline.", "quantifier": "every input that parses", "why_tests_cant": "A statement about all pairs of instructions of all files.", "anchors": ["src/dockerfile_parser.rs: parse_dockerfile", "src/dockerfile_parser.pest: dockerfile, meta_step"]}
{"id": "C07", "title": "Nothing is silently dropped", "statement": "Every byte of an accepted file lies in the span of some instruction, or in spaces, tabs, newlines and # comments that form complete gaps between instructions.", "quantifier": "every input that parses", "why_tests_cant": "A tool that rewrites Dockerfiles relies on this for every file; a test can only list files where it holds.", "anchors": ["src/dockerfile_parser.pest: dockerfile, meta_step, comment", "src/dockerfile_parser.rs: parse_dockerfile"]}
{"id": "C08", "title": "FROM instructions are numbered consecutively", "statement": "The n-th FROM instruction of a parse result (counting from 0) has index n.", "quantifier": "every input that parses", "why_tests_cant": "Unbounded number of stages and of instructions in between.", "anchors": ["src/dockerfile_parser.rs: parse_dockerfile"]}
{"id": "C09", "title": "global_args are exactly the ARGs before the first FROM", "statement": "global_args is the list, in order, of the ARG instructions that precede the first FROM instruction (all of them if there is no FROM).", "quantifier": "every input that parses", "why_tests_cant": "Unbounded instruction lists.", "anchors": ["src/dockerfile_parser.rs: parse_dockerfile"]}
{"id": "C10", "title": "get_global_arg finds the first global ARG of a name", "statement": "get_global_arg(name) returns the first element of global_args with that name, and None exactly if there is none.", "quantifier": "every input that parses, every name", "why_tests_cant": "Quantifies over all instruction sequences, including those with other instructions before the first FROM.", "anchors": ["src/dockerfile_parser.rs: get_global_arg, global_args"]}
{"id": "C11", "title": "The instruction variant matches the keyword", "statement": "An instruction is reported as From, Run, Arg, Label, Copy, Entrypoint, Cmd or Env only if its text begins with that keyword in any letter case; and an instruction with one of those keywords is never reported as Misc.", "quantifier": "every input that parses, every instruction in the result", "why_tests_cant": "All keywords, all letter cases, all malformed arguments.", "anchors": ["src/dockerfile_parser.pest: step, misc", "src/dockerfile_parser.rs: Instruction::try_from"]}
{"id": "C12", "title": "FROM digests are validated", "statement": "If a FROM image of a parse result carries a digest, the digest is sha256: followed by exactly 64 hexadecimal digits.", "quantifier": "every input that parses, every FROM in the result", "why_tests_cant": "All digests: a test tries three bad ones.", "anchors": ["src/instructions/from.rs: FromInstruction::from_record"]}
{"id": "C13", "title": "Image references print back to their source", "statement": "ImageRef::parse(s).to_string() == s.", "quantifier": "every string", "why_tests_cant": "Round trip over all strings.", "anchors": ["src/image.rs: ImageRef::parse, Display for ImageRef"]}
{"id": "C14", "title": "Image references are split by Docker's rules", "statement": "ImageRef::parse sets a registry exactly if the text before the first slash is localhost or contains a dot or a colon; the rest is split at the first @ into image and hash, otherwise at the first colon into image and tag; tag and hash are never both set; and parsing a printed reference gives the same reference.", "quantifier": "every string", "why_tests_cant": "Round trip and decision rule over all strings.", "anchors": ["src/image.rs: ImageRef::parse, is_registry"]}
{"id": "C15", "title": "substitute replaces every variable reference at once", "statement": "If substitute succeeds, the result is the input in which every leftmost, longest, non-overlapping $name or ${name} has been replaced by the recursively substituted value of the variable, and all other text is unchanged.", "quantifier": "every string, every map of variables, every recursion depth", "why_tests_cant": "Interplay of replacement lengths, positions and nested references cannot be enumerated.", "anchors": ["src/image.rs: substitute", "src/splicer.rs: Splicer::splice"]}
{"id": "C16", "title": "substitute fails exactly when it must", "statement": "substitute returns None exactly if some reference reached from the input is undefined or the nesting of references exceeds the depth limit; in particular cyclic definitions always give None, and it never panics.", "quantifier": "every string, every map of variables, every recursion depth", "why_tests_cant": "All reference graphs, of any shape.", "anchors": ["src/image.rs: substitute"]}
{"id": "C17", "title": "used_vars reports exactly the variables used", "statement": "After a successful substitute, the set of used variables is the initial set plus exactly the variables referenced, directly or through other variables, from the input.", "quantifier": "every string, every map of variables, every recursion depth, every initial set", "why_tests_cant": "All reference graphs.", "anchors": ["src/image.rs: substitute, resolve_vars_with_context"]}
{"id": "C18", "title": "Raising the depth limit never changes an answer", "statement": "If substitute succeeds with some depth limit it succeeds with the same result with every larger limit; and with limit 0 it succeeds exactly on strings without references, returning them unchanged.", "quantifier": "every string, every map of variables, every pair of limits", "why_tests_cant": "Relates two runs over all inputs.", "anchors": ["src/image.rs: substitute"]}
{"id": "C19", "title": "resolve_vars uses the global ARGs", "statement": "resolve_vars on the image of a FROM parses the image text after substituting the values of the global ARGs with limit 16; an ARG without value does not define a variable; the last value of a repeated name wins; resolve_vars and resolve_vars_with_context agree.", "quantifier": "every parsed Dockerfile, every image reference", "why_tests_cant": "All combinations of ARGs and references.", "anchors": ["src/image.rs: resolve_vars, resolve_vars_with_context"]}
{"id": "C20", "title": "Splices of disjoint spans commute", "statement": "Splicing replacement texts into any set of pairwise disjoint non-empty spans of the original document, in any order, yields the original with every such span replaced at the same time; everything outside the spans is unchanged.", "quantifier": "every document, every finite set of disjoint spans, every order, every replacement text", "why_tests_cant": "All orders and all length changes.", "anchors": ["src/splicer.rs: Splicer::splice, Span::adjust_offsets"]}
{"id": "C21", "title": "Splicing a span again replaces the earlier replacement", "statement": "When a span is spliced several times, interleaved with splices of other disjoint spans, the content is the original with each span replaced by the last text given for it.", "quantifier": "every document, every history of splices on disjoint spans", "why_tests_cant": "A statement about all histories.", "anchors": ["src/splicer.rs: Splicer::splice, Span::adjust_offsets"]}
{"id": "C22", "title": "Splicing an outer span after its parts", "statement": "Splicing a span that encloses spans already spliced replaces the whole enclosed region, whatever the earlier replacements were, and leaves the text outside unchanged.", "quantifier": "every document, every span, every history of splices strictly inside or disjoint from it", "why_tests_cant": "A statement about all histories.", "anchors": ["src/splicer.rs: Splicer::splice, Span::adjust_offsets"]}
{"id": "C23", "title": "Splicing never corrupts the text encoding", "statement": "If the document and the replacements are valid UTF-8 and the spans are character boundaries (as all spans from a parse are), splicing disjoint spans never panics and the content stays valid UTF-8. For any span and any history, a call of splice that returns has exchanged one stretch of characters for the replacement; on a new splicer exactly the spans that are slices of the text (in order, within the text, at character boundaries) can be spliced, and any other makes it panic.", "quantifier": "every document, every history of splices on disjoint spans", "why_tests_cant": "Needs multi-byte characters at every position.", "anchors": ["src/splicer.rs: Splicer::splice"]}
{"id": "C24", "title": "relative_span gives the line and column", "statement": "relative_span returns the number of newlines before the span, and the span moved by the start of that line, with the same length; the original text is found at that line and column. A span beyond the text is counted from its last line; the call panics exactly if the span ends before it starts.", "quantifier": "every document, every span", "why_tests_cant": "All documents and positions.", "anchors": ["src/splicer.rs: Span::relative_span"]}
{"id": "C25", "title": "Stages partition the instructions", "statement": "The stages, in order, contain exactly the instructions from the first FROM on, in source order; each stage starts with a FROM and contains no other FROM; instructions before the first FROM belong to no stage.", "quantifier": "every parsed Dockerfile", "why_tests_cant": "Unbounded instruction lists.", "anchors": ["src/stage.rs: Stages::new"]}
{"id": "C26", "title": "Stage indices and names", "statement": "The i-th stage has index i, equal to the index of its FROM instruction, and its name is the ASCII-lowercased alias of that FROM, if any.", "quantifier": "every parsed Dockerfile", "why_tests_cant": "Unbounded number of stages.", "anchors": ["src/stage.rs: Stages::new"]}
{"id": "C27", "title": "Stage parents are resolved correctly", "statement": "The parent of a stage is scratch exactly if its image is scratch in any letter case; otherwise the earliest preceding stage whose name equals the image case-insensitively; otherwise the image itself. A stage parent is always an earlier stage.", "quantifier": "every parsed Dockerfile", "why_tests_cant": "All alias graphs, including duplicate aliases and forward references.", "anchors": ["src/stage.rs: Stages::new, get_by_name"]}
{"id": "C28", "title": "Stage roots are external", "statement": "The root of a stage is never another stage: it is the end of the chain of parents, i.e. the image or scratch of the stage where the chain stops; following parents always terminates; building the stages never panics.", "quantifier": "every parsed Dockerfile", "why_tests_cant": "Chains of any length.", "anchors": ["src/stage.rs: Stages::new"]}
{"id": "C29", "title": "Stages are looked up by index or by name", "statement": "get(s) returns the stage with index n if s is a decimal number n representable in usize, and otherwise the first stage whose alias equals s up to ASCII case; get_by_name always looks at the alias.", "quantifier": "every parsed Dockerfile, every string", "why_tests_cant": "All strings, including numeric aliases, signs and overflow.", "anchors": ["src/stage.rs: Stages::get, get_by_name"]}
{"id": "C30", "title": "arg_index finds the first ARG of a stage", "statement": "arg_index(name) is the least index of an ARG instruction with that name in the stage, and None if there is none.", "quantifier": "every stage, every name", "why_tests_cant": "Unbounded instruction lists.", "anchors": ["src/stage.rs: Stage::arg_index"]}
{"id": "C31", "title": "Shell forms print as one logical line", "statement": "The Display of a shell-form command (RUN, CMD, ENTRYPOINT, unknown instructions, single ENV) is the command text with line continuations and comment lines removed; it contains no newline and no comment text.", "quantifier": "every input that parses, every shell-form command in the result", "why_tests_cant": "All layouts of continuations and comments.", "anchors": ["src/util.rs: BreakableString, parse_any_breakable", "src/dockerfile_parser.pest: any_breakable, any_content"]}
{"id": "C32", "title": "Shell forms are lossless", "statement": "The components of a shell-form command tile its span: between consecutive components there is only a continuation (backslash, blanks, newline), a newline or blanks, so no command text is lost or duplicated.", "quantifier": "every input that parses, every shell-form command in the result", "why_tests_cant": "All layouts.", "anchors": ["src/util.rs: parse_any_breakable_inner", "src/dockerfile_parser.pest: any_breakable"]}
{"id": "C33", "title": "Exec forms list the quoted strings", "statement": "The elements of an exec-form command are, in order, the unescaped quoted strings of the bracketed list; everything else between the brackets is commas, whitespace, continuations and comments.", "quantifier": "every input that parses, every exec-form command in the result", "why_tests_cant": "All layouts and escapes.", "anchors": ["src/util.rs: parse_string_array", "src/dockerfile_parser.pest: string_array"]}
{"id": "C34", "title": "COPY has sources and a destination", "statement": "A COPY instruction has at least one source; its destination is the last path in source order; flags precede paths; flag names are alphabetic and values non-empty; paths contain no blanks or newlines in the source.", "quantifier": "every input that parses, every COPY in the result", "why_tests_cant": "All argument lists.", "anchors": ["src/instructions/copy.rs", "src/dockerfile_parser.pest: copy"]}
{"id": "C35", "title": "ENV variables", "statement": "Every variable of an ENV instruction has a name made of letters, digits and underscores and the variables appear in source order; the single form yields exactly one variable whose span runs from its key to the end of its value.", "quantifier": "every input that parses, every ENV in the result", "why_tests_cant": "All argument lists.", "anchors": ["src/instructions/env.rs", "src/dockerfile_parser.pest: env"]}
{"id": "C36", "title": "LABEL pairs", "statement": "Every label of a LABEL instruction has a name and a value from its source text, quoted texts being unescaped after removing escaped line breaks, in source order.", "quantifier": "every input that parses, every LABEL in the result", "why_tests_cant": "All argument lists.", "anchors": ["src/instructions/label.rs", "src/dockerfile_parser.pest: label"]}
{"id": "C37", "title": "ARG names and values", "statement": "An ARG instruction has a name of the form letter (letter|digit|_)*; its value is present exactly if the name is followed by an equals sign in the source.", "quantifier": "every input that parses, every ARG in the result", "why_tests_cant": "All argument texts.", "anchors": ["src/instructions/arg.rs", "src/dockerfile_parser.pest: arg"]}
{"id": "C38", "title": "Well-formed documents are accepted and mean what they say", "statement": "A document written from a list of well-formed instructions (FROM, ARG, RUN, CMD, ENTRYPOINT, COPY, ENV, LABEL, others), with keywords in any letter case, arguments separated by any mix of blanks, line continuations, comments and empty continuation lines, and instructions separated by any blank and comment lines, parses to exactly those instructions.", "quantifier": "every list of well-formed instructions, every layout", "why_tests_cant": "Completeness of the grammar over an infinite language.", "anchors": ["src/dockerfile_parser.pest", "src/dockerfile_parser.rs", "src/instructions/*.rs"]}
{"id": "C39", "title": "Rewriting an image and parsing again", "statement": "Splicing a new image reference over the image span of a FROM and parsing the new content yields the same instructions with only that image changed.", "quantifier": "every document that parses, every set of FROM instructions in it, all new image references, spliced in every order", "why_tests_cant": "End-to-end property of parser and splicer over all documents.", "anchors": ["src/splicer.rs", "src/instructions/from.rs", "examples/splice.rs"]}
{"id": "C40", "title": "An instruction ends at its line", "statement": "A newline that is neither preceded by a line continuation nor inside quotes ends the instruction: text on the next line is never absorbed into it.", "quantifier": "every input that parses", "why_tests_cant": "All layouts.", "anchors": ["src/dockerfile_parser.pest: any_breakable, comment_line"]}
{"id": "C41", "title": "Accessors agree with variants", "statement": "For every instruction exactly one of the as_*/into_* accessors and TryFrom conversions succeeds, it returns the wrapped value, converting back gives the instruction, and span() is the span of the wrapped value; the same holds for as_shell/as_exec.", "quantifier": "every instruction value", "why_tests_cant": "Ranges over all values of all variants.", "anchors": ["src/dockerfile_parser.rs: Instruction", "src/util.rs: ShellOrExecExpr", "src/instructions/*.rs: TryFrom"]}
{"id": "C42", "title": "Errors are of the documented kinds", "statement": "parse fails only with a syntax error of the grammar, an unescape error from a quoted string, or a generic error; the generic error arises only for a bad FROM digest.", "quantifier": "every input", "why_tests_cant": "All inputs that fail to parse.", "anchors": ["src/error.rs", "src/instructions/*.rs: from_record", "src/util.rs"]}
{"id": "C43", "title": "Comments and blank lines between instructions do not matter", "statement": "Inserting or removing blank and comment-only lines between the instructions of a well-formed document does not change the parsed instructions other than by shifting spans.", "quantifier": "every well-formed document, every set of inserted lines", "why_tests_cant": "Relates two parses over all documents.", "anchors": ["src/dockerfile_parser.pest: dockerfile, meta_step, comment"]}
{"id": "C44", "title": "Stage equality and order are by index", "statement": "Stage comparison is a total order consistent with equality: stages of one Dockerfile are strictly increasing in their list, and two of them are equal exactly if they are the same stage.", "quantifier": "every parsed Dockerfile, every pair of its stages", "why_tests_cant": "All pairs of stages.", "anchors": ["src/stage.rs: Ord, PartialEq for Stage"]}
{"id": "C45", "title": "Parts of a parse result can be spliced", "statement": "Take any parse result and any set of its parts (instructions, flags, images, aliases, values, array elements, text components and so on) of which none lies inside another. Any sequence of splices on the spans of these parts, in any order and with repetitions, succeeds without a panic and gives valid UTF-8 text in which everything outside the chosen parts is unchanged. If no part is spliced again after it was emptied, each part holds the text of its last splice. Any two parts of a result are either apart or one contains the other.", "quantifier": "every input that parses, every choice of non-nested parts, every sequence of splices on them with any replacement texts", "why_tests_cant": "Ranges over all documents, all selections of parts and all histories.", "anchors": ["src/splicer.rs: Splicer::splice", "src/dockerfile_parser.rs: Dockerfile::splicer", "src/parser.rs: Span"]}
{"id": "C46", "title": "Parsing is compositional", "statement": "For two well-formed documents, the document made of the first, a newline and the second parses to the instructions of the first followed by those of the second, with spans shifted by the length of what was put in front and FROM indices shifted by the number of FROM instructions in front; the global arguments are those of the first document, followed by those of the second if the first has no FROM.", "quantifier": "every pair of well-formed documents, every newline", "why_tests_cant": "Relates three parses over all pairs of documents.", "anchors": ["src/dockerfile_parser.pest: dockerfile", "src/dockerfile_parser.rs: parse_dockerfile"]}
{"id": "C47", "title": "The splice example rewrites every image and nothing else", "statement": "For any file that parses, the program examples/splice.rs prints the file with the image of every FROM replaced by splice:test and everything else unchanged, followed by a line feed. What it prints, without that line feed, parses to the same instructions with only the images and the spans changed, and running the program on it prints the same again.", "quantifier": "every sequence of read results that delivers a document that parses and is short enough to be a Rust string before and after", "why_tests_cant": "Ranges over all documents and all numbers of images of any lengths.", "anchors": ["examples/splice.rs: main", "src/splicer.rs: Splicer", "src/dockerfile_parser.rs: Dockerfile::from_reader, Dockerfile::splicer"]}
{"id": "C48", "title": "No exponential backtracking", "statement": "The number of grammar expressions that parsing evaluates is bounded by a polynomial of degree four in the length of the input, for accepted and rejected inputs alike.", "quantifier": "every byte string", "why_tests_cant": "A bound over all inputs; slow inputs for a backtracking parser are adversarial and not found by examples.", "anchors": ["src/dockerfile_parser.pest", "src/dockerfile_parser.rs: parse_dockerfile"]}
{"id": "C49", "title": "Recursion depth", "statement": "The nesting of rule calls during a parse is at most thirteen plus the number of backslashes and hash signs in the input. It exceeds the number of components of every shell text in the result, so it is not bounded: a command continued over n lines (3n+5 bytes) needs more than n+1 nested calls.", "quantifier": "every byte string; every parse result; every n", "why_tests_cant": "An upper bound over all inputs and a lower bound for all documents.", "anchors": ["src/dockerfile_parser.pest: any_breakable, inner, single_quoted_inner", "src/util.rs: parse_any_breakable_inner"]}
{"id": "C50", "title": "Keyword case and the kind of blanks make no difference", "statement": "If two documents have the same length and differ only in the case of letters and in spaces versus tabs, and agree wherever an instruction of the first carries text (a string or a comment), then both parse to the same instructions with the same spans and the same global arguments. Whether a document is rejected with ParseError never depends on case or on the choice of blanks at all.", "quantifier": "every document and every such respelling of it", "why_tests_cant": "Ranges over all documents and exponentially many respellings of each.", "anchors": ["src/dockerfile_parser.pest: ws, arg_ws, from, run, arg, label, copy, entrypoint, cmd, env, from_alias_outer", "src/dockerfile_parser.rs: Dockerfile::parse"]}
{"id": "C51", "title": "A well-written instruction means what it says in any document", "statement": "In any document that parses, if the text from the start of an instruction to a line end is written without ambiguity (in the documented syntax of that instruction), then the instruction in the result is exactly the one written, with its spans; what the rest of the document looks like has no influence on it, apart from the number of a FROM.", "quantifier": "every document that parses, every instruction in the result whose text is unambiguous, every kind of instruction", "why_tests_cant": "Ranges over all documents around every instruction.", "anchors": ["src/dockerfile_parser.pest: step, meta_step", "src/dockerfile_parser.rs: parse_dockerfile, Instruction::try_from"]}
{"id": "C52", "title": "Spans and strings compare in source order", "statement": "Span, SpannedString, SpannedComment, BreakableStringComponent, BreakableString and StringArray have total orders consistent with equality; parts of a parsed Dockerfile, none inside another, sorted by span are in the order of the source; strings, comments and breakable strings with different spans compare as their spans.", "quantifier": "all values of these types; every Dockerfile that parses, every choice of disjoint parts, every permutation of them", "why_tests_cant": "Order laws and sorting range over all values and permutations.", "anchors": ["src/splicer.rs: Span (derive Ord)", "src/util.rs: SpannedString, SpannedComment, BreakableStringComponent, BreakableString, StringArray (derive Ord)"]}
{"id": "C53", "title": "Breakable strings built by hand", "statement": "A BreakableString made with new and any sequence of add, add_string and add_comment calls has the span it was made with and as components exactly what was added, in that order; it displays the added strings, one after the other, without the comments. The conversion from a position and a text gives one string at that position.", "quantifier": "every sequence of calls", "why_tests_cant": "Any number of calls in any order.", "anchors": ["src/util.rs: BreakableString::new, add, add_string, add_comment, iter_components, Display, From"]}
{"id": "C54", "title": "Displayed stage parents", "statement": "A stage parent that is a stage is displayed as a decimal number without leading zeros with which Stages::get finds that stage; scratch as scratch; an image as the text of the FROM image. Different stage numbers are displayed differently.", "quantifier": "every Dockerfile and every stage of it", "why_tests_cant": "Any number of stages.", "anchors": ["src/stage.rs: Display for StageParent, Stages::get"]}
{"id": "C55", "title": "The stages program lists everything", "statement": "examples/stages.rs prints for a file that parses one indented line for each instruction from the first FROM on, in the order of the file, and directly before each FROM one heading with its number; nothing else.", "quantifier": "every file that parses, however it is read; every Debug output without line feeds", "why_tests_cant": "Any number of stages and instructions.", "anchors": ["examples/stages.rs: wrap", "src/dockerfile_parser.rs: Dockerfile::iter_stages"]}
{"id": "C56", "title": "Parsing is compositional for any document", "statement": "For any two texts a and b, well formed or not: if a does not end in a line continuation (not even followed by blank and comment lines) nor in a comment directly after the first word of a line or after ENV and a name, and no quote in a that may begin a string (after a blank, a newline, =, [ or a comma) is closed only in b, then the text made of a, a newline and b parses exactly if a and b both do; the result is that of a followed by that of b with spans and FROM indices shifted (global arguments as in C46); and its error is determined by the two errors: a syntax error if either text has one, otherwise the error of the first that has one.", "quantifier": "every pair of valid UTF-8 texts that meets the lexical conditions, every newline", "why_tests_cant": "Relates three parses over all pairs of texts, including malformed ones.", "anchors": ["src/dockerfile_parser.pest: dockerfile, meta_step, arg_ws, any_breakable", "src/dockerfile_parser.rs: parse_dockerfile"]}
{"id": "C57", "title": "Blank and comment lines can be put into any document", "statement": "At a line break of any text, after a part as in C56, blank lines and comment lines can be inserted or removed: the text parses exactly if it did before, with the same error if not, and the result is the same up to shifting all offsets behind the insertion. In particular a newline at the end of the text makes no difference.", "quantifier": "every valid UTF-8 text, every line break in it that meets the lexical conditions, every list of blank and comment lines", "why_tests_cant": "Relates two parses over all texts and all insertions.", "anchors": ["src/dockerfile_parser.pest: dockerfile, meta_step, comment, NEWLINE"]}
{"id": "C58", "title": "How line ends are written makes no difference", "statement": "Take a document that parses and write its line ends differently (LF, CR LF or CR, each one independently). Unless a quoted string extends over a line end, the new document parses to the same instructions with the same contents, and every span moves to where its text now stands; when LF becomes CR LF throughout, every offset grows by the number of line ends before it. Whether a document is rejected as ungrammatical never depends on line ends. Inside quoted strings it does make a difference: a LABEL value with an escaped line break is accepted with LF and rejected with CR LF.", "quantifier": "every document, every choice of line ends, every behaviour of the unescaping crate", "why_tests_cant": "Line ends occur in every rule of the grammar (continuations, comments, gaps, between instructions); the number of ways to mix them grows exponentially.", "anchors": ["src/dockerfile_parser.pest: NEWLINE (built in), arg_ws, any_breakable, comment_line", "src/util.rs: clean_escaped_breaks", "src/dockerfile_parser.rs: Dockerfile::parse"]}
{"id": "C59", "title": "Whole lines can be replaced", "statement": "Replace the text between two line breaks of a document that parses by other text. If the new text parses on its own, the whole parses; the instructions before are unchanged, in between stand exactly those that the new text gives on its own, and those behind only move (offsets and FROM numbers). If the new text does not parse on its own, the whole is rejected with the same error. The splicer can make such a replacement from the start of one instruction to the end of another.", "quantifier": "every document that parses, every pair of line breaks in it that meet the lexical conditions of C56, every replacement text", "why_tests_cant": "Ranges over all documents and all replacements; the claim is about the whole of what the edited document parses to.", "anchors": ["src/dockerfile_parser.rs: Dockerfile::parse", "src/splicer.rs: Splicer::splice", "src/dockerfile_parser.pest: dockerfile, meta_step"]}
{"id": "C60", "title": "Later instructions do not change earlier stages", "statement": "Add instructions (or a whole document) behind a document: every stage it had keeps its index, name, parent, root and instructions; only the last one gains the instructions before the next FROM; each further FROM adds one stage; a name that was found is found at the same index, even if a later stage has the same alias.", "quantifier": "every document, every list of instructions or text behind it", "why_tests_cant": "Relates the stages of two documents of any length.", "anchors": ["src/stage.rs: Stages::new, Stages::get_by_name"]}
{"id": "C61", "title": "Empty lines after a line continuation: skipped between parts, fatal inside a command text", "statement": "Docker skips empty lines after a line continuation (with a warning). Between the parts of an instruction so does this parser. But a RUN, CMD or ENTRYPOINT shell command, the value of ENV in its one-name form, or the arguments of an instruction that is not interpreted, in which a line continuation is directly followed by an empty line or by the end of the text, makes the parser reject the whole document.", "quantifier": "every such command text, with any lines before and after, anywhere in a document", "why_tests_cant": "Ranges over all command texts and documents.", "anchors": ["src/dockerfile_parser.pest: any_breakable, any_content, arg_ws, run_shell, cmd_shell, entrypoint_shell, misc_arguments"]}
{"id": "C62", "title": "The image of a parsed FROM is resolved against the global ARGs of its document", "statement": "For a FROM of a parsed document, resolving the variables of its image gives what Docker's rule gives: every variable mentioned in the image text is replaced by the value of the last global ARG of that name that has one, recursively; the answer is None exactly if some variable that is reached has no value (or the chain of replacements is too deep), and otherwise the image reference of the replaced text together with exactly the variables reached. An image without a dollar sign is resolved to itself. Variables that are not reached and lines behind a document that has a FROM make no difference.", "quantifier": "every document, every FROM in it, every behaviour of the unescaping crate", "why_tests_cant": "Ranges over all documents and all sets of definitions, including definitions that refer to each other.", "anchors": ["src/image.rs: ImageRef::resolve_vars_with_context, ImageRef::resolve_vars, substitute", "src/dockerfile_parser.rs: Dockerfile::global_args", "src/instructions/from.rs: FromInstruction"]}
{"id": "C63", "title": "A string's content is its text, unquoted if and only if it was written quoted", "statement": "Every string that a parsed instruction offers (names and values of ARG, LABEL and flags, aliases, paths, array elements, uninterpreted names) has the text at its span as content if that does not begin with a quote, and otherwise what the unescaping crate makes of that text (in LABEL after escaped line breaks are removed). Quotes around a text without backslashes just go away. The value of an ENV variable that is written as a quoted string is one component, the unescaped string.", "quantifier": "every document, every string in it, every behaviour of the unescaping crate", "why_tests_cant": "Ranges over all documents and every place in which a string can stand.", "anchors": ["src/util.rs: parse_string, clean_escaped_breaks", "src/instructions/env.rs: parse_env_pair, parse_env_single", "src/instructions/arg.rs", "src/instructions/label.rs"]}
{"id": "C64", "title": "A document written from data is read back as that data", "statement": "Write instructions one per line from plain data (images, names, values, paths, argument lists, one-line commands), with every free text between double quotes and with quotes and backslashes escaped. The parser accepts the document and offers exactly that data, in that order; so different data is written differently. Behind another document that meets the conditions of C56 the same holds, and that document's own instructions stay as they were. Free texts may contain anything but the characters 0 and 31. One exception: in a LABEL a backslash in front of a line feed is not read back.", "quantifier": "every list of commands of any length, every free text", "why_tests_cant": "A round trip over all texts; the grammar, the unescaping and the removal of escaped line breaks have to agree on every one.", "anchors": ["src/dockerfile_parser.rs: Dockerfile::parse", "src/dockerfile_parser.pest", "src/util.rs: parse_string, clean_escaped_breaks", "src/instructions/*.rs"]}
{"id": "C65", "title": "A syntax error is reported where it is", "statement": "The position in the error for a document that is not accepted lies in the text, at the beginning of a character or at the end (so the parser can always make a line and a column of it). The error names at least one rule; rules named as expected do not match what follows the position, rules named as unexpected do. Cut any text in two at a line break that meets the conditions of C56: a syntax error in the first part is reported there, not behind it, whatever the second part is. If the first part has none, one in the second part is reported at the position at which it is reported for the second part alone, moved by the length of what is in front, and with the same expected and unexpected rules, except that for an error at the very first position of a text the rule named is that of the whole document. The position is exactly the furthest one at which a grammar rule was tried in vain (failed, or within a negative lookahead matched) anywhere in the parse, and the rules named are exactly those tried in vain there, where a rule stands for the rules tried in vain within it at the same place unless that is just one, which is then named in its stead.", "quantifier": "every text, and every text cut in two at a line break", "why_tests_cant": "The position is the furthest one that was tried anywhere in a backtracking parse; that nothing is tried behind the offending line holds for every text or not at all.", "anchors": ["src/dockerfile_parser.rs: Dockerfile::parse", "src/error.rs: Error::ParseError", "src/dockerfile_parser.pest"]}
{"id": "C66", "title": "What is rejected although its syntax is accepted", "statement": "For a document, only the quoted strings that the parse result shows matter to unescaping: flag values, paths, the value of an ARG, label names and values (without their escaped line breaks), elements of exec forms that begin with a quote, and quoted values of ENV. If one unescaping function gives a parse result, any other that agrees with it on these texts gives the same result; one that accepts less gives the same result exactly if it accepts all of them, and otherwise UnescapeError. A stricter unescaping function changes nothing else: any other outcome stays as it is. A comment between RUN, CMD or ENTRYPOINT and the command is never accepted: the outcome is a syntax error or the generic error about an unexpected comment, whatever the command and whatever follows. A FROM with any flags and an image whose digest is not accepted gives a syntax error or the generic error about the digest, whatever follows.", "quantifier": "all texts, all unescaping functions, all gaps with a comment, all images with a digest that is not accepted, all text that may follow", "why_tests_cant": "It excludes hidden uses of unescaping anywhere in the parser and says of infinitely many documents that they are rejected, and why.", "anchors": ["src/util.rs: parse_string, parse_string_array", "src/instructions/label.rs: Label::from_record", "src/instructions/env.rs: parse_env_pair, EnvInstruction::from_single_record", "src/instructions/from.rs: FromInstruction::from_record", "src/instructions/run.rs: RunInstruction::from_record", "src/error.rs: Error"]}
{"id": "C67", "title": "Exec form exactly for lists of quoted strings", "statement": "In a document that parses, the command of RUN, CMD or ENTRYPOINT is given in exec form exactly if the text at its place begins with a list of quoted strings between brackets (gaps anywhere, one comma at the end allowed); otherwise it is given in shell form. A one-line command that does not begin with a list is read as a shell command with exactly that text, even if it begins with a bracket and a quoted string, as in [ \"$x\" = 1 ] && y. A command that begins with a list and goes on after it, as in [ \"a\" ] && y, which Docker runs by a shell, is not read as a shell command: the whole document is rejected, wherever the command stands.", "quantifier": "every document that parses and every RUN, CMD and ENTRYPOINT in it; all lists, all texts after them, all documents around them", "why_tests_cant": "The boundary between the two forms runs through infinitely many texts, with quotes, gaps, comments and lists of every length.", "anchors": ["src/dockerfile_parser.pest: run, run_exec, run_shell, cmd, entrypoint, string_array", "src/instructions/run.rs: RunInstruction::from_record", "src/instructions/cmd.rs: CmdInstruction::from_record", "src/instructions/entrypoint.rs: EntrypointInstruction::from_record"]}
{"id": "C68", "title": "Texts that are rejected as no Dockerfile", "statement": "The following give a syntax error, whatever text follows: a line that begins with something that is neither a letter nor #; an instruction name with nothing after it on its line; FROM with any flags and an image that is followed neither by the end of the line nor by AS, a name and the end of the line; ARG and a name that is followed neither by the end of the line nor by = and a value that is not empty and ends the line; ENV and LABEL with any number of name=value pairs and then something that is no such pair; ENV and LABEL with a name alone; ENV with no name; ENV and LABEL with = and no value, or with a quoted value that goes on directly after the closing quote. Such a text is rejected too where it begins in the middle of a document (C56).", "quantifier": "all images, flags, names, values, pairs, gaps and all following text", "why_tests_cant": "A parser that backtracks may find an unintended reading for some texts of a shape; that none is found for any text of these shapes needs an argument over all of them.", "anchors": ["src/dockerfile_parser.pest: from, arg, env, env_pairs, env_single, label, label_pair, label_single, misc, meta_step, dockerfile", "src/dockerfile_parser.rs: Dockerfile::parse"]}
{"id": "C69", "title": "The accepted documents and what they mean, exactly", "statement": "A text is accepted if and only if it can be divided, line by line, into blank lines, comments and instructions in the way described in SpecExact.v, where gaps and words go as far as they can, a quoted string is preferred to a word, a list of strings to a shell command, a flag to a path, and an instruction with a syntax of its own to one with any name. The result is then the instructions of that division, with every field and span, the FROM instructions numbered from 0, the ARG instructions before the first FROM as global arguments, and the text itself; any other result is wrong. No text can be divided in two ways that differ in any field.", "quantifier": "all UTF-8 texts, all results, all behaviours of the unquoting function", "why_tests_cant": "It is a statement about every accepted and every rejected text at once: soundness and completeness of the whole parser against an independent description.", "anchors": ["src/dockerfile_parser.pest: every rule", "src/dockerfile_parser.rs: Dockerfile::parse, parse_dockerfile", "src/instructions/*.rs: from_record", "src/util.rs: parse_string, parse_string_array"]}
{"id": "C70", "title": "Which error is reported, exactly", "statement": "A syntax error is reported if and only if the text cannot be divided into blank lines, comments and instructions as in C69, where quoted strings may contain anything, an image may have any digest, and comments may stand before the command of RUN, CMD and ENTRYPOINT; this does not depend on how strings are unescaped. A text that can be divided so is either accepted or gives the error of the first line that has one. The error of an instruction is: an invalid digest, if it is a FROM whose image has a digest that is not accepted and whose flags all unescape; an unexpected comment, if it is a RUN, CMD or ENTRYPOINT with a comment before the command, whatever follows; otherwise the failure to unescape a quoted string. These cases exclude one another and no text gives two errors.", "quantifier": "all UTF-8 texts, all errors, all behaviours of the unquoting function", "why_tests_cant": "It ranges over all rejected texts and says of each which of the errors it gives; a test can only look at a few, and several errors in one text compete.", "anchors": ["src/dockerfile_parser.rs: Dockerfile::parse, parse_dockerfile", "src/error.rs: Error", "src/instructions/from.rs: FromInstruction::from_record", "src/instructions/run.rs: RunInstruction::from_record", "src/instructions/cmd.rs: CmdInstruction::from_record", "src/instructions/entrypoint.rs: EntrypointInstruction::from_record", "src/util.rs: parse_string", "src/dockerfile_parser.pest: every rule"]}
{"id": "C71", "title": "What an error says", "statement": "The text of a generic error of the parser is one of two fixed sentences, each shown for its own cause; the kind of an error of parse or from_reader can be told from its text whatever the texts of the underlying errors; a failed conversion names the type asked for.", "quantifier": "every input, every stream of reads, every instruction and every text of an underlying error", "why_tests_cant": "All inputs that fail, and all texts the underlying errors can have.", "anchors": ["src/error.rs: Error, unexpected_token", "src/instructions/*.rs: from_record, try_from", "src/dockerfile_parser.rs: from_reader"]}
{"id": "C72", "title": "A span's debug text tells the span", "statement": "The debug text of a span is its start and its end in decimal, in this order; two spans with the same debug text are the same span.", "quantifier": "every two spans", "why_tests_cant": "All pairs of numbers.", "anchors": ["src/splicer.rs: impl Debug for Span"]}
{"id": "C73", "title": "Parts that lie inside one another: edits from the inside out are safe, the other way round they are not", "statement": "Splice parts of a parse result in any nesting and any order, with repetitions, but never a part after one that contains it. No call panics, the text stays valid, and it differs from the original only at the outermost parts spliced. If no text is given for a part at which nothing was left, the text is the original with each part that no later splice contains replaced by its text. A part that is spliced after a part that contains it is looked for at the old distance from the end of the containing part, whatever stands there by then (at the old place, if both start at the same place): this can change the text of another instruction, or panic.", "quantifier": "every document, every set of nested parts, every order of splices, every replacement text", "why_tests_cant": "All histories of splices over all nestings of spans; a test sees one.", "anchors": ["src/splicer.rs: Splicer::splice", "src/splicer.rs: Span::adjust_offsets"]}
{"id": "C74", "title": "Replacing a word after an equals sign changes the word and nothing else", "statement": "In an accepted document take a word directly after an equals sign, without blanks, line breaks, quotes, backslashes and two control characters and not beginning with a backtick, that is not in a quoted string. Replace it by any other such word. The document is still accepted, and its parse result is the old one with the new word in the strings around it and the offsets behind it moved; instruction kinds, their number, their order, all other strings, comments and image references are the same. In particular the default of an ARG, the value of a flag, of a label or of a variable that is read from the document and spliced is read back as the new text. A document that is rejected for its syntax is rejected whatever the word is.", "quantifier": "every document, every place in it after an equals sign, every two such words", "why_tests_cant": "The parser decides between alternatives by what follows in the text, so that a change of one word could change how any later text is read; tests see a few words in a few places.", "anchors": ["src/dockerfile_parser.pest", "src/dockerfile_parser.rs: Dockerfile::parse", "src/splicer.rs: Splicer::splice", "src/instructions/arg.rs", "src/instructions/env.rs", "src/instructions/label.rs"]}
{"id": "C75", "title": "Only which names are equal matters for the stages", "statement": "If in two Dockerfiles the same images refer to the same earlier aliases (up to letter case) and the same images are scratch, their stages are the same: as many, with the same indices, parents and roots, where a parent or root that is an image is the image of the same FROM in both. So renaming aliases together with the images that refer to them, by a renaming that confuses no two of the names used nor scratch, changes only the names, and each stage is found under its new name where it was found under the old one; changing letter case changes nothing; rewriting images with the splicer and parsing again keeps the stages, if each new image refers to the same stage as the old one or to none.", "quantifier": "every two Dockerfiles, with any number of stages and any other instructions; every renaming", "why_tests_cant": "Stages refer to one another by name, and any of the unboundedly many pairs of names may be equal or not.", "anchors": ["src/stage.rs: Stages::new, Stages::get_by_name, StageParent", "src/dockerfile_parser.rs: Dockerfile::stages", "src/splicer.rs: Splicer::splice"]}
{"id": "C76", "title": "A resolved image needs no further resolving, unless it has a stray dollar sign", "statement": "The text that substitute returns contains a dollar sign exactly if the input, or the value of a variable reached from it, contains a dollar sign with which no reference begins. So if there is none, what resolve_vars returns for the image of a FROM has no dollar sign, and resolving it again, against any Dockerfile, returns it unchanged and uses no variable. With a stray dollar sign this fails: for ARG a=b and FROM $$a the result is $b, which is a reference again.", "quantifier": "every text, every map of variables, every depth limit; every Dockerfile that parses and every FROM in it", "why_tests_cant": "Values are put side by side with the text around them, and any of the unboundedly many combinations could form a new reference.", "anchors": ["src/image.rs: substitute, ImageRef::resolve_vars, ImageRef::resolve_vars_with_context"]}
{"id": "C77", "title": "Replacing a word of a command, of a COPY or of an unknown instruction", "statement": "Take a document that parses and a word in a RUN, CMD, ENTRYPOINT, COPY or unknown instruction, with a blank or newline before it and a blank, newline, backslash or quote, or nothing, after it. If neither it nor its replacement contains blanks, newlines, quotes, backslashes or the characters U+0000 and U+001F, nor begins with a bracket, a comma, a number sign, a back tick or two dashes, and the word is not in a quoted string, the edited document parses, and to exactly the same instructions: only the strings around the word contain the new word instead of the old one, and later offsets move by the difference. In particular Splicer::splice of any path of a COPY, source or destination, by such a word gives a document in which exactly that path is the new word. The name of an unknown instruction must not begin with from, arg, label, env or as.", "quantifier": "every document, every such instruction in it, every such word in it, every replacement word", "why_tests_cant": "The word can stand anywhere in unboundedly many documents, and any replacement could be read as a keyword, a flag, a list or a comment by one of the grammar's alternatives.", "anchors": ["src/dockerfile_parser.pest", "src/dockerfile_parser.rs: Dockerfile::parse", "src/splicer.rs: Splicer::splice", "src/instructions/copy.rs: CopyInstruction", "src/instructions/run.rs: RunInstruction", "src/instructions/misc.rs: MiscInstruction"]}
{"id": "C78", "title": "Renaming a stage with the splicer", "statement": "In any document that parses, Splicer::splice of the alias of a FROM by another alias (letters, digits, - and _) gives a document that parses to exactly the same instructions, with only that alias changed and later offsets moved by the difference. The same holds for any number of images and aliases spliced in any order. So a stage can be renamed: if its alias and the images of all stages whose parent it is are spliced, in any order, by a name that no FROM has as alias or image (in any letter case) and that is not scratch, the result parses and has the same stages with the same parents and roots, including the same images; only this stage has another name and is found under the new one; every other name finds the stage it found before. An image of the same name before the stage is not a reference and stays.", "quantifier": "every document, every choice of FROMs, images and aliases, every order of the splices; every stage and every new name", "why_tests_cant": "The renamed aliases and references can stand in unboundedly many documents, in any number and order, and any two names may be equal up to letter case.", "anchors": ["src/dockerfile_parser.pest: from, from_alias, from_alias_outer", "src/splicer.rs: Splicer::splice, Span::adjust_offsets", "src/instructions/from.rs: FromInstruction", "src/stage.rs: Stages::new, Stages::get_by_name"]}
{"id": "C79", "title": "Changes of several kinds in one document", "statement": "In any document that parses, any number of changes can be made through one Splicer, in any order of the calls: other images and aliases in FROMs, other plain text after an equals sign (values of ARG, LABEL, ENV and flags such as --from), and other words in RUN, CMD, ENTRYPOINT, COPY and unknown instructions. Whether a change can be made is decided on the original document alone and does not depend on the others. If the spans do not overlap, the result parses, to exactly what the changes make of the parse result one after the other: every instruction keeps its kind and place; an instruction without a change only moves; the image and alias of each FROM are those given to it or else what they were. So a stage can be renamed everywhere at once, in its alias, in the FROMs that refer to it and in COPY --from flags, while other changes are made, and all stages keep their parents and roots.", "quantifier": "every document, every list of changes of these kinds at spans that do not overlap, every order of the splices; every stage and every new name", "why_tests_cant": "The kinds, places, numbers and orders of the changes can be combined without bound, and each change moves the text that the others refer to.", "anchors": ["src/splicer.rs: Splicer::splice, Span::adjust_offsets", "src/dockerfile_parser.pest: dockerfile", "src/dockerfile.rs: Dockerfile::parse", "src/stage.rs: Stages::new, Stages::get_by_name"]}
{"id": "C80", "title": "A value is replaced by another value, quoted or not", "statement": "The value of an ARG, a value of a LABEL or an ENV and a string of an exec form (RUN, CMD, ENTRYPOINT) can be replaced at its span through the Splicer, in any document that parses, whatever the old value is. The new text may be a quoted string, with blanks, quotes, escapes or line breaks in it, or (except in an exec form and in ENV without an equals sign) a word. If the lines before the instruction can be read on their own, and no quote in front is left open for the new text to close, then the changed text parses, to exactly the old result with the new value in that place and all offsets behind it moved; the global ARGs follow. All other instructions and values only move. In particular every string without NUL and unit separator characters can be put there by quoting it, and is what the program then reads (in a LABEL, also without a backslash in front of a line feed). An open quote in front, or a word in ENV without an equals sign, does change the reading of the rest.", "quantifier": "every document, every instruction in it with a value, every value of it, every new quoted text or word; every unescaping function", "why_tests_cant": "The old and new values, the other values of the instruction and the text around them are unbounded, and a quote can be closed arbitrarily far away.", "anchors": ["src/splicer.rs: Splicer::splice", "src/dockerfile_parser.pest: arg, label, env, run_exec, cmd_exec, entrypoint_exec, string_array, string", "src/instructions/arg.rs: ArgInstruction::from_record", "src/instructions/label.rs: LabelInstruction::from_record", "src/instructions/env.rs: EnvInstruction::from_record", "src/util.rs: parse_string, parse_string_array"]}
{"id": "C81", "title": "Values and other changes in several places, in any order of calls", "statement": "Any number of values (as in C80) and of the changes of C79 (images, aliases, plain texts after an equals sign, words) can be made through one Splicer, at places of one document that do not overlap, with the spans of the original parse and in any order of the calls. If no quote is open in front of a value and the lines before its instruction are whole, then no call fails, the resulting text parses, and the result is that of making the changes one after the other from the last place to the first. The number and the kinds of the instructions stay, and an instruction that no change is made in only moves. If all changes are values, the result is the original one with every value looked up among the new ones by its span, all at once, and all offsets moved; global ARGs too. Every string (as in C80) can be put at any number of such places by quoting it.", "quantifier": "every document, every set of places in it that do not overlap, every admissible new text for each, every order of the calls; every unescaping function", "why_tests_cant": "The number of changes, their order, the texts and the document are unbounded, and each change moves the places of all later ones.", "anchors": ["src/splicer.rs: Splicer::splice, SpliceOffset", "src/dockerfile_parser.rs: Dockerfile::parse, Dockerfile::splicer", "src/instructions/arg.rs: ArgInstruction::from_record", "src/instructions/label.rs: LabelInstruction::from_record", "src/instructions/env.rs: EnvInstruction::from_record", "src/util.rs: parse_string, parse_string_array"]}
{"id": "C82", "title": "Another name for an ARG, a label or an environment variable, in place", "statement": "Replacing through the Splicer the name of an ARG, of a label or of a variable of an ENV, at its span, by another name works: the splice does not fail, the resulting text parses, and the result is the original one with the new name at that place and every offset moved by the difference in length; global ARGs too. The other names of the instruction and all values keep their contents, and all other instructions only move. The name of an ARG may be replaced by a letter followed by letters, digits and underscores, the name of a variable by any letters, digits and underscores, the name of a label by any quoted text or by a word that does not look like a comment, a quote or a line continuation and behind which a blank, an equals sign or the end of the line comes; so every string can become the name of a label by quoting it. Required is that no quote is open in front of the name and that the lines before its instruction are whole.", "quantifier": "every document and every name of an ARG, label or variable in it, on any line and in any position, every admissible new text; every unescaping function", "why_tests_cant": "The document, the place and the new text are unbounded, and whether the new text is read as a name of its own depends on the text around it.", "anchors": ["src/splicer.rs: Splicer::splice", "src/dockerfile_parser.rs: Dockerfile::parse, Dockerfile::splicer", "src/instructions/arg.rs: ArgInstruction::from_record", "src/instructions/label.rs: Label::from_record, LabelInstruction::from_record", "src/instructions/env.rs: EnvInstruction::from_record", "src/dockerfile_parser.pest: arg_name, label_name, label_quoted_name, label_single_name, env_name"]}
{"id": "C83", "title": "Names, values and other changes in several places, in any order of calls", "statement": "Names of ARGs, labels and variables (as in C82), values (as in C80) and the changes of C79 (images, aliases, plain texts after an equals sign, words) can be made together, any number of them, through one Splicer, at places of one document that do not overlap, with the spans of the original parse and in any order of the calls. If no quote is open in front of a name or value and the lines before its instruction are whole, then no call fails, the resulting text parses, and the result is that of making the changes one after the other from the last place to the first. The number and the kinds of the instructions stay, and an instruction that no change is made in only moves. If only names and values are changed, the result is the original one with every name and every value looked up among the new ones by its span, all at once, and all offsets moved; global ARGs too. So the names and the values of the labels of a document can be replaced by arbitrary strings, by quoting them.", "quantifier": "every document, every set of places in it that do not overlap, every admissible new text for each, every order of the calls; every unescaping function", "why_tests_cant": "The number of changes, their order, the texts and the document are unbounded; each change moves the places of all later ones, and whether a new name is read as one depends on the text behind it, which may itself be changed.", "anchors": ["src/splicer.rs: Splicer::splice, SpliceOffset", "src/dockerfile_parser.rs: Dockerfile::parse, Dockerfile::splicer", "src/instructions/arg.rs: ArgInstruction::from_record", "src/instructions/label.rs: Label::from_record, LabelInstruction::from_record", "src/instructions/env.rs: EnvInstruction::from_record", "src/util.rs: parse_string, parse_string_array"]}
{"id": "C84", "title": "One more label or environment variable", "statement": "In a LABEL or ENV instruction whose pairs have an equals sign, a further pair can be written right after any of them, by splicing a blank, the name, an equals sign and a quoted value at the empty span at the end of that pair. If no quote is open there and the lines before the instruction are whole, the call does not fail, the new text parses, and the result is the original one with the new pair, its name and value with their spans, after that pair; the pairs after it and all later instructions are later by the length of the text written, the instruction is longer by it, and everything before is unchanged; global ARGs too. So any string can become the value of a new label or variable, and any string the name of a new label, by quoting it. Where the pair has no equals sign (ENV name value), the same call gives no further variable.", "quantifier": "every document, every LABEL or ENV in it, every pair of it, every admissible name and every quoted value; every unescaping function", "why_tests_cant": "The document, the number of pairs, the texts and the place are unbounded; whether the pair in front still ends where it did, and whether the gap behind it is still one, depends on the text written.", "anchors": ["src/splicer.rs: Splicer::splice, SpliceOffset", "src/dockerfile_parser.rs: Dockerfile::parse, Dockerfile::splicer", "src/instructions/label.rs: Label::from_record, LabelInstruction::from_record", "src/instructions/env.rs: EnvInstruction::from_record", "src/dockerfile_parser.pest: label, label_pair, env, env_pair, env_pairs"]}
{"id": "C85", "title": "Labels or environment variables taken out", "statement": "In a LABEL or ENV instruction with several pairs, any run of neighbouring pairs that does not begin with the first one can be taken out, by splicing an empty text at the span from the end of the pair before the run to the end of the last pair of the run. If no quote is open in front of it, the text in front of it does not end in a backslash, and the lines before the instruction are whole, the call does not fail, the new text parses, and the result is the original one without these pairs, with all offsets behind them earlier by the length of the text taken out; global ARGs and all other instructions too. If the text in front ends in a backslash the result can be a text that is rejected.", "quantifier": "every document, every LABEL or ENV in it with several pairs, every run of its pairs after the first; every unescaping function", "why_tests_cant": "The document, the number of pairs and the texts are unbounded; whether the pair in front still ends where it did depends on the text that comes next after the cut, which may be a line continuation, a comment or the end of the line.", "anchors": ["src/splicer.rs: Splicer::splice, SpliceOffset", "src/dockerfile_parser.rs: Dockerfile::parse, Dockerfile::splicer", "src/instructions/label.rs: Label::from_record, LabelInstruction::from_record", "src/instructions/env.rs: EnvInstruction::from_record", "src/dockerfile_parser.pest: label, label_pair, env, env_pair, env_pairs"]}
{"id": "C86", "title": "Labels or environment variables taken out in front of another one", "statement": "In a LABEL or ENV instruction with several pairs, any run of neighbouring pairs that does not end with the last one, the first pair included, can be taken out, by splicing an empty text at the span from the start of the first pair of the run to the start of the pair behind it. If no quote is open in front of it, the pair behind it does not begin with a number sign or a backslash, and the lines before the instruction are whole, the call does not fail, the new text parses, and the result is the original one without these pairs, with all offsets behind them earlier by the length of the text taken out; global ARGs and all other instructions too. If the pair behind it begins with a number sign, it can become a comment and be lost.", "quantifier": "every document, every LABEL or ENV in it with several pairs, every run of its pairs before the last; every unescaping function", "why_tests_cant": "The document, the number of pairs and the texts are unbounded; whether the pair behind the cut still begins where it did depends on the text in front of it, which may be spaces, a line continuation or a comment.", "anchors": ["src/splicer.rs: Splicer::splice, SpliceOffset", "src/dockerfile_parser.rs: Dockerfile::parse, Dockerfile::splicer", "src/instructions/label.rs: Label::from_record, LabelInstruction::from_record", "src/instructions/env.rs: EnvInstruction::from_record", "src/dockerfile_parser.pest: label, label_pair, env, env_pair, env_pairs"]}

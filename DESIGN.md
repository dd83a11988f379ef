# Formal model of waterbear: design

Subject: `wtetzner/waterbear` (assembler / disassembler for the Dreamcast VMU), sources in `/repo`.
Prover: Coq 8.16.1. Everything lives in `rocq/theories`, logical name `Verif`.

## 1. Shape of the model

* Small total computable functions over `Z`, `list Z` (bytes), `string` (ASCII text) and records.
  `&mut` parameters become returned values.
* Outcomes are data: `Ok v | Err e | Panic | Diverge`. `Panic` stands for every Rust panic
  (index out of bounds, `unwrap` on `None`, checked-arithmetic overflow, explicit `panic!`);
  `Diverge` is produced only by fuelled functions and never silently turned into success.
* Rust integer overflow depends on the build profile. The model is parameterised by
  `Debug` (overflow panics) and `Release` (two's complement wrap-around); theorems are stated for
  both unless they say otherwise.
* `HashMap`s are association lists with last-insert-wins lookup. Iteration order is never
  relied upon; for the loops that run over a hash map this is a theorem (C56).
* Spans/locations are kept in tokens (the parser groups tokens by line) and dropped from the AST;
  error values keep their kind and the numbers/names they report, not their spans. `Span.v`, `SpanParser.v`,
  `SpanAsm.v` and `SpanInclude.v` model everything from the lexer to the image once more with all spans; erasing them gives
  the other model (C60-C63).
* Source text is a list of 8-bit characters; the theorems about text therefore speak about ASCII
  sources, and through C70 about the UTF-8 bytes of others. `to_lowercase` is ASCII lower-casing.

## 2. Files

| file | models |
|---|---|
| `Base.v` | results, build profiles, 32/64-bit arithmetic, byte-vector update, ASCII helpers |
| `Expr.v` | `src/expression.rs` expressions, evaluation, `src/env.rs` |
| `Bits.v` | `waterbear-instruction-derive/src/lib.rs`: pattern strings, bit ranges, encoder, decoder |
| `Instr.v` | `src/instruction.rs`: the instruction enum, patterns, operand evaluation, decode |
| `Ast.v`, `Asm.v` | `src/ast.rs` (`size`, `eval_cnop`), `src/asm.rs` (label/name/emission passes) |
| `Macro.v` | `src/asm.rs` macro expansion, `replace_macro_args` |
| `Lexer.v` | `src/input.rs`, `src/lexer.rs` |
| `Unicode.v` | the lexers on text in grapheme clusters |
| `Parser.v` | `src/parser.rs` |
| `Printer.v` | `Display` implementations |
| `Disasm.v` | `src/disasm.rs`, the disassemble command |
| `Order.v` | the loops over hash maps of `src/disasm.rs` and `src/img.rs`, with the iteration order as a parameter |
| `Include.v` | `src/asm.rs` 23-237: includes, from file names to images |
| `Cmd.v` | `src/lib.rs` 159-246: the icon and image commands |
| `Img.v`, `Vmi.v`, `Files.v`, `CHeader.v`, `Report.v` | the remaining small components |
| `Span.v` | the expression parser of `src/parser.rs`, `src/expression.rs` and the macros of `src/asm.rs`, with spans |
| `SpanParser.v`, `SpanAsm.v`, `SpanInclude.v` | lexing, parsing, headers, assembly and includes with spans |
| `Message.v` | `src/lib.rs` 562-1122: the places shown in an error message (without its heading) |
| `Spec*.v` | independent specifications (documentation tables, arithmetic, grammar, layout) |
| `*Proofs.v` | lemmas |
| `Props*.v` | property theorems only, each closed by `exact`, with `Print Assumptions` and examples |

## 3. What is modelled and how it is proved, per property

* C01-C04 (codec): the derive macro is modelled as a function of the pattern strings. Bit-level lemmas
  relate every range of the encoder/decoder to single bits; a computed check over the finite table
  of patterns shows that every operand bit occurs exactly once and that first bytes are disjoint and
  complete. The documentation table is transcribed separately (`SpecIsa.v`).
* C05-C07: operand evaluation against a mathematical specification of ranges and of the CPU's
  target computation.
* C08-C09: `eval` against an unbounded-integer semantics; overflow witnesses.
* C10-C19, C44 (`SpecAsm.v`, `PropsAsm.v`): `SpecAsm.v` says, statement by statement and without the passes of the
  assembler, at which address a statement stands (`addr`), which names are visible with which values
  (`visible`, `env_at`), and which bytes a statement stands for (`emits`); an image is what results from writing the bytes in order.
  `AsmProofs.v`-`AsmProofs3.v` treat sizes, operands and single statements, `AsmProofs4.v`-`AsmProofs6.v` the three
  passes by induction over the program (soundness: what is emitted is the specified image), `AsmProofs7.v`
  completeness (`well_formed` programs assemble, others are errors, not crashes) and `AsmProofs8.v` the
  consequences: length (C10), each byte from the last statement covering it (C11), labels and scopes
  (C13, C14), duplicates (C15), visibility of variables (C16), data (C17, C18), alignment (C19), and equality of
  announced and emitted sizes (C44). Refuted: C12 without its side conditions, forward-only alignment.
* C20 for whole programs (`SpecCase.v`, `PropsCase.v`): two file systems whose files differ in letter case only
  (outside strings) give the same outcome; files included as bytes or C headers must be alike.
* C20-C23 (`SpecLex.v`, `LexProofs*.v`, `PropsLex.v`): the specification lists the spellings of each token and the
  blanks and comments between them as inductive relations over the text; maximal munch is stated by what
  may follow. Each matcher is proved sound and complete for its token (`LexProofs2.v`, `LexProofs3.v`), the whole text by
  induction on its length. Positions are computed from the text before the token. Refuted: literals of 32
  unsigned bits (panic, characterised), the column of an error behind a skipped comment.
* C24 (`SpecParse.v`, `ParseProofs.v`): the Pratt parser against an inductive grammar with the documented levels; the
  grammar is proved unambiguous, and rejection is exactly the absence of a derivation.
* C46, C47 (`SpecLine.v`, `LineProofs*.v`): the same for lines and for whole programs with macro definitions. Refuted:
  that a macro definition must be closed.
* C25, C26, C48 (`SpecPrint.v`, `PrintProofs*.v`): printed text is shown to be spelled out of the tokens of the tree
  (`spelled`), so the lexer reads them back; the grammar then gives the same tree. `PrintProofs5.v`: everything
  that lexing and parsing produce is printable, except octal literals. Refuted: octal literals, operands that begin
  with `equ`, strings with quotes, `.text`/`.string`.
* C27-C30 (`SpecMacro.v`, `MacroProofs*.v`): macro expansion with an oracle stream of suffixes instead of UUIDs and fuel
  for recursion. The specification is a pair of inductive relations (`call_rel`, `list_rel`); soundness and completeness make it the
  meaning. Hygiene assumes that the drawn suffixes are distinct and not used by source labels. Termination for an
  acyclic call relation by well-founded induction; a recursive call never succeeds, for any fuel. Refuted:
  that recursion is detected, and what goes wrong for arguments that themselves mention parameters or macro labels.
* C31, C51 (`Include.v`, `SpecInclude.v`, `PropsInclude.v`): the pipeline from file names to images over an
  abstract file system that does not change during the run. `expands` says which lines replace which, over
  the final table of files; that table only grows, and a run repeated on a later table gives the same
  tokens. Statements follow from the grammar of programs when neighbouring lines are `separate`. Nesting is
  bounded by fuel; results do not depend on it, and a file that leads to itself never gets a result.
* C40 (`Files.v`, `SpecFiles.v`): sequences of requests, each with its own file system; `same_path` is the
  equivalence generated by repeated slashes, inner dots and a slash at the end.
* C32 (`Disasm.v`, `SpecDisasm.v`, `PropsDisasm.v`): the worklist algorithm with fuel. `stands` says where an
  instruction of the reference table stands in the binary, `goes` where control can go from there, `reach` is
  the inductive closure. An invariant over the graph and the rest of the worklist gives soundness and closure;
  the number of undecoded offsets bounds the rounds. Jumps behind `not1 ext,0` go to another memory and are
  not followed (refutation of the literal claim); discovery does not wrap around at 64 KiB (refutation).
* C34: the labels and instructions of the listing are, in order, those of the offsets (`emit_code`); label names
  are injective; a generated label below the end of the binary is a followed target (invariant of C32).
  Targets outside the binary are referenced but never defined (refutation).
* C33 (`DisasmProofs5-10.v`, `PropsRoundtrip.v`): the listing is followed along the offsets of the binary (`laid`):
  without overlaps every line stands at the offset it was printed for, so the names it defines have the values
  that the operands were computed from; with the soundness of the assembler (C12, C13, C44) the image agrees with
  the binary at each offset. The printed text reads back (C20, C48 lemmas) as the listing with names in lower
  case. `DisasmProofs10.v`: up to 64 KiB such a listing is `well_formed` exactly if its labels are defined, so by
  completeness of the assembler it assembles; `well_behaved` is a condition on the binary alone. Refuted: equal lengths, padding of partial blocks, the claim with overlaps, that a listing always assembles.
* C52: the worklist of n branches to the next address doubles in each round.
* C53, C54 (`DisasmProofs11.v`, `PropsListing.v`): by induction along the loop over the positions, where the remarks
  and the data lines come from; positions in remarks are stated as hexadecimal numerals (`hex_of`).
* C55 (`DisasmProofs12.v`, `PropsListing.v`): a second invariant of the discovery says that the recorded jumps are the
  steps of the discovered instructions, each recorded once, except some from `jmpf` behind `not1 ext, 0`.
* C35-C37, C39: (`Img.v`, `SpecImg.v`, `PropsImg.v`): the encoders over whatever pictures the decoders
  deliver (dimensions and a pixel function; decoding itself is outside). Floating point is the standard
  library's `SpecFloat` binary64. The grey level is bounded with Flocq's error lemmas
  (`GrayProofs.v`): black and white is right wherever the brightness is not exactly one half; at one half
  rounding decides (refutation). Palettes: invariant "the n-th new colour gets index n"; the
  statements are literal data, whose image is given by a general lemma (`data_assembles`).
* C50: eyecatch pixels in the three encodings.
* C41 (`CHeader.v`, `SpecHeader.v`, `PropsHeader.v`): the C blanks and comments are an inductive relation
  (`c_gap`); the header lexes to exactly its tokens; every `# define NAME ...` line becomes
  `NAME equ ...` and lines are neither joined nor split; a header of definitions parses to the
  constants, as does any assembly text with the same constants. "Ignores everything else" is false: other
  lines are passed on to the parser (refutation).
* C38 (`Vmi.v`, `SpecVmi.v`): the 108 bytes field by field, over any file contents, names, copyright and clock; the calls
  that panic (VMS file too short) are characterised.
* C42, C49 (`Report.v`, `SpecReport.v`): the quoted line as the text between line breaks around the offset; carets
  under the characters of a token, using the positions of C23. Refuted: the last line without line break, tokens that
  span lines.
* C43 (`SpecExpand.v`, `PropsExpand.v`): everything that lexing, including, parsing and macro expansion produce
  is printable except for an explicit list (`ordinary_statement`); printed statements read back without
  their comments (C48); comments never influence the image; the printed text has no includes or calls left, so
  the second run takes it as it is. The printed text is shown to be UTF-8 (`Utf8Proofs2.v`) if the comments are, which hold names of
  icon files. Each item of the list is necessary: one refutation each.
* C45 (`SpecIsa.v`, `MacroProofs.v`): `make_instr` against the documented forms: mnemonic and operand kinds.
* C56 (`Order.v`, `SpecOrder.v`, `OrderProofs.v`, `PropsOrder.v`): each loop over a hash map runs over an arbitrary
  permutation of its entries; maps built in different orders agree as maps because keys are distinct, and lists made
  of them are sorted before use.
* C57 (`SpecPattern.v`, `PatternProofs*.v`, `PropsPattern.v`): the derive macro for arbitrary patterns. The text of a pattern
  is an inductive relation; the ranges computed from eight bits are shown to give back each bit position
  (`layout`), and the generated encoder, matcher and extractors are compared bit by bit.
* C58 (`Cmd.v`, `SpecCmd.v`, `CmdProofs*.v`, `PropsCmd.v`): the statements of icons and sprites are comments and
  non-empty lists of numbers (`tidy`), so they are printable in the sense of C48, in UTF-8, and read back with or without
  a final line break; the layouts are those of C35-C37 and C50. For JSON the frames given to serde_json, which is external, are compared with
  the picture (the delays of frames are not in the model). Refuted: names with line breaks, pictures wider than 255.
* C59 (`SpecCrash.v`, `CrashProofs.v`, `PropsCrash.v`): the outcome `Panic` followed through the whole pipeline. Numbers: the
  lexer lemmas of C21 and C41; files that can be reached through includes are an inductive relation; statements from text
  have literals in range (`expanded_good`), so arithmetic fails only on overflow and C12 applies; macros never panic.
* C60 (`Span.v`, `SpecSpan.v`, `SpanProofs*.v`, `PropsSpan.v`): the parser and the evaluation with spans are shown equal to
  those without by erasure. A relation `marked` between tokens and expressions, like the grammar of C24 but with the place
  of each node, is proved of the parser; from it come the tokens of every part, the first name without a value, the
  division by zero. A syntax error is at the first token after which no completion exists. The message is put together
  from C23 and C49. Refuted: places of expressions with unary operators need not reach to the end.
* C61 (same files and `Message.v`, `SpecMessage.v`): `reached` is the chain of calls; each instruction of an expansion is
  traced to a body reached by exactly the calls behind it. Refuted: labels, and errors about parameters, name the call.
* C62 (`SpanParser.v`, `SpanAsm.v`, `SpanInclude.v`, `SpecPlaces.v`, `SpanParseProofs.v`, `SpanAsmProofs.v`, `SpanValid*.v`,
  `PropsPlaces.v`): the whole pipeline with spans, equal to the one without by erasure. Every function is shown to make
  places out of the ends of places it was given, for any property of locations; the lexers make true locations, and loading
  files only adds to the list. A true place can be quoted (C42), so the message is printed. Refuted: files of one byte.
* C63 (`SpecBlame.v`, `BlameProofs*.v`, `PropsBlame.v`): `faulty` says which statement and which part of it is at fault, from
  the program and the environments of C12; each pass is shown to fail only there, having passed everything before. Refuted:
  a label of a macro called twice is shown twice at the same place.
* C64 (`SpecData.v`, `DataProofs.v`, `PropsData.v`): `contents` says which bytes a data include stands for; the statements
  put in its place are literal data (as in C35-C37), which the expansion of macros keeps and which are placed by C11. Found by
  a mutation (bytes of included files taken modulo 128) that no earlier theorem noticed. Refuted: the path of an eyecatch.
* C65 (`SpecSyntax.v`, `SyntaxProofs.v` to `SyntaxProofs9.v`, `PropsSyntax.v`): the specification uses the grammar of C24, C46 and C47 and
  defines the first wrong token by what can be completed to a text of the grammar; it says nothing about the parser. The proofs
  go by parts: each function of the parser reads the longest text of a language, or stops at the first token where its language
  stops (`reads`, `finishes`, `stuck`), and these compose by sequence, choice by the first token, and lists. `C65_unique` and
  `C65_wrong` show that the specification names one token and only for wrong lines. Refuted: that every error has a place.
* C66 (`SpecWritten.v`, `WrittenProofs.v`, `PropsWritten.v`): one relation for each kind of line between the tokens and the statement
  with its places; expressions by the grammar of C24 and the places of C60. `C66_begins` and `C66_tokens` are readings of these
  relations. Found by mutations of the places of statements, which C62 (true places) and C63 (blame of a parsed program) allowed.
* C67 (`SpecReading.v`, `ReadingProofs.v` to `ReadingProofs4.v`, `PropsReading.v`): `wrong_text`, `wrong_c_header`, `wrong_lines`,
  `wrong_statements` and `unreadable` say what is wrong, in terms of the tokens of C23, the definitions of C headers of C41, the expansion of
  includes of C31, the contents of C64 and the wrong programs of C65; they follow the order in which a reader meets them. Found by
  a mutation (a sprite too tall shown at the start of the first file) that no earlier theorem noticed.
* C68 (`SpecCalls.v`, `CallProofs.v` to `CallProofs3.v`, `PropsCalls.v`): relations `list_at` and `wrong_list`, without fuel and without maps,
  say what a program stands for and what is wrong with it; parameters and labels are found by position in the definition, instructions by
  the reference of C45. Both directions are proved: an answer of the program is in the relation, and whatever is in the relation is the
  answer with enough fuel. Hence the answer is unique (`C68_one_answer`) and there is none only if every fuel is too little (`C68_endless`).
* C69 (`PropsFailure.v`): C67, C68 and C63 together, for `assemble_file` as a whole.
* C70 (`Unicode.v`, `SpecUnicode.v`, `PropsUnicode.v`): the lexers as they are written, over grapheme clusters (a parameter, as the
  crate `unicode-segmentation` is external), the white space of Unicode and byte slices that panic inside a character. A simulation along
  the clusters shows that they agree with the lexers on bytes of `Lexer.v` and `CHeader.v` where nothing is combined with ASCII characters.
* C71 (`Heading.v`, `SpecHeading.v`, `PropsHeading.v`): `print_error` with its headings and the tables of argument types in `make_instr`.
  The advice is compared with the forms of the reference (`SpecIsa.v`); numbers are read back from their digits, and headings are cut at
  characters that cannot occur in what stands before. Found on the way: the heading for a `.byte` or `.word` without items is broken into two
  lines after "The", and an unknown name in the speed of an icon is reported as "HashMap 'x' not found".
* C72 (`Main.v`, `SpecMain.v`, `PropsMain.v`): `run_command` after clap, as a function from a command and a system (files, pictures, clock, which
  files can be created, where writing fails) to the files written, the text on both streams and the exit code. All cases are brought to one
  shape (`run_shape`); the contents come from C33, C34, C38, C62 and C71. Found on the way: `image` uses `write` where the other commands
  use `write_all` (`C72_image_refuted`), and `image` and `vmi` crash on input that `icon` and the others report (`C72_unreadable`, `C72_vmi`).
* C73 (`SpecNames.v`, `PropsNames.v`): the names of the registers, of the bits of the PSW and of the operands of listed instructions, for
  `Disasm.v`. The specification lists the registers of the manual by address; the model builds its tables as the code does, by filling gaps (the code names
  0x11B and 0x11D twice, and the later names `t1lr` and `t1hr` win).
  Added because three wrong tables went through the theorems of C30 to C38 (see `seeded/LOG.jsonl`).
* C74 (`SpecLayout.v`, `LayoutProofs.v`, `PropsLayout.v`): marks of entry points, data lines and positions in listings. The loop of the
  disassembler is turned into a relation with one rule for each kind of piece (`pieces`), and the facts follow by induction on it.
* C75 (`SpecUtf8.v`, `Utf8Proofs.v`, `PropsUtf8.v`): UTF-8 from code points to bytes, against the table of byte ranges in `Files.v`. The
  specifications of C43, C58, C59 and C67 use this definition where they speak of text in UTF-8.

In `MANIFEST.json` the status `proved` means that the property is settled by the listed theorems. Where the
English statement is false of the code, the list holds a theorem ending in `_refuted` with the witness,
next to the exact statement that does hold, and the note says so.

## 4. Trusted base

* Coq's kernel (including `vm_compute`).
* `Print Assumptions` is issued below each theorem. The current output for every theorem is
  "Closed under the global context", except `C37_layout`, `C58_image`, `C64_placed`, `C67_data`, `C67_run` and `C69_explained`: through Flocq they use the real numbers of the
  standard library and with them `ClassicalDedekindReals.sig_not_dec`, `sig_forall_dec`,
  `FunctionalExtensionality.functional_extensionality_dep` and `Classical_Prop.classic`.
* Importing `lia`/ssreflect-related library files makes a whole-library listing also show the standard
  library's `Coq.ssr.ssrunder.Under_rel.*`; no theorem here uses them.
* The correspondence between `/repo` and the model, documented by line citations on each definition.

## 5. What is not modelled

* Reading/writing actual files, command line parsing, terminal colours, JSON metadata and the JSON formats
  of the image command, image decoding.
* Grapheme clusters are a parameter; only the lexers are modelled on them (C70).
* Memory exhaustion and stack depth (except where unbounded recursion is the finding).

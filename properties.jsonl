{"id": "C01", "title": "Encode then decode gives the instruction back", "statement": "Encoding a machine instruction whose operands fit their fields and decoding the resulting bytes yields the same instruction with the same operand values and consumes exactly the encoded bytes, no matter what bytes follow it.", "quantifier": "every instruction form, every in-range operand tuple, every byte string appended after the encoding", "why_tests_cant": "There are about a million encodable instructions and arbitrarily many suffixes; the encoder and decoder are both generated by a procedural macro out of the same pattern strings, so a shift mistake on one field of one form is only visible on particular operand values.", "anchors": ["src/instruction.rs: Instr, ByteValue::encode, ByteValue::decode", "waterbear-instruction-derive/src/lib.rs: gen_encode, gen_decode, byte_to_tokens"]}
{"id": "C02", "title": "Decode then encode reproduces the bytes", "statement": "Whenever decoding the head of a byte string succeeds, encoding the decoded instruction gives exactly the bytes that were consumed; the decoded operands are always inside their field ranges.", "quantifier": "every byte string", "why_tests_cant": "Decoding must be lossless for every opcode byte and every operand byte, which is a statement about the whole 24-bit space and not only about samples; reassembly of disassembled binaries depends on it.", "anchors": ["src/instruction.rs: Instr::decode, ByteValue", "waterbear-instruction-derive/src/lib.rs"]}
{"id": "C03", "title": "Decoding fails only on truncation", "statement": "Every non-empty byte string decodes to an instruction unless it is shorter than the instruction length determined by its first byte; in that case decoding reports nothing. The opcode space is covered completely and without ambiguity.", "quantifier": "every non-empty byte string", "why_tests_cant": "Completeness and non-overlap of 68 bit patterns over all first bytes is a global property of the table; the decoder would silently prefer the earlier arm on overlap.", "anchors": ["src/instruction.rs: Instr", "waterbear-instruction-derive/src/lib.rs: gen_decode, all_possible_opcodes"]}
{"id": "C04", "title": "Encoding agrees with the documented bit patterns", "statement": "The bytes emitted for each instruction form are those obtained by placing the operand bits in the pattern printed in the instruction reference, and no encoding is a prefix of the encoding of a different instruction.", "quantifier": "every instruction form and every in-range operand tuple", "why_tests_cant": "The documentation, the attribute strings and the macro-generated code are three independent descriptions; agreement is required on every operand bit.", "anchors": ["docs/instructions.md", "src/instruction.rs: Instr", "waterbear-instruction-derive/src/lib.rs"]}
{"id": "C05", "title": "Operands are range checked exactly, never truncated", "statement": "An immediate, bit-number, memory-address or 16-bit operand is accepted if and only if its value fits the unsigned field (0..7, 0..255, 0..511, 0..65535), the accepted value is unchanged, and otherwise assembly stops with an out-of-range error.", "quantifier": "every instruction form, every operand value representable as a 32-bit integer", "why_tests_cant": "The boundary lies at different powers of two for different forms; an off-by-one only appears on one value out of 2^32 for one operand kind.", "anchors": ["src/instruction.rs: eval, EvaluationError handling", "src/asm.rs: generate_bytes"]}
{"id": "C06", "title": "Relative branches reach the address written in the source", "statement": "If a branch with a relative operand assembles at address p, then the documented CPU rule (next instruction address plus sign-extended 8-bit offset; next instruction address minus one plus 16-bit offset modulo 65536) applied to the emitted bytes gives the target the source named; targets that cannot be reached are rejected with an error rather than encoded to a different place.", "quantifier": "every relative branch form, every instruction position, every target value", "why_tests_cant": "Positions and targets form an unbounded two-dimensional space with boundaries at both ends; only a proof covers sign extension and the minus-one convention for every distance.", "anchors": ["src/instruction.rs: rel8/rel16 evaluation", "docs/instructions.md: br, brf, callr"]}
{"id": "C07", "title": "Absolute 12-bit jumps and calls reach the address written in the source", "statement": "A jmp or call assembles only if the target shares its top four address bits with the following instruction, and then the documented rule (top bits of the next instruction address joined with the 12 encoded bits) gives the target; other targets are rejected.", "quantifier": "every position and every target value", "why_tests_cant": "The split encoding of bit 11 plus the page condition at 4096-byte boundaries has rare corner cases (instruction straddling a page).", "anchors": ["src/instruction.rs: abs12 evaluation", "docs/instructions.md: jmp, call"]}
{"id": "C08", "title": "Expressions evaluate to their arithmetic value", "statement": "An expression whose intermediate results fit in 32 bits evaluates to the value given by ordinary integer arithmetic (truncating division, bitwise operations on two's complement, upper/lower byte), with names replaced by their values; division by zero and unknown names are errors, reported for the first faulty operand from left to right.", "quantifier": "every expression tree and every environment", "why_tests_cant": "Expression trees are unbounded; tests only see particular shapes.", "anchors": ["src/expression.rs: Expr::eval"]}
{"id": "C09", "title": "Expression evaluation cannot crash the assembler", "statement": "Evaluating any expression returns a value or an error.", "quantifier": "every expression tree and every environment", "why_tests_cant": "Overflow needs particular extreme operands; a proof either excludes it or exhibits the witness. (False for the code as written in debug builds and for the minimum integer divided by -1; the witness and the exact condition under which it is true are proved.)", "anchors": ["src/expression.rs: Expr::eval"]}
{"id": "C10", "title": "The image is exactly as long as the furthest position reached", "statement": "A successful assembly returns a byte vector whose length is the maximum value the location counter takes after any statement (0 for no statements).", "quantifier": "every statement list that assembles", "why_tests_cant": "The size is computed in one pass and filled in another; the two passes agree on sizes only if every directive and instruction reports a size equal to what it writes, for all programs.", "anchors": ["src/asm.rs: assemble, compute_names, generate_bytes"]}
{"id": "C11", "title": "Every byte of the image comes from the last statement covering it, otherwise it is zero", "statement": "In a successful assembly, each byte of the image equals the byte emitted by the last statement (in source order) whose address range covers that offset, and is zero if there is none; statements appear at the location counter value obtained by adding the sizes of the preceding statements since the last origin change.", "quantifier": "every statement list that assembles, every offset of the image", "why_tests_cant": "Placement interacts with .org moving backwards and with alignment; only an induction over arbitrary programs covers all interleavings.", "anchors": ["src/asm.rs: assemble, generate_bytes", "src/ast.rs: Directive::size"]}
{"id": "C12", "title": "Assembly never crashes on a well-formed program", "statement": "For statement lists as the text front end produces them (lower-cased label names, non-negative literal alignments, non-zero cnop multiples) whose expressions do not overflow, assembling returns an image or an error: no out-of-bounds write, no missing-map-entry crash, no endless loop.", "quantifier": "every such statement list", "why_tests_cant": "The output vector is pre-sized and then indexed without checks, and local-label tables are looked up with unwrap; safety is a relational invariant between three passes.", "anchors": ["src/asm.rs: assemble, compute_labels, compute_names, generate_bytes", "src/env.rs", "src/ast.rs"]}
{"id": "C13", "title": "A label denotes the address of the statement that follows it", "statement": "In a successful assembly the value used for a label in any operand, data directive or variable definition is the location counter at the label's definition, both for forward and backward references.", "quantifier": "every statement list that assembles and every label in it", "why_tests_cant": "Label values are computed by a separate pass with its own size accounting; agreement with the emission pass is a property of all programs.", "anchors": ["src/asm.rs: compute_labels, generate_bytes", "src/env.rs"]}
{"id": "C14", "title": "Local labels are scoped to the preceding global label", "statement": "A reference to a dot-prefixed label resolves to the definition with that name between the nearest preceding global label and the next one; definitions under other global labels are never used; the same local name can be reused under different global labels.", "quantifier": "every statement list and every reference to a local label", "why_tests_cant": "Scoping is a statement about arbitrary interleavings of global and local definitions.", "anchors": ["src/asm.rs: compute_labels, generate_bytes, Names", "src/env.rs: NamesEnv"]}
{"id": "C15", "title": "Duplicate definitions are rejected", "statement": "Assembly fails with a name-already-exists error if two global labels, two variables, a label and a variable, or two local labels in one scope have the same name up to letter case; conversely if it succeeds the defined names are pairwise distinct in their scope.", "quantifier": "every statement list", "why_tests_cant": "Duplicates may be arbitrarily far apart and of mixed kinds.", "anchors": ["src/asm.rs: compute_labels, compute_names"]}
{"id": "C16", "title": "Variables see exactly the global labels and the earlier variables", "statement": "The value of a variable is its defining expression evaluated with all global labels of the program and the variables defined earlier; it never changes afterwards; a reference to a later variable is an error.", "quantifier": "every statement list that assembles", "why_tests_cant": "Dependence on definition order is a property over arbitrary programs.", "anchors": ["src/asm.rs: compute_names"]}
{"id": "C17", "title": "Data directives emit exactly the given values", "statement": ".byte emits one byte per argument equal to the value modulo 256 and accepts exactly -128..255; .word emits two bytes, low byte first, equal to the value modulo 65536 and accepts exactly -32768..65535; string arguments emit their bytes; other values are rejected.", "quantifier": "every argument list, every value", "why_tests_cant": "Range ends and little-endian split must hold for every value, not samples.", "anchors": ["src/asm.rs: generate_bytes", "src/ast.rs: Directive, ByteValue"]}
{"id": "C18", "title": "Fixed-length text is padded, never cut", "statement": ".text n emits exactly n bytes, the text followed by spaces; .string n emits exactly n bytes, the text followed by NULs; a text longer than n is an error.", "quantifier": "every length and every byte string", "why_tests_cant": "Lengths are unbounded.", "anchors": ["src/asm.rs: generate_bytes", "src/ast.rs: Directive"]}
{"id": "C19", "title": "Alignment and origin directives move the location counter as documented", "statement": ".cnop a, m (m > 0, a >= 0) moves the counter to a plus the least multiple of m that is not before the current position, .org sets it to its argument, and both emit nothing; an origin above 65535 is rejected.", "quantifier": "every position, addend and multiple", "why_tests_cant": "The search for the next multiple is a loop; its result is characterised for all inputs only by proof. The zero and backwards cases are corner cases tests do not hit.", "anchors": ["src/ast.rs: Directive::eval_cnop, Directive::size", "src/asm.rs", "docs/directives.md"]}
{"id": "C20", "title": "Names and mnemonics are case-insensitive", "statement": "Changing the letter case of identifiers in a program given as text changes neither whether it assembles nor the image.", "quantifier": "every source text and every case change outside string literals", "why_tests_cant": "Case folding happens at several places in the pipeline (lexer, environments, scopes); one missed place breaks it for particular programs only.", "anchors": ["src/lexer.rs: identifier matcher", "src/env.rs", "src/asm.rs", "src/expression.rs: Expr::eval"]}
{"id": "C21", "title": "Number literals denote their value in every radix", "statement": "A literal in hexadecimal ($, 0x), octal (0o), binary (%, 0b) or decimal notation, with optional ' digit separators, is read as one token whose value is the positional value of its digits.", "quantifier": "every digit string in every radix whose value fits 32 bits", "why_tests_cant": "Digit strings are unbounded; the interaction of prefixes (0b.. against 0x.., % against macro arguments) is by matcher order.", "anchors": ["src/lexer.rs: number matchers"]}
{"id": "C22", "title": "String literals survive escaping", "statement": "A string literal is read to the byte sequence its escapes denote, for any sequence of ordinary characters and escapes; the closing quote is the first unescaped quote.", "quantifier": "every string literal", "why_tests_cant": "Strings are unbounded and escapes interact with quotes and backslashes.", "anchors": ["src/lexer.rs: string matcher, clean_str"]}
{"id": "C23", "title": "Lexing accounts for every character and tracks positions correctly", "statement": "If lexing succeeds, the token spans in order together with the whitespace and comments between them make up the entire source text, tokens do not overlap, and the reported line and column of each token are those of its offset.", "quantifier": "every source text", "why_tests_cant": "Position tracking is incremental; drift can appear after any construct (CR LF, comments, multi-line strings).", "anchors": ["src/lexer.rs: lex, TokenStream", "src/input.rs: Input::update", "src/location.rs"]}
{"id": "C24", "title": "Operator precedence and associativity follow the documented grammar", "statement": "Parsing an expression yields the tree determined by the grammar: unary operators bind tightest, then * and /, then + and -, then & | ^, all left-associative, with parentheses overriding.", "quantifier": "every token sequence derivable from the expression grammar", "why_tests_cant": "The Pratt parser is driven by binding powers; correctness for all nestings is an induction over grammar derivations.", "anchors": ["src/parser.rs: parse_expr and prefix/infix parselets"]}
{"id": "C25", "title": "Printed expressions parse back to an equivalent expression", "statement": "Displaying an expression and parsing the text gives an expression with the same value in every environment.", "quantifier": "every expression as produced by the parser", "why_tests_cant": "Parenthesisation and radix formatting must be right for every tree. (False for octal literals, which print with a hexadecimal prefix; refuted with a witness and proved for the rest.)", "anchors": ["src/expression.rs: Display for Expr", "src/parser.rs", "src/lexer.rs"]}
{"id": "C26", "title": "Printed instructions parse back to the same instruction", "statement": "Displaying an instruction and parsing the text gives the same instruction form with equivalent operands.", "quantifier": "every instruction form with expression operands free of octal literals", "why_tests_cant": "68 forms times unbounded operands; the disassembler output relies on it.", "anchors": ["src/instruction.rs: Display for Instr", "src/parser.rs: make_instr"]}
{"id": "C27", "title": "Macro expansion leaves only plain statements and preserves everything else", "statement": "Successful expansion returns statements with no macro call, macro argument or macro label left; statements outside macro calls are unchanged and keep their order; a call is replaced by the body of the macro with that name and argument count with arguments substituted.", "quantifier": "every macro table and statement list for which expansion succeeds", "why_tests_cant": "Nested calls and unbounded bodies.", "anchors": ["src/asm.rs: replace_labels_in_statements, macro expansion", "src/expression.rs: replace_macro_args"]}
{"id": "C28", "title": "Labels inside macros are hygienic", "statement": "Labels created by different expansions of macros are pairwise different and different from every label written in the source, provided the generated unique suffixes are distinct and do not occur in the source.", "quantifier": "every macro table, every statement list, every stream of distinct fixed-length suffixes", "why_tests_cant": "Name collision freedom is a statement about all programs; tests see single expansions.", "anchors": ["src/asm.rs: gen_labels, replace_labels"]}
{"id": "C29", "title": "Macro expansion terminates when macros are not recursive", "statement": "If the call graph of the macro table is acyclic, expansion of any statement list finishes with a result or an error. (Recursion is not detected: a self-calling macro expands forever, which is proved as a finding.)", "quantifier": "every macro table and statement list", "why_tests_cant": "Termination over all call graphs is a well-foundedness argument.", "anchors": ["src/asm.rs: macro expansion"]}
{"id": "C30", "title": "Macro arguments are substituted simultaneously", "statement": "Replacing macro parameters in an expression replaces every parameter by the argument given in the call and nothing else; evaluation of the result equals evaluation of the body with the parameters bound to the arguments' values.", "quantifier": "every body expression, every argument list free of macro parameters", "why_tests_cant": "Trees are unbounded. (Arguments that mention a parameter of the same name make the replacement recurse forever: refuted with a witness.)", "anchors": ["src/expression.rs: replace_macro_args", "src/asm.rs"]}
{"id": "C31", "title": "Including a file twice includes its statements twice", "statement": "An include directive contributes the statements of the included file at that place each time it is executed.", "quantifier": "every pair of source files and include positions", "why_tests_cant": "Token grouping by line and file is global state between includes. (False when the same single-line file is included twice in a row; refuted with a witness.)", "anchors": ["src/parser.rs: LineIterator, process_includes, parse", "src/asm.rs"]}
{"id": "C32", "title": "The disassembler finds exactly the instructions reachable from the entry points", "statement": "Control-flow discovery terminates for every binary and entry point list, and an offset is marked as an instruction if and only if it is reachable from an entry point by fall-through, jumps, branches or calls of decodable instructions.", "quantifier": "every byte string and every list of entry points", "why_tests_cant": "Worklist algorithms terminate and are complete only by an invariant over the whole run.", "anchors": ["src/disasm.rs: build_instruction_graph, disassemble"]}
{"id": "C33", "title": "Disassembling and assembling again reproduces the binary", "statement": "If the disassembler output assembles and the discovered instructions do not overlap, the image equals the original binary up to the padding to a multiple of 512.", "quantifier": "every binary and entry point list meeting the stated conditions", "why_tests_cant": "It is a statement about all binaries connecting two large components. (The unconditional claim is false; conditions and witnesses are proved.)", "anchors": ["src/disasm.rs: disassemble", "src/asm.rs: assemble"]}
{"id": "C34", "title": "Every label mentioned in disassembly is defined", "statement": "Each code label referenced by an emitted instruction is defined exactly once in the output.", "quantifier": "every binary and entry point list", "why_tests_cant": "Targets may fall anywhere. (False for targets outside the binary; refuted with a witness, proved when targets are instruction starts.)", "anchors": ["src/disasm.rs: disassemble, labels"]}
{"id": "C35", "title": "Icon images decode back to the reduced picture", "statement": "For an icon of at most 16 colours, looking up each 4-bit pixel index of the emitted frames in the emitted palette gives the 4-bit-per-channel colour of that pixel.", "quantifier": "every picture of the permitted size with at most 16 colours", "why_tests_cant": "Pictures form a huge space; nibble order and palette order must agree everywhere.", "anchors": ["src/img.rs: to_icon, get_palette, to_palette_color"]}
{"id": "C36", "title": "Icon and eyecatch blocks have the exact prescribed size and header", "statement": "The emitted icon data has 32 palette bytes and 512 bytes per frame after the header fields (frame count, speed, eyecatch type, CRC, size), and the eyecatch block length is 0, 8064, 4544 or 2048 by type; wrong dimensions and too many colours are rejected.", "quantifier": "every list of frames, every speed, every eyecatch", "why_tests_cant": "Sizes must hold for all inputs because consumers of the file use fixed offsets.", "anchors": ["src/img.rs: to_icon, to_eyecatch", "src/asm.rs: icon include"]}
{"id": "C37", "title": "One-bit sprites decode back to the picture", "statement": "For a sprite include, bit (7 - x mod 8) of byte (y * ceil(w/8) + x/8) of the emitted image is the black/white value of pixel (x, y), padding bits have their prescribed value, and the header holds width and height.", "quantifier": "every picture with width and height at most 255", "why_tests_cant": "Widths not divisible by 8 and unbounded pictures.", "anchors": ["src/img.rs: to_1bit_asm", "src/asm.rs: sprite include"]}
{"id": "C38", "title": "VMI files carry the right fields", "statement": "The generated VMI is 108 bytes: description, copyright, timestamp, version, file number, resource name, file name, mode and size are at their documented offsets, strings are truncated or padded to their field, the checksum bytes are the resource name and'ed with SEGA, and the size field is the little-endian length of the VMS.", "quantifier": "every VMS content, names and timestamp", "why_tests_cant": "Field overlap and truncation for all string lengths.", "anchors": ["src/lib.rs: generate_vmi"]}
{"id": "C39", "title": "Colour reduction picks the nearest 4-bit level", "statement": "Scaling an 8-bit channel to 4 bits yields the level whose 8-bit expansion (times 17) is nearest; it is monotone, idempotent after expansion, and packing to ARGB4444 is invertible.", "quantifier": "every channel value and every colour", "why_tests_cant": "Nearest-level statements quantify over all levels and values.", "anchors": ["src/img.rs: scale_channels, to_palette_color"]}
{"id": "C40", "title": "Source files get stable, unique identities", "statement": "Loading the same path twice returns the same id and contents and reads it once; different paths get different ids; an id looked up later returns the file it was given for, whatever was loaded in between.", "quantifier": "every sequence of load operations", "why_tests_cant": "Histories are unbounded.", "anchors": ["src/files.rs: SourceFiles"]}
{"id": "C41", "title": "C header defines become constants", "statement": "Including a C header turns each '#define NAME expr' line into a constant definition equivalent to 'NAME equ expr' and ignores everything else including comments.", "quantifier": "every header text", "why_tests_cant": "Texts are unbounded, comments may hide defines.", "anchors": ["src/cheader.rs", "src/parser.rs: cpp include"]}
{"id": "C42", "title": "Error messages quote the right source line", "statement": "For a location inside a file, the quoted line is exactly the text between the surrounding line breaks and contains that offset.", "quantifier": "every file content and every offset", "why_tests_cant": "Ends of file, empty lines and one-byte files are corner cases.", "anchors": ["src/lib.rs: line_for_pos, start_of_line, end_of_line"]}
{"id": "C43", "title": "Expanded programs assemble to the same image", "statement": "The text printed by the expand command assembles to the same image as the original program.", "quantifier": "every program", "why_tests_cant": "Composition of printing with the whole front end. (False: octal literals, quotes and backslashes in strings, unquoted .text; refuted with witnesses.)", "anchors": ["src/asm.rs: expand_file", "src/ast.rs: Display", "src/expression.rs: Display"]}
{"id": "C44", "title": "Instruction sizes reported before assembly equal the bytes emitted", "statement": "The size used for layout equals the number of bytes emitted for every instruction and every directive, independent of operand values.", "quantifier": "every statement that assembles", "why_tests_cant": "Layout and emission are separate code paths for every form.", "anchors": ["src/instruction.rs: size", "src/ast.rs: Directive::size", "src/asm.rs: generate_bytes"]}
{"id": "C45", "title": "Mnemonic and operand shape select the unique instruction form", "statement": "A mnemonic with given operand kinds is accepted if and only if the instruction reference lists that form, and then the form is unique.", "quantifier": "every mnemonic string and every operand list", "why_tests_cant": "The selection table is a large match with arity and shape conditions; completeness against the reference is a statement over all shapes.", "anchors": ["src/parser.rs: make_instr", "docs/instructions.md"]}
{"id": "C46", "title": "A line parses exactly as the line grammar says", "statement": "A line of tokens is accepted if and only if the part before the end-of-file token is, by the grammar of labels, instructions, macro calls, directives and constants, a list of statements, and then the result is that list; the grammar is unambiguous and everything else is a reported error.", "quantifier": "every token sequence", "why_tests_cant": "The statement parser decides by looking ahead and by trying alternatives in turn; that this accepts exactly one grammar, for every token sequence, is an induction over parses.", "anchors": ["src/parser.rs: parse_line, parse_statement, parse_directive, parse_instr"]}
{"id": "C47", "title": "Programs are lines and macro definitions", "statement": "A token sequence parses to a program if and only if, grouped by line, it consists of statement lines and of macro definitions with distinct parameters and new names, and then the result holds exactly these statements and definitions. (An unclosed definition is accepted; refuted that it must be closed.)", "quantifier": "every token sequence", "why_tests_cant": "The scan keeps state across lines; its correctness is an invariant over programs of any length.", "anchors": ["src/parser.rs: LineIterator, parse_macros, parse_macro_header, parse_macro_statement, parse"]}
{"id": "C48", "title": "Printed programs parse back to the same statements", "statement": "The text printed for a list of statements whose expressions have no octal literals, whose strings have only characters that printing escapes correctly, and which contain no .text, .string or include directives, parses to the same statements without the comments. (Refuted for strings with quotes and for .text and .string.)", "quantifier": "every list of such statements", "why_tests_cant": "Statements, expressions and lists are nested without bound, and the result depends on how the printed pieces join up when lexed.", "anchors": ["src/ast.rs: Display for Statement, Directive, Statements, escape_string", "src/instruction.rs: Display", "src/expression.rs: Display", "src/asm.rs: expand_file"]}
{"id": "C49", "title": "The carets mark the token", "statement": "For every token that does not span lines, the message quotes the line it stands on and puts one caret under each of its characters; a point location gets one caret. (Refuted for tokens that span lines.)", "quantifier": "every text that can be split into tokens, every token of it", "why_tests_cant": "It joins the position bookkeeping of the lexer with the line search, for tokens anywhere in texts of any length.", "anchors": ["src/lib.rs: highlight_line, caret", "src/lexer.rs: lex_input"]}
{"id": "C50", "title": "Eyecatch pixels", "statement": "Of the eyecatch file the first picture is emitted after the icon frames: with at most 16 colours as a 16-entry palette and 4-bit indices, with at most 256 as a 256-entry palette and 8-bit indices, otherwise as ARGB4444 words; looking up each pixel gives its 4-bit-per-channel colour.", "quantifier": "every accepted icon, every 72x56 picture", "why_tests_cant": "Three encodings chosen by the number of distinct reduced colours; the palette order comes from a hash map, and every pixel of every picture is concerned.", "anchors": ["src/img.rs: to_icon, Image::to_icon, get_palette, eyecatch_type"]}
{"id": "C51", "title": "Relative include paths", "statement": "In an including file with an absolute name, a relative include path means the file in the same directory if there is one, otherwise the file at that path in the working directory if there is one, otherwise the missing file in the same directory. (Refuted for including files with relative names.)", "quantifier": "every file system, directory, file name and relative path", "why_tests_cant": "Paths are resolved twice, with several spellings of the same path and two places to look.", "anchors": ["src/files.rs: SourceFiles::path, SourceFiles::load", "src/asm.rs: replace_includes", "src/ast.rs: fixup_paths"]}
{"id": "C52", "title": "Discovery work is polynomial", "statement": "The number of positions the disassembler visits is bounded by a polynomial in the size of the binary. (Refuted: a binary of n conditional branches to the next address makes the worklist double in each round, to 2^n entries.)", "quantifier": "every binary and list of entry points", "why_tests_cant": "Ordinary binaries rarely have two steps to the same new position in one round; the growth needs a crafted family of inputs and an argument for all n.", "anchors": ["src/disasm.rs: build_instruction_graph"]}
{"id": "C53", "title": "Overlapping instructions are remarked on", "statement": "If an instruction of a listing begins within another one, the line of the other one is directly preceded by a remark that gives its position. Every such remark stands directly before an instruction and gives only positions of instructions that overlap with it. So a listing is free of overlaps exactly if it has no such remark. (Refuted: that both of the overlapping instructions get a remark.)", "quantifier": "every binary of up to 1 GiB and every list of entry points", "why_tests_cant": "Overlaps need jumps into the middle of instructions, at both possible distances and in both directions.", "anchors": ["src/disasm.rs: disassemble, find_overlaps"]}
{"id": "C54", "title": "Data lines", "statement": "The data lines of a listing give bytes of the binary with their offsets, in increasing order and each at most once; they never give a byte of an instruction, and every byte other than zero that belongs to no instruction is given. (Refuted: that zeros are always given.)", "quantifier": "every binary of up to 1 GiB and every list of entry points", "why_tests_cant": "Data is cut into chunks by length, by instructions and by runs of zeros, in any arrangement.", "anchors": ["src/disasm.rs: disassemble, byte_range, all_zeros"]}
{"id": "C55", "title": "Arrival comments", "statement": "With the option on, the comment of an instruction gives, in increasing order and without repetition, positions of instructions of the listing from which control can go there, and all of them except perhaps those of jumps to the other memory; there is no comment if there are none, and none with the option off. (Refuted: that jumps to the other memory are treated alike for every order of the entry points.)", "quantifier": "every binary of up to 1 GiB and every list of entry points", "why_tests_cant": "It depends on the set of jumps recorded during the whole discovery, with instructions visited several times and in any order.", "anchors": ["src/disasm.rs: disassemble, InstructionGraph::jump_to, build_instruction_graph"]}
{"id": "C56", "title": "Output does not depend on hash map order", "statement": "Listings and icon data are the same in every run on the same input, whatever the order in which hash maps deliver their entries.", "quantifier": "every binary, list of entry points, set of pictures and every iteration order of each of the seven loops over hash maps", "why_tests_cant": "The order is random in each run, and a dependence may show only for particular orders of particular entries.", "anchors": ["src/disasm.rs: disassemble, build_names, compute_labels, lift_instrs", "src/img.rs: Image::to_icon"]}
{"id": "C57", "title": "The derive macro is right for every bit pattern", "statement": "A pattern is accepted exactly if it spells a whole number of bytes; the generated encoder puts every operand bit where the pattern names it, the matcher accepts exactly the bytes that agree with the literals of the first byte, the extractors collect exactly the named bits, and both round trips hold. (Refuted: that agreeing with the first byte is enough for decoding and encoding to give the data back.)", "quantifier": "every pattern text with operand bits below 32, all operands and all data", "why_tests_cant": "There are infinitely many patterns; the existing instruction set exercises only some of the ways ranges can meet byte boundaries.", "anchors": ["waterbear-instruction-derive/src/lib.rs: tokenize_bit_pattern, bits_to_range, parse_bit_pattern, byte_to_tokens, all_possible_opcodes, ranges_to_extractors"]}
{"id": "C58", "title": "The texts of the icon and image commands assemble to the data", "statement": "The text printed by the icon command, saved in a file and assembled, gives the icon (header, palette, frames, eyecatch); the text printed or written by the image command in its assembly formats gives the sprites with headers, and in its JSON formats it hands the frames to the JSON writer pixel by pixel. The speed is any decimal number up to 65535. (Refuted: for file names with line breaks, and for pictures wider or taller than 255.)", "quantifier": "all pictures, arguments, speeds, formats and file systems", "why_tests_cant": "The data runs through two printers, the lexer, the parser and the assembler; a test checks single pictures only.", "anchors": ["src/lib.rs: run_command (icon, image)", "src/img.rs: to_icon, to_1bit_asm, ImageFormat::from"]}
{"id": "C59", "title": "What can crash the assembler", "statement": "Assembling a program gives an image or an error message, except when a number literal of 2^31 or more stands in one of the files, an include is left over when bytes are included, an icon speed or an expression overflows, an address leaves the 32-bit range, a .cnop leads backwards (with overflow checks), or a picture has no frames. The expand command crashes only for the reasons met while reading. (Refuted: that it always answers.)", "quantifier": "all file systems, programs, pictures, build profiles and drawn identifiers", "why_tests_cant": "Crashes hide in rare inputs; only a proof over all programs shows that the list of causes is complete.", "anchors": ["src/asm.rs: assemble_file, expand_file, read_statements, replace_includes, replace_byte_includes", "src/lexer.rs", "src/files.rs", "src/img.rs"]}
{"id": "C60", "title": "Errors in expressions point at the right place", "statement": "With the places of tokens kept, parsing and evaluation do the same as without. The place of each subexpression begins with its first token and, when it has no unary operators, ends with its last. A name without a value is reported at the first such name, a division by zero at a division whose right side is zero, a syntax error at the first token after which the text cannot be completed. The message for an unknown name shows the file, the line and columns and the carets exactly under the name. (Refuted: that the place of every expression reaches to its end.)", "quantifier": "all token lists, environments, source files and expressions", "why_tests_cant": "The place depends on the whole syntax tree; there are unboundedly many trees and errors.", "anchors": ["src/parser.rs: parse_expr, parselets", "src/expression.rs: Expr::eval, span", "src/location.rs", "src/lib.rs: highlight_line, caret"]}
{"id": "C61", "title": "Errors in macros name the calls", "statement": "Each instruction that comes out of a macro has the place of the instruction in the body and behind it the whole chain of calls that led there; names keep the place where they are written. An instruction a macro gets wrong is reported with this chain, every error of an expansion has a place taking part in it, and the message shows the place and then each call, the innermost first. (Refuted: labels, and errors about unknown parameters, name the call.)", "quantifier": "all macro definitions, calls and nesting depths", "why_tests_cant": "Macros nest to any depth and parameters pass through any number of calls.", "anchors": ["src/asm.rs: expand_macro", "src/expression.rs: replace_macro_args", "src/location.rs: Span::with_parent", "src/lib.rs: highlight_line_indented"]}
{"id": "C62", "title": "Every error of a run has its true places and can be printed", "statement": "With all places kept, reading, including, parsing, expanding and assembling give what they give without. If a run fails, the error has as many places as its message shows; each of them, and each macro call behind it, begins and ends in the text of a file that was read, with the line and column it has there. The message shows each of these places with the remark meant for it, and printing it does not crash. (Refuted for a file of a single byte: quoting its line crashes.)", "quantifier": "all file systems, source texts, include trees, macros and errors", "why_tests_cant": "Places pass through the lexer, both kinds of includes, the parser, nested macros and the passes of the assembler; there are unboundedly many ways through.", "anchors": ["src/asm.rs: assemble_file, replace_includes, replace_byte_includes, expand_macros, assemble", "src/parser.rs", "src/lexer.rs", "src/cheader.rs", "src/files.rs: SourceFiles", "src/lib.rs: print_error, highlight_line"]}
{"id": "C63", "title": "Errors of assembly point at what is wrong", "statement": "If assembling an expanded program fails, the error names a name that is defined twice, at its two definitions; or an offset or alignment of .cnop that is not a number; or the first variable without a value, at the part of its definition that has none; or, if no name and no variable is at fault, the first statement that cannot be emitted, at its first item or operand that cannot. Only programs that are not well formed are blamed, and every program that is not well formed is, unless it crashes the assembler. (Refuted: the two places of a name defined twice need not differ, when a macro that defines a label is called twice.)", "quantifier": "all programs, file systems, macros and build profiles, layouts below 2^31", "why_tests_cant": "The order of the passes and of operands decides which of several faults is told, for unboundedly many programs and combinations of faults.", "anchors": ["src/asm.rs: assemble, compute_labels, compute_names, generate_bytes", "src/instruction.rs: eval, encode", "src/expression.rs: eval"]}
{"id": "C64", "title": "Included data files stand in the image", "statement": "In a program that assembles, the bytes of a file included as bytes, and the icon or sprites of an included picture in the layout of C35-C37 and C50, lie in the image from the address of the directive on and take up exactly their length, except where something later is written over them. The other statements stay as they are. A file that cannot be read is reported with its path. (Refuted: that the path of an eyecatch is looked for beside the file that names it.)", "quantifier": "all programs, file systems, include trees, macros, pictures and build profiles", "why_tests_cant": "The bytes pass through expressions, macro expansion, two passes over addresses and the image writer; files and programs are unbounded.", "anchors": ["src/asm.rs: replace_byte_includes, assemble", "src/img.rs: to_icon, to_1bit_asm", "src/files.rs: load_bytes, SourceFiles::path"]}
{"id": "C65", "title": "Syntax errors point at the first line and token that is wrong", "statement": "If a program is refused by the parser, the error belongs to the first wrong line of the macro definitions or, if there is none, to the first wrong line outside of them; all lines before it of that kind are right. Within the line the place shown is the first token that cannot be right: what stands before it can be completed to a line, with it that is impossible. Otherwise the line has the right form and the place is the part that is wrong: the directive without values, the property with a wrong value, the unknown directive, the instruction with operands it does not take, the macro with the name of an instruction, the macro defined before (with the place of its first definition), the parameter that is none or given twice. There is only one first wrong token, and a line that has one is not a line. (Refuted: that every such error has a place.)", "quantifier": "all token lists, hence all source files", "why_tests_cant": "The first wrong token is defined by what could follow it, over all completions of the tokens before; lines and programs are unbounded.", "anchors": ["src/parser.rs: Parser::parse, parse_macros, parse_macro_header, parse_macro_statement, parse_line, parse_statement, parse_directive, parse_instr, parse_arg, parse_expr"]}
{"id": "C66", "title": "Statements stand where they are written", "statement": "The places kept with the statements of a parsed program are those of the tokens they were written with: a statement reaches from its first token to the end of its last value, operand or token (an include of a picture stands at the name of its file); every operand, value and property is written with the tokens between the commas, and every part of an expression has the place of the tokens it was written with, parentheses aside. The operands of an instruction are the operands written, in order. The definition of a macro stands at its name, and the lines of its body are kept like lines outside. Nothing else is kept, and nothing is left out.", "quantifier": "all token lists, hence all source files", "why_tests_cant": "The places of nested expressions, lists and macros depend on unboundedly many shapes of lines; a place that is wrong in one shape shows only in messages.", "anchors": ["src/parser.rs: Parser::parse, parse_macros, parse_macro_statement, parse_line, parse_statement, parse_directive, parse_include, parse_instr, parse_arg, parse_expr", "src/location.rs: Span::from"]}
{"id": "C67", "title": "Errors of reading point at the first thing that cannot be read", "statement": "If a program cannot be read, the error belongs to the first thing that is wrong, in this order: the main file is missing or is no UTF-8 text; its text is not made of tokens, and the place is where the last token before the wrong character ends; an include fails; the syntax of the joined program is wrong (C65); or included data is wrong. The include that fails is the first one, all lines before it expand; its file is missing or no UTF-8, its text is wrong, its first failing include is wrong in turn, it is a C header whose first wrong definition is shown at its first wrong token, or something stands behind the include, which is shown. The include of data that fails is the first one, and all before it have contents; its file is missing or not a picture, its icon has too many colours or the wrong size, its eyecatch is missing or of the wrong size, its speed has an error, its eyecatch is an expression, or its sprite is too large for its header; the last three are shown where they are written. The table of files returned with the error has the files read by then.", "quantifier": "all file systems, programs, nestings of includes, pictures (as the decoders give them) and both build profiles", "why_tests_cant": "Includes nest without bound, and that nothing before the error is wrong is a statement about all earlier lines, files and data.", "anchors": ["src/asm.rs: read_statements, replace_includes, replace_byte_includes", "src/files.rs: SourceFiles::load", "src/cheader.rs: lex_input", "src/lexer.rs: lex_input", "src/img.rs: to_icon, load_image"]}
{"id": "C68", "title": "Macro calls stand for their bodies, and a wrong call is reported at the first thing wrong", "statement": "A program is expanded exactly if each of its calls stands for something, and then to that: the body of the macro with that name and number of parameters, in order, with its own labels renamed by suffixes used once each, parameters replaced by the arguments of the call, instructions built from the replaced operands, calls in the body replaced in turn, and with the calls that led there behind the place of every instruction and expression, the innermost first; an argument used by itself keeps its place. An error is reported exactly if something is wrong, and then it is the first thing wrong, at its place: no such macro, other number of parameters (with the place of the definition), a label of the macro twice, a label or parameter it does not have, an argument that is no expression where one is needed, no such instruction, or not with these operands. There is at most one answer, and the only way to get none is that the expansion has no end; it never crashes.", "quantifier": "all programs, macros, nestings of calls, arguments, places and suffix generators", "why_tests_cant": "Calls nest without bound, and the places of a body depend on the whole chain of calls; that an error is the first one is a statement about everything before it.", "anchors": ["src/asm.rs: expand_macros, expand, gen_labels, make_argmap, replace_args, replace_expr", "src/location.rs: Span::with_parent"]}
{"id": "C69", "title": "Every failed assembly is explained", "statement": "Every error of assembling a file, with the places shown, has one of three explanations: the program cannot be read, for the first reason of C67; or it is read, and the first wrong macro call is wrong as in C68; or all calls are expanded as in C68, and the expanded program has the fault of C63 that the error names. The explanations are in this order: a wrong call is reported whatever else is wrong with the program that was read.", "quantifier": "all file systems, programs, pictures (as the decoders give them) and both build profiles; for the third, location counters below 2^31", "why_tests_cant": "It is a statement about all failing programs: no failure is without a cause in the source.", "anchors": ["src/lib.rs: assemble_file", "src/asm.rs: read_statements, expand_macros, assemble"]}
{"id": "C70", "title": "Source text that is not ASCII", "statement": "The lexers read text in grapheme clusters and skip the white space of Unicode. On ASCII text they give exactly the tokens, places, errors and crashes of the lexers on bytes that the other properties speak about. On text in which nothing is combined with an ASCII character (for instance letters with accents in comments and strings) the assembler's lexer gives the same tokens behind the same clusters: bytes and lines are the same, columns count clusters; the same numbers crash it, and without white space of Unicode the same text is refused at the same byte. Two things are not so: where a letter is combined with a mark (x with U+0301) lexing never ends, and a character that is not ASCII in a C comment /* */ of a header crashes the reading of the header.", "quantifier": "all texts, all segmentations into clusters that keep ASCII characters apart (CR LF excepted), all files, all fuel above the length of the text", "why_tests_cant": "The claim relates two lexers on all texts and all ways to segment them; a hang is no observation of a finite test.", "anchors": ["src/input.rs: update, skip_whitespace", "src/lexer.rs: lex_for_ws, read_token, skip_to_eol", "src/cheader.rs: skip_multiline_comment"]}
{"id": "C71", "title": "What error messages say", "statement": "A message about wrong operands lists exactly the forms that the reference has for the instruction, in its order and in its notation, and says so in the singular or plural as fits, or that it takes no operands; none of the forms listed fits the operands that were refused, and whatever fits one of them is accepted. The heading of every message says what is wrong, with the names and numbers of the error in the places meant for them. Two messages with the same heading are about the same kind of error with the same names and numbers. The whole message about a failed run is the heading, the place or the two places, and the advice, in whole lines, and printing it does not crash.", "quantifier": "all errors, names, numbers, operands, runs, files, both build profiles", "why_tests_cant": "There are more than forty kinds of errors with arbitrary names and numbers; that no two of them look alike is a statement about all pairs of messages, and that the advice is complete is one about all operands.", "anchors": ["src/lib.rs: print_error", "src/parser.rs: make_instr, wrong_args", "src/ast.rs: ArgType::to_str", "docs/instructions.md"]}
{"id": "C72", "title": "What the commands leave behind", "statement": "A run that exits with 0 has written the one file its command is to write, or none if it only prints; any other run writes nothing as long as the disk works, and no run touches a file other than its output. assemble writes exactly the image and reports its length; a wrong program is reported and ends with exit code 1. expand writes no file. vmi ends well exactly if the file reaches to the end of the description, writes 108 bytes, and by default names its output after its input, never writing over it. disassemble always ends and begins at the vectors and, for a BIOS, at the firmware calls; disassembling and assembling in two runs reproduces the file up to zeros at the end if no instructions overlap. image writes its text with one call and may leave a short file though it ends well, which is shown by a counterexample.", "quantifier": "all commands, arguments, file systems, pictures, clocks, failures of creating and writing files, both build profiles", "why_tests_cant": "It is a statement about every run in every state of the file system, including failures of the system that tests do not provoke.", "anchors": ["src/lib.rs: run_command, assemble_cmd, expand_cmd, disassemble_cmd, generate_vmi", "src/asm.rs: expand_file"]}
{"id": "C73", "title": "The names in a listing", "statement": "Every listing defines exactly the seven named bits of the PSW and the 256 special function registers, in order, each under its name and with its number; registers without a name in the manual get one made from their address. No name is defined twice, whatever the case of its letters. In every instruction of a listing a register goes by its name and other memory by its address, a bit goes by its name exactly if it is a named bit of the PSW, and a constant is written as a number, and an indirection names its register, each standing for the value that is in the binary.", "quantifier": "all binaries, entry points, listings and instructions in them", "why_tests_cant": "There are 512 addresses and 8 bits in each, in dozens of instruction forms; samples miss a wrong entry in the tables.", "anchors": ["src/disasm.rs: Names, lift, disassemble"]}
{"id": "C74", "title": "How a listing is laid out", "statement": "The marks in a listing name exactly the entry points inside the binary, each once and in increasing order, and each is followed by the instruction there. A data line gives 16 bytes of the binary, or fewer before code or the end, not all of them zero, and the remark beside it shows them one by one and is left out exactly if none is a visible character. With positions each line begins with the offset of its statement in hexadecimal, or with blanks if it has none, and is otherwise the line without positions.", "quantifier": "all binaries of moderate size, entry points, listings and file types", "why_tests_cant": "The lines depend on how code, data and entry points interleave in the binary; samples show a few of these patterns.", "anchors": ["src/disasm.rs: disassemble, read_chunk, byte_range, DStatement::bytes", "src/lib.rs: disassemble_cmd"]}
{"id": "C75", "title": "Source files are UTF-8", "statement": "A source file is taken exactly if it can be read and its bytes are the UTF-8 encoding of a sequence of Unicode scalar values, which is then unique; every such sequence can be written in a file. Otherwise the error says whether reading or decoding failed. Whatever becomes of a run, the texts in its table of files are those on the disk, and are UTF-8.", "quantifier": "all files, texts, sequences of code points, runs and file systems", "why_tests_cant": "There are infinitely many byte sequences, and the borders of the ranges (overlong forms, surrogates, the end of the code space) meet in four bytes.", "anchors": ["src/files.rs: load_file, SourceFiles::load", "src/asm.rs: replace_includes"]}

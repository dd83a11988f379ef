{
 "claims": [
  {
   "property": "C01",
   "status": "proved",
   "theorems": [
    "C01_encode_decode",
    "C01_encode_size"
   ],
   "note": "All 70 forms, all in-range operands, any following bytes."
  },
  {
   "property": "C02",
   "status": "proved",
   "theorems": [
    "C02_decode_encode"
   ],
   "note": ""
  },
  {
   "property": "C03",
   "status": "proved",
   "theorems": [
    "C03_decode_total",
    "C03_decode_empty_refuted"
   ],
   "note": "The empty slice is outside the claim; C03_decode_empty_refuted shows that it panics."
  },
  {
   "property": "C04",
   "status": "proved",
   "theorems": [
    "C04_encode_docs",
    "C04_prefix_free"
   ],
   "note": "Against the table of docs/instructions.md transcribed in SpecIsa.v."
  },
  {
   "property": "C05",
   "status": "proved",
   "theorems": [
    "C05_operands_exact",
    "C05_accepted_in_range"
   ],
   "note": ""
  },
  {
   "property": "C06",
   "status": "proved",
   "theorems": [
    "C06_branch_target",
    "C06_branch_bytes",
    "C05_operands_exact",
    "C06_brf_wraps_refuted"
   ],
   "note": "C06_brf_wraps_refuted: brf/callr reject targets that the documented modulo-65536 rule could reach."
  },
  {
   "property": "C07",
   "status": "proved",
   "theorems": [
    "C06_branch_target",
    "C06_branch_bytes",
    "C05_operands_exact"
   ],
   "note": ""
  },
  {
   "property": "C08",
   "status": "proved",
   "theorems": [
    "C08_expression_value",
    "C09_debug_exact"
   ],
   "note": ""
  },
  {
   "property": "C09",
   "status": "proved",
   "theorems": [
    "C09_debug_exact",
    "C09_release_wraps",
    "C09_no_crash_refuted",
    "C09_no_crash_debug_refuted"
   ],
   "note": "The bare claim is false; the exact crash condition is proved for debug builds, wrapping for release builds."
  },
  {
   "property": "C10",
   "status": "proved",
   "theorems": [
    "C10_image_length"
   ],
   "note": ""
  },
  {
   "property": "C11",
   "status": "proved",
   "theorems": [
    "C11_image_bytes",
    "C11_statement_placed",
    "C11_forward_untouched",
    "C11_data_forward"
   ],
   "note": ""
  },
  {
   "property": "C12",
   "status": "proved",
   "theorems": [
    "C12_no_crash",
    "C12_succeeds_iff",
    "C12_uppercase_label_refuted",
    "C12_cnop_back_refuted"
   ],
   "note": "The two refutations show that the side conditions (lower-cased labels; no backward alignment in debug builds) are needed."
  },
  {
   "property": "C13",
   "status": "proved",
   "theorems": [
    "C13_label_value",
    "C13_label_word"
   ],
   "note": ""
  },
  {
   "property": "C14",
   "status": "proved",
   "theorems": [
    "C14_local_value",
    "C14_local_word",
    "C14_other_scopes_ignored"
   ],
   "note": ""
  },
  {
   "property": "C15",
   "status": "proved",
   "theorems": [
    "C15_duplicates_never_assemble",
    "C15_duplicates_reported",
    "C15_error_is_duplicate"
   ],
   "note": ""
  },
  {
   "property": "C16",
   "status": "proved",
   "theorems": [
    "C16_variable_value",
    "C16_what_is_visible",
    "C16_no_forward_reference"
   ],
   "note": ""
  },
  {
   "property": "C17",
   "status": "proved",
   "theorems": [
    "C17_byte_value",
    "C17_byte_string",
    "C17_word_value",
    "C17_single_byte_exact",
    "C17_single_word_exact"
   ],
   "note": ""
  },
  {
   "property": "C18",
   "status": "proved",
   "theorems": [
    "C18_text_value",
    "C18_too_long"
   ],
   "note": ""
  },
  {
   "property": "C19",
   "status": "proved",
   "theorems": [
    "C19_cnop",
    "C19_cnop_total",
    "C19_next_address",
    "C19_cnop_zero_refuted"
   ],
   "note": "Zero multiples set the counter to the addend; C19_cnop_zero_refuted shows it can move back."
  },
  {
   "property": "C44",
   "status": "proved",
   "theorems": [
    "C44_size_is_emitted",
    "C44_bytes_emitted"
   ],
   "note": ""
  },
  {
   "property": "C27",
   "status": "proved",
   "theorems": [
    "C27_expansion_is_the_meaning",
    "C27_result_is_plain",
    "C27_no_calls_no_change",
    "C27_macro_label_remains_refuted"
   ],
   "note": "For calls whose arguments contain no macro labels or parameters; the refutation shows the condition is needed."
  },
  {
   "property": "C28",
   "status": "proved",
   "theorems": [
    "C28_hygiene"
   ],
   "note": "The suffixes drawn are assumed distinct, of length 32 and not suffixes of source labels, as the property says."
  },
  {
   "property": "C29",
   "status": "proved",
   "theorems": [
    "C29_terminates",
    "C29_recursion_never_succeeds",
    "C29_recursion_detected_refuted",
    "C29_fuel_irrelevant"
   ],
   "note": ""
  },
  {
   "property": "C30",
   "status": "proved",
   "theorems": [
    "C30_substitution",
    "C30_operands",
    "C30_binding",
    "C30_value",
    "C30_self_reference_refuted",
    "C30_label_capture_refuted"
   ],
   "note": "For arguments free of macro parameters and labels; the refutations show what happens otherwise."
  },
  {
   "property": "C45",
   "status": "proved",
   "theorems": [
    "C45_selection",
    "C45_accepted_iff_listed",
    "C45_wrong_args",
    "C45_unknown",
    "C45_unique_form"
   ],
   "note": ""
  },
  {
   "property": "C21",
   "status": "proved",
   "theorems": [
    "C21_value",
    "C21_alone",
    "C21_too_large_panics",
    "C21_unsigned_32_bits_refuted"
   ],
   "note": "Numerals above 2^31-1 make the tool panic, so the 32-bit part of the claim is refuted and the panic is characterised."
  },
  {
   "property": "C22",
   "status": "proved",
   "theorems": [
    "C22_value",
    "C22_items_denote",
    "C22_unclosed"
   ],
   "note": ""
  },
  {
   "property": "C23",
   "status": "proved",
   "theorems": [
    "C23_accounts_for_every_character",
    "C23_token_text",
    "C23_in_order",
    "C23_rejected_iff",
    "C23_error_position_refuted",
    "C23_panics_iff",
    "C23_terminates"
   ],
   "note": "The reported error column can be wrong after a skipped comment; shown by refutation."
  },
  {
   "property": "C24",
   "status": "proved",
   "theorems": [
    "C24_parses_iff",
    "C24_unambiguous",
    "C24_rejects_iff",
    "C24_total"
   ],
   "note": ""
  },
  {
   "property": "C46",
   "status": "proved",
   "theorems": [
    "C46_line_iff",
    "C46_unambiguous",
    "C46_total"
   ],
   "note": ""
  },
  {
   "property": "C47",
   "status": "proved",
   "theorems": [
    "C47_program_iff",
    "C47_lines_iff",
    "C47_must_be_closed_refuted",
    "C47_total"
   ],
   "note": "An unclosed macro definition is accepted silently; shown by refutation."
  },
  {
   "property": "C25",
   "status": "proved",
   "theorems": [
    "C25_parses_back",
    "C25_printable_parses_back",
    "C25_octal_iff",
    "C25_value_kept_refuted"
   ],
   "note": "False for octal literals, which are printed as hexadecimal: exactly those with one digit keep their value. All other expressions the parser produces are read back as the same tree."
  },
  {
   "property": "C26",
   "status": "proved",
   "theorems": [
    "C26_parsed_printable",
    "C26_parses_back_iff",
    "C26_labelled_parses_back",
    "C26_every_instruction_refuted"
   ],
   "note": "False when the first operand begins with the name equ; exact characterisation proved."
  },
  {
   "property": "C48",
   "status": "proved",
   "theorems": [
    "C48_parses_back",
    "C48_strings_refuted",
    "C48_text_refuted"
   ],
   "note": "The conditions on statements are in SpecPrint.printable_statement; the refutations show what printing loses."
  },
  {
   "property": "C38",
   "status": "proved",
   "theorems": [
    "C38_fields",
    "C38_panics_iff",
    "C38_size_exact"
   ],
   "note": "Field contents for every call that does not panic; the calls that panic are characterised."
  },
  {
   "property": "C40",
   "status": "proved",
   "theorems": [
    "C40_loaded_once",
    "C40_same_id_iff",
    "C40_id_stable",
    "C40_contents",
    "C40_one_file_refuted"
   ],
   "note": "Identity is by path, compared by components; one file reached by two spellings gets two ids, shown by refutation."
  },
  {
   "property": "C42",
   "status": "proved",
   "theorems": [
    "C42_quotes_line",
    "C42_contains_offset",
    "C42_last_line",
    "C42_exact_line_refuted",
    "C42_one_byte"
   ],
   "note": "False for the last line without a final line break in some cases; exact characterisation proved."
  },
  {
   "property": "C49",
   "status": "proved",
   "theorems": [
    "C49_token_marked",
    "C49_point_marked",
    "C49_every_token_refuted"
   ],
   "note": ""
  },
  {
   "property": "C35",
   "status": "proved",
   "theorems": [
    "C35_pixels"
   ],
   "note": "Picture decoders are external: for all decoded pictures."
  },
  {
   "property": "C36",
   "status": "proved",
   "theorems": [
    "C36_layout",
    "C36_rejected",
    "C36_accepted"
   ],
   "note": "For at most 65535 frames (the count is a 16-bit field)."
  },
  {
   "property": "C37",
   "status": "proved",
   "theorems": [
    "C37_layout",
    "C37_too_large",
    "C37_by_brightness_refuted"
   ],
   "note": "Grey levels are IEEE binary64 arithmetic; the error bounds use the real numbers of the standard library and their axioms. At exactly half brightness rounding decides, shown by refutation."
  },
  {
   "property": "C39",
   "status": "proved",
   "theorems": [
    "C39_nearest",
    "C39_unique",
    "C39_monotone",
    "C39_idempotent",
    "C39_color",
    "C39_packing"
   ],
   "note": ""
  },
  {
   "property": "C50",
   "status": "proved",
   "theorems": [
    "C50_eyecatch"
   ],
   "note": ""
  },
  {
   "property": "C41",
   "status": "proved",
   "theorems": [
    "C41_tokens_iff",
    "C41_lines",
    "C41_accepted_iff",
    "C41_constants",
    "C41_equivalent",
    "C41_ignores_everything_else_refuted"
   ],
   "note": "Definitions become constants and comments are ignored, for every header. That everything else is ignored is false of the code: other lines reach the parser, shown by refutation."
  },
  {
   "property": "C31",
   "status": "proved",
   "theorems": [
    "C31_pipeline",
    "C31_in_place",
    "C31_one_include",
    "C31_each_time",
    "C31_depth",
    "C31_no_cycle",
    "C31_statements_refuted"
   ],
   "note": "Tokens: in place, each time, for all files. Statements: whenever no two neighbouring lines run together, which always holds for a single include; the unrestricted claim is false (a one-line file included twice in a row), shown by refutation."
  },
  {
   "property": "C51",
   "status": "proved",
   "theorems": [
    "C51_beside",
    "C51_elsewhere",
    "C51_beside_refuted"
   ],
   "note": "For including files with absolute names; refuted for relative ones."
  },
  {
   "property": "C20",
   "status": "proved",
   "theorems": [
    "C20_tokens",
    "C20_program"
   ],
   "note": "Whole programs over a file system; files included as bytes and C headers must be alike."
  },
  {
   "property": "C43",
   "status": "proved",
   "theorems": [
    "C43_reassembles",
    "C43_comments",
    "C43_octal_refuted",
    "C43_quote_refuted",
    "C43_empty_file_refuted",
    "C43_text_refuted",
    "C43_equ_refuted"
   ],
   "note": "For all programs whose expanded statements are free of octal literals, .text/.string, difficult string characters, empty data directives and operands opening with equ; the unrestricted claim is false for each of these, shown by refutations."
  },
  {
   "property": "C32",
   "status": "proved",
   "theorems": [
    "C32_terminates",
    "C32_one_result",
    "C32_sound",
    "C32_complete",
    "C32_closed",
    "C32_exact",
    "C32_failure",
    "C32_fails",
    "C32_cpu",
    "C32_memory_switch_refuted",
    "C32_wraparound_refuted"
   ],
   "note": "Exact for binaries of up to 1 GiB without not1 ext,0 followed by jmpf; with it, between reachability with and without such jumps. The literal claim is false there (the jump goes to another memory), and targets are not cut to 16 bits as on the CPU, both shown by refutation."
  },
  {
   "property": "C33",
   "status": "proved",
   "theorems": [
    "C33_image",
    "C33_command",
    "C33_assembles_iff",
    "C33_well_behaved",
    "C33_same_length_refuted",
    "C33_padding_refuted",
    "C33_overlap_refuted",
    "C33_outside_refuted",
    "C33_positions_refuted"
   ],
   "note": "From the printed text in any file to the image, for binaries of up to 1 GiB: equal up to zeros at the end; up to 64 KiB the listing assembles exactly if its labels are defined, and binaries whose code is in order make the whole round trip; for binaries of full 512-byte blocks the image is made of full blocks. Not exactly padding: blocks of zeros at the end are lost and partial blocks are not filled, both shown by refutation, as is the need for the two conditions."
  },
  {
   "property": "C34",
   "status": "proved",
   "theorems": [
    "C34_total",
    "C34_defined_once",
    "C34_used",
    "C34_outside_refuted"
   ],
   "note": "Exactly once for targets inside the binary; labels of targets outside are referenced but not defined, shown by refutation."
  },
  {
   "property": "C52",
   "status": "proved",
   "theorems": [
    "C52_work_refuted"
   ],
   "note": "Refuted: exponential growth for a family of binaries."
  },
  {
   "property": "C53",
   "status": "proved",
   "theorems": [
    "C53_reported",
    "C53_only",
    "C53_silent",
    "C53_both_refuted"
   ],
   "note": "For binaries of up to 1 GiB. The second instruction has no remark of its own if it begins in the third byte."
  },
  {
   "property": "C54",
   "status": "proved",
   "theorems": [
    "C54_data",
    "C54_all_refuted"
   ],
   "note": "For binaries of up to 1 GiB. Chunks of zeros are left out of the listing."
  },
  {
   "property": "C55",
   "status": "proved",
   "theorems": [
    "C55_arrivals",
    "C55_off",
    "C55_order_refuted"
   ],
   "note": "For binaries of up to 1 GiB."
  },
  {
   "property": "C56",
   "status": "proved",
   "theorems": [
    "C56_listing",
    "C56_listing_model",
    "C56_icon",
    "C56_icon_model"
   ],
   "note": "The orders are arbitrary permutations of the entries, one for each loop."
  },
  {
   "property": "C57",
   "status": "proved",
   "theorems": [
    "C57_accepts",
    "C57_encode",
    "C57_match",
    "C57_extract",
    "C57_roundtrip",
    "C57_inverse",
    "C57_inverse_first_byte_refuted"
   ],
   "note": "Patterns as text, with operand bits below 32 (the operands are 32-bit). Literals in later bytes are not checked when decoding, shown by refutation."
  },
  {
   "property": "C58",
   "status": "proved",
   "theorems": [
    "C58_icon",
    "C58_image",
    "C58_json",
    "C58_speed",
    "C58_unreadable",
    "C58_line_break_refuted",
    "C58_wide_refuted"
   ],
   "note": "Clap, the decoders and serde_json are external. The image command uses the grey levels of C37 and the same axioms of the standard library."
  },
  {
   "property": "C59",
   "status": "proved",
   "theorems": [
    "C59_reading",
    "C59_crash",
    "C59_expand_command",
    "C59_number",
    "C59_certain",
    "C59_always_answers_refuted"
   ],
   "note": "The decoders of pictures are external: assumed not to panic and to give 8-bit channels. Files are assumed to lie in a directory. Endless inclusion is a separate outcome (Diverge)."
  },
  {
   "property": "C60",
   "status": "proved",
   "theorems": [
    "C60_parse_same",
    "C60_eval_same",
    "C60_places",
    "C60_ends_refuted",
    "C60_unknown_name",
    "C60_names_needed",
    "C60_division",
    "C60_syntax",
    "C60_unknown_name_message"
   ],
   "note": "Places of expressions with unary operators may end too early, shown by refutation. Colours of the message are left out."
  },
  {
   "property": "C61",
   "status": "proved",
   "theorems": [
    "C61_expand_same",
    "C61_instructions",
    "C61_labels",
    "C61_names",
    "C61_refused",
    "C61_errors_placed",
    "C61_message",
    "C61_label_calls_refuted",
    "C61_error_calls_refuted"
   ],
   "note": "Labels and errors about unknown parameters do not tell the call, shown by refutation."
  },
  {
   "property": "C62",
   "status": "proved",
   "theorems": [
    "C62_same",
    "C62_places_true",
    "C62_message",
    "C62_one_byte_refuted"
   ],
   "note": "The decoders of pictures are external: assumed to report errors without a place, as they do. The headings of the messages and colours are left out. A file of one byte is the exception, shown by refutation."
  },
  {
   "property": "C63",
   "status": "proved",
   "theorems": [
    "C63_blamed",
    "C63_run",
    "C63_deserved",
    "C63_reported",
    "C63_two_places_refuted"
   ],
   "note": "C63_reported has the conditions of C12 under which the assembler does not crash. A label defined by a macro that is called twice gives two equal places, shown by refutation."
  },
  {
   "property": "C64",
   "status": "proved",
   "theorems": [
    "C64_placed",
    "C64_bytes",
    "C64_kept",
    "C64_missing",
    "C64_eyecatch_refuted"
   ],
   "note": "The decoders of pictures are external: assumed to give 8-bit channels and frames of one size. C64_placed uses the grey levels of C37 and the same axioms of the standard library. The path of an eyecatch is looked for beside the main file, shown by refutation."
  },
  {
   "property": "C65",
   "status": "proved",
   "theorems": [
    "C65_line",
    "C65_body",
    "C65_program",
    "C65_unique",
    "C65_wrong",
    "C65_no_line",
    "C65_placed_refuted"
   ],
   "note": "First lines of macros are covered by C65_program. A line that ends too soon and is not the last of its file gives an error without a place, shown by refutation."
  },
  {
   "property": "C66",
   "status": "proved",
   "theorems": [
    "C66_line",
    "C66_body",
    "C66_program",
    "C66_begins",
    "C66_tokens"
   ],
   "note": "Together with C61 to C63, which start from the places of the parsed program, errors of assembly are traced to the text."
  },
  {
   "property": "C67",
   "status": "proved",
   "theorems": [
    "C67_text",
    "C67_header",
    "C67_include",
    "C67_data",
    "C67_run"
   ],
   "note": "C67_data and C67_run use the grey levels of C37 and the same axioms of the standard library, for the contents of the data before the wrong one. The decoders of pictures are external, as in C64."
  },
  {
   "property": "C68",
   "status": "proved",
   "theorems": [
    "C68_expands",
    "C68_wrong",
    "C68_expands_all",
    "C68_wrong_all",
    "C68_one_answer",
    "C68_endless",
    "C68_places_behind",
    "C68_shown"
   ],
   "note": "Endless expansion, a stack overflow of the program, is a separate outcome (Diverge)."
  },
  {
   "property": "C69",
   "status": "proved",
   "theorems": [
    "C69_explained",
    "C69_calls_first"
   ],
   "note": "Puts C63, C67 and C68 together; the conditions of these remain: decoders of pictures as in C64, for the third explanation location counters below 2^31."
  },
  {
   "property": "C70",
   "status": "proved",
   "theorems": [
    "C70_ascii",
    "C70_text",
    "C70_header",
    "C70_places",
    "C70_hangs",
    "C70_header_crash",
    "C70_ends_refuted",
    "C70_header_refuted"
   ],
   "note": "The segmentation into grapheme clusters is an external function and a parameter; what is assumed of it is in the hypotheses. That lexing ends and that headers are read without a crash is refuted for text that is not ASCII."
  },
  {
   "property": "C71",
   "status": "proved",
   "theorems": [
    "C71_advice",
    "C71_fits",
    "C71_says",
    "C71_heading",
    "C71_message"
   ],
   "note": "Texts that come from outside (reasons given by the system or the image library) are parameters. Where a file name ends is not marked in a heading, and the name of a doubled label is only shown by its place."
  },
  {
   "property": "C72",
   "status": "proved",
   "theorems": [
    "C72_files",
    "C72_assemble",
    "C72_wrong",
    "C72_expand",
    "C72_vmi",
    "C72_vmi_beside",
    "C72_begins",
    "C72_disassemble_ends",
    "C72_round",
    "C72_image",
    "C72_image_refuted",
    "C72_unreadable"
   ],
   "note": "Reading the command line (clap) is external. Files are named by the text given to the system; two names of one file are not recognised."
  },
  {
   "property": "C73",
   "status": "proved",
   "theorems": [
    "C73_definitions",
    "C73_operands",
    "C73_distinct"
   ],
   "note": "The table of the registers and of the bits of the PSW is written down a second time in SpecNames.v, by address."
  },
  {
   "property": "C74",
   "status": "proved",
   "theorems": [
    "C74_marks",
    "C74_entry",
    "C74_data",
    "C74_positions"
   ],
   "note": "Binaries of moderate size, as in C32."
  },
  {
   "property": "C75",
   "status": "proved",
   "theorems": [
    "C75_load",
    "C75_run",
    "C75_unique",
    "C75_every"
   ],
   "note": "The check of String::from_utf8 is written out in Files.v as the standard library documents it."
  }
 ]
}
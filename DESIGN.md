# Design

Subject: the Rust program `burn_fm` in `/repo` (read as text, never built or run here).
Prover: Coq 8.16.1, standard library only.

## 1. Layout

All Coq files are flat in `rocq/theories/`. For each component `X`:

* `XModel.v`: Gallina transcription of the Rust functions, no proofs. Each definition cites file and lines.
* `XSpec.v`: small independent specification. It uses the data types of the model but not its functions, except where noted below.
* `XProps.v`: the named theorems, their `Example` witnesses and `Print Assumptions`.
* The other `X….v`: lemmas.

| component | what it models |
|-----------|----------------|
| `Prelude`, `PreludeFacts` | outcomes, results, indexing of lists by `N`, maps as association lists |
| `Utf8`, `StrOrder` (with `…Facts`) | UTF-8 encoder and validating decoder (`String::from_utf8`); order of `str`, which is that of the bytes |
| `Encoding…` | `src/encoding_util.rs` |
| `CharConv…` | `src/dbcharconv.rs` |
| `Chunk…` | `src/chunk.rs` |
| `InstrModel` | `src/fm_script_engine/fm_script_engine_instructions.rs` |
| `HeaderModel`, `ComponentModel` | `src/compile/header.rs`, `src/component.rs`, `src/file.rs` |
| `Asm…` | `src/compile/assembler.rs` |
| `Decomp…` | `src/decompile/sector.rs`, `src/decompile/decompiler.rs` |
| `Rel…` | `src/testing/relation_mgr.rs` |
| `Db…`, `DbRead…` | `src/testing/database.rs` |
| `Calc…`, `Lex…` | `src/testing/calc_tokens.rs`, the parser in `src/testing/calc_eval.rs`, the tokeniser in `src/testing/test.rs` (469-672) |
| `Eval…`, `Tree…` | `get_operand_val`, `evaluate`, `eval_calculation` of `src/testing/test.rs` (673-898) |
| `Vm…` | the rest of `src/testing/test.rs`, `src/testing/layout_mgr.rs` |
| `Burn…` | `src/burn_script/{tokens,lexer,parser,compiler}.rs` |
| `Schema…` | `src/compile/{token,lexer,parser,compiler}.rs` |
| `Main…`, `Json…`, `Files…` | `src/main.rs`; the JSON text, and the files written |
| `Gripe…` | the complaints of `src/burn_script/parser.rs` |
| `Source…` | the complaints during `src/compile/parser.rs` |
| `Trace…` | the lines printed by `src/compile/assembler.rs` |
| `Report…` | the lines printed by `src/decompile/decompiler.rs` and `src/chunk.rs` |
| `Whole…` | `src/main.rs` once more, with all lines printed on the way |
| `Store…` | `src/main.rs` once more, on the files of a disk; `Path::file_name` |
| `Vec…` | `encode_text` of `src/dbcharconv.rs` and its callers once more, with the memory of vectors |
| `Words…`, `Heard…` | the standard output word for word, for all of the files above |
| `Mutter…` | the error stream word for word, and what it says to a reader |
| `Past…` | the values of the test database as left by all operations so far |
| `World…`, `TestWorld…`, `RelatedWorld…` | the test database as a small machine |
| `Field…` | fields in calculations |
| `Law…` | laws of the operations on the test database |
| `Clock…` | independence of the clock |
| `Head…` | `src/compile/header.rs` and the fixed values of `src/compile/assembler.rs` |
| `Print…`, `Talk…` | the lines printed by `src/testing/test.rs` and `src/testing/calc_eval.rs` |

## 2. Modelling conventions

* **Outcomes.** `outcome A := Ok a | Panic | NoFuel`. `Panic` is any Rust panic: index out of bounds,
  `unwrap` of `None`, overflow in the debug profile, `unreachable!`. A Rust `Result` stays a value
  inside `Ok` (`result`: `ROk`, `RErr`; error texts are left out). `NoFuel` is only for loops and recursions
  that are not structurally decreasing. Theorems either exclude it by a bound on the fuel, or say
  that the code runs forever: `NoFuel` for every fuel.
* **Profile.** Arithmetic overflow panics (debug profile). `put_int` takes the profile as a parameter because the
  observable range differs.
* **Numbers.** `N` for bytes, offsets and ids. Bytes are `N` below 256 (predicate `bytes`). Overflow of 64-bit `usize` is
  modelled only where data can reach it. Buffers are taken to be shorter than 2^63 bytes, as `Vec` guarantees.
* **Strings.** A `String` is a list of Unicode code points (`list N`). The UTF-8 form is computed where bytes matter.
* **Hash maps.** Association lists with distinct keys; the iteration order is the order of the list.
  Theorems quantify over the list, or over a reordering function (`order`, `segment_order`), so that they cover every order.
* **Floating-point numbers, clock, Unicode tables.** A record of arbitrary operations, `fenv` (CalcModel.v): `f64` and `f32` with parsing,
  formatting and arithmetic, `char::is_alphanumeric`, the current time, and the `Debug` text of a node. Theorems quantify over the record,
  so nothing is assumed about it. The time is one text for the whole run, which is no restriction: C110 shows that it is never read.
  `whole` (CalcDemo.v) is one such record, whole numbers only, used for examples and refutations.
* **False expectations.** A statement that one would expect of the code but that is false is proved false (`…_refuted`)
  with a concrete witness, next to the statement that is true.

## 3. Trusted base

* The Coq 8.16.1 kernel, with its virtual machine for `vm_compute`. `coqchk` checks the compiled files again without the virtual machine.
* `Print Assumptions`: see section 5. No theorem depends on an axiom.
* The transcription of the Rust text into `*Model.v`, done by hand. It is the only link between `/repo` and the proofs.
* The meaning given to the Rust standard library (`Vec`, `HashMap`, `BTreeMap`, `str`, `char`, `chunks`, `windows`, `splice`)
  in the model: each use has a comment with the Rust expression.

Modelled: every function of the files in the table of section 1, except for the parts named here.

Not modelled:

* `src/cli.rs`: the command line. The model of `main` starts with the parsed options.
* File and terminal input and output. `main` reads from a list of named contents, and gives a list of events (JSON shown, file written, reports
  made). Files that are written are contents by path (FilesModel.v); that writing succeeds and that different paths are different files is assumed there.
  In StoreModel.v neither is assumed: `place` and `accepts` are any functions. It is assumed that they stay the same during a run, that no other program changes
  the files, that a write changes the whole file or nothing, and that a file that can be opened can be read. Paths are strings, separated by `/`.
  The lines of the test runner are in PrintModel.v, and with those of calculations in TalkModel.v, without their wording and colours. The complaints
  of the script compiler are in GripeModel.v and SourceModel.v, the lines of the assembler in TraceModel.v, those of the decompiler and the chunk reader in ReportModel.v. The wording is left out in these
  files; WordsModel.v adds it for the standard output (C103). MutterModel.v adds it for the error stream (C105). What panics print is left out; the codes of colours and the texts of `derive(Debug)` are parameters.
* The JSON text is modelled after the documentation of `serde`'s derive and of `serde_json::to_string_pretty` (JsonModel.v); the crates themselves are not.
* Text of error messages inside `Err`.
* `src/metadata_constants.rs`, `src/decompile/format.rs` and the empty modules (`engine.rs`, `intrinsics.rs`, `calc_intrins.rs`,
  `calc_engine/intrins.rs`, `blobs.rs`, `compound_chunk.rs`): unused or empty.
* `#[cfg(test)]` code.
* Memory: allocation failure. The `unsafe` reinterpretation of a vector of pairs in `dbcharconv::encode_text` gives the flattened pairs in all models but
  VecModel.v, which has the lengths, capacities and blocks (C102). The growth of vectors is that of the standard library (checked against no particular version); the language does not fix it.
* Stack overflow, other than as endless recursion.
* Compilation by `rustc`, third-party crates (`clap`, `serde_json`, `chrono`, `color_print`).

## 4. Properties

All statements are for unbounded inputs unless the domain itself is finite. Each entry: what is modelled and how it is proved, then the theorems.

**C01 Path numbers survive encode/decode exactly below 384** (proved). `put_path_int`, `get_path_int`. Bit operations are turned into division and remainder; the set of surviving numbers is an iff for all `n`.
`path_int_roundtrip_iff`, `path_int_readback_exact`, `path_int_roundtrip_refuted`

**C02 Path number encoding is canonical and its aliasing is known exactly** (proved). `put_path_int`. Shape of the bytes in three ranges, and an iff for two numbers with equal bytes.
`put_path_int_shape_all`, `put_path_int_collision_iff`

**C03 Plain integers survive put_int/get_int** (proved). `put_int` in both profiles, `get_int`. Positional value `be_value` as the specification.
`put_int_debug_range`, `put_int_release_range`, `get_int_put_int`

**C04 get_int reads big endian for widths 1, 2, 4 and is 0 for every other width** (proved). `get_int`. Compared with `be_value` for every length.
`get_int_big_endian`

**C05 Text obfuscation is lossless on every Unicode string** (proved). `fm_string_encrypt`, `fm_string_decrypt` with UTF-8. Decoding an encoding is the identity by cases on the four widths; XOR is its own inverse. Bytes that are not UTF-8 give a fixed text.
`text_decrypt_encrypt`, `text_encrypt_shape`, `text_decrypt_total`

**C06 Sort-form text round trips up to ASCII case on the supported alphabet** (proved). `encode_text`, `decode_bytes`. Induction over the text; one look at the table of pairs.
`sortform_roundtrip`, `sortform_roundtrip_any`, `sortform_unterminated`

**C07 Unsupported characters and byte pairs degrade in one known way** (proved). `encode_char`, `encode_text`. Exact classes of texts with equal encodings.
`sortform_unsupported`, `sortform_shape`, `sortform_collision_iff`

**C08 Reading one chunk makes progress except for one opcode family** (proved). `get_chunk_from_code`, all opcodes. Follows from the opcode table of C12.
`chunk_progress_iff`, `chunk_progress_refuted`

**C09 Chunk payloads lie inside the buffer and right before the new position** (proved). `get_chunk_from_code`. The payload is the part of the buffer that ends at the new position, except for the opcodes listed.
`chunk_payload_inside`, `chunk_position_outside_refuted`

**C10 Reading one chunk changes the directory path by at most one element at its end** (proved). `get_chunk_from_code`. Effect on the path by kind of chunk.
`chunk_path_effect`, `chunk_single_step_refuted`

**C11 Chunk reading is local** (proved). `get_chunk_from_code`. Other bytes before and after do not matter. The look at position 1 of the buffer needs two bytes.
`chunk_local`, `chunk_local_refuted`

**C12 The chunk opcode table** (proved). `get_chunk_from_code` against a declarative table of opcodes (`ChunkSpec.layout_of`), equality on every input of at least two bytes.
`chunk_reader_table`, `chunk_unknown_opcode`

**C13 A short key/value written by the assembler is read back exactly for the known lengths** (proved). `emit_simple_kv`, `calc_small_kv_ins` and the chunk reader: read-back for exactly the lengths with an opcode.
`simple_kv_roundtrip`

**C14 Every other emitted chunk form is read back exactly** (proved). The other emitters and the chunk reader.
`wide_kv_roundtrip`, `long_kv_roundtrip`, `trailing_data_roundtrip`, `push_roundtrip`, `pop_roundtrip`, `noop_roundtrip`

**C15 The assembled image has a fixed size and a valid sector chain** (proved). `assemble_fmp12`, whole. `AsmSpec.image` describes the image as a list of bytes; equality for every file that fits, panic otherwise.
`assembled_image`, `assembled_size_and_chain`

**C16 Directory pushes and pops balance in the assembled image** (proved). `emit_table_metadata`, `emit_relationship_data`. The image is read as a stream of chunks by an independent counter of depth.
`assembled_directories_balance`

**C17 Decompiling an assembled file does not give the schema back** (proved). Assembler and decompiler together. The image is read chunk by chunk; none of its directories is one the decompiler looks at.
`decompiled_assembly_is_empty`, `decompile_assemble_refuted`

**C18 Reading sectors ends exactly when the chain of next-pointers ends** (proved). Sector loop of `decompile_fmp12_file`. `NoFuel` for every fuel on a cyclic chain; a result forces the chain to end.
`result_needs_chain_end`, `cyclic_chain_gives_no_result`, `chain_end_terminates`, `chain_end_terminates_refuted`

**C19 Sector headers are decoded as laid out; payload runs to the end of the file** (proved). `get_sector`. Header fields by position; the payload is not limited to the sector.
`sector_header_decoded`, `sector_header_short`, `sector_payload_bounded_refuted`

**C20 Script segments are joined in index order whatever order they arrive in** (proved). Script segment map and final loop. Invariance under permutations of the arrival order.
`script_order_irrelevant`, `segments_independent_of_arrival`, `script_steps_recovered`

**C21 Step opcode numbers map to the step with that number** (proved). `INSTRUCTIONMAP` and the declared discriminants. The whole finite domain (256 opcode bytes) is covered.
`step_decoded`, `step_number_of_result`, `opcode_255_aborts`

**C22 Compiled calculations are rendered back token by token** (proved). `decompile_calculation`. Induction over a list of source tokens and their byte forms.
`calculation_rendered`, `truncated_calculation_aborts`, `calculation_text_refuted`, `calculation_exact`

**C23 Tables, fields, layouts, occurrences, relations, scripts and data sources stored in a file are recovered under their ids** (proved). The path match of `decompile_fmp12_file`. A file is described by a list of components and their stored chunks (`DecompRecoverSpec`); induction over the list.
`stored_schema_recovered`, `value_lists_never_recovered`, `large_table_ids_refuted`, `fields_before_tables_refuted`

**C24 External file locations are extracted or the program aborts** (proved). `SourceFileLocation::from_bytes`.
`location_exact`, `location_without_marker`

**C25 The relation graph is symmetric and has no duplicate edges** (proved). `add_node`. Invariant over all histories of insertions.
`neighbours_are_insertions`, `relation_graph_symmetric`

**C26 Relation paths are real, found whenever they exist, and shortest** (proved). `get_path`. Breadth-first search: invariant on the levels of the queue.
`path_is_shortest`, `path_found_when_it_exists`, `path_takes_first_neighbours`

**C27 A path from an occurrence to itself goes through a neighbour** (proved). `get_path` with equal ends.
`path_to_itself`

**C28 Tables stay rectangular** (proved). `database.rs`: invariant over every sequence of operations from a generated database (`reached`).
`tables_stay_rectangular`

**C29 Found sets only name existing records** (proved). As C28, with and without `clear_records`.
`found_sets_name_records`, `cleared_found_sets_refuted`

**C30 Creating a record appends one blank row and shows it in every occurrence of the table** (proved). `create_record`. Every component of the new database.
`create_record_exact`, `create_record_aborts`

**C31 Writing a field changes that field of that record only** (proved). The `…_mut` accessors as a write. Every other cell is unchanged.
`write_changes_one_cell`, `write_without_record_fails`, `read_after_write_refuted`

**C32 Record navigation stays within the found set** (proved). `goto_record` and the four others. Exact new position, exact panics.
`navigation_exact`, `current_record_exists`

**C33 Related-field lookup over one relation returns the first matching record** (proved). `get_related_record_field` over one relation.
`related_lookup`, `unrelated_lookup_fails`, `less_is_strict_refuted`, `mirrored_relation_refuted`, `two_relations_refuted`

**C34 Operator expressions are parsed with the usual precedence and left associativity** (proved). The parser of `calc_eval.rs`. A grammar with levels as an inductive relation (`spells`), parse of every spelled list.
`C34_precedence`, `C34_unambiguous`, `C34_rest_ignored`, `C34_refuses_refuted`

**C35 A function call swallows the operators that follow it** (proved). Same, with calls, which the grammar reads differently from what one expects.
`C35_call_swallows`, `C35_sum_in_argument`, `C35_product_in_argument`, `C35_comparison_dropped`, `C35_second_argument_dropped`, `C35_call_operand_refuted`, `C35_argument_escapes_refuted`

**C36 The calculation parser never builds unary or grouping nodes** (proved). Same. Shape of every tree that is returned, for all inputs.
`C36_no_odd_nodes`, `C36_get`

**C37 The calculation parser ends except on a dangling open parenthesis** (proved). Same. Measure of the tokens left against the fuel; exact bound.
`C37_bound`, `C37_ends`, `C37_dangling`, `C37_always_ends_refuted`

**C38 Arithmetic in calculations** (proved). `evaluate` on the four operations, for any `fenv`.
`C38_numbers`, `C38_operands`, `C38_calculation`

**C39 Comparisons in calculations are on text** (proved). `evaluate` on comparisons.
`C39_textual`, `C39_bytes`, `C39_numeric_refuted`

**C40 Concatenation joins operand texts** (proved). `evaluate` on `&`.
`C40_join`, `C40_assoc`, `C40_quote_lost_refuted`

**C41 Empty string literals disappear from calculations** (proved). Tokeniser: the empty literal gives no token.
`C41_comparison_vanishes`, `C41_name_and_empty`, `C41_empty_test_refuted`, `C41_empty_join_refuted`

**C42 Calculation text is tokenised back into its tokens** (proved). Tokeniser: tokens of every written token list come back; it ends on every text.
`C42_read_back`, `C42_ends`, `C42_tab_refuted`, `C42_equals_refuted`

**C43 A flat if/else-if/else runs exactly one branch** (proved). `step`, `run_tests`. A structured program (`VmSpec`) with a big-step meaning; simulation by the program counter and the stack of scopes.
`test_runs_as_meant`, `test_end_unique`, `C43_first_true_branch`

**C44 A flat loop repeats its body until the exit condition holds** (proved). As C43.
`test_runs_as_meant`, `test_end_unique`, `C44_loop`

**C45 Nested loops and nested ifs are not respected** (proved). Witnesses by computation, one per way of nesting.
`C45_nested_loop_refuted`, `C45_nested_if_refuted`, `C45_exit_inside_if_refuted`, `C45_loop_in_called_script_refuted`

**C46 Straight-line scripts run every step once and end** (proved). As C43, with a bound on the number of steps.
`test_runs_as_meant`, `test_end_unique`, `C46_straight`, `C46_ends`

**C47 Once a test failed, no later test runs** (proved). `run_tests`, `load_test`. Exact list of results.
`C47_after_failure`, `C47_loading`, `C47_reports`

**C48 An assertion fails exactly on the text false** (proved). `step` on Assert, for every calculation.
`C48_assert`

**C49 Performing an unknown script never ends** (proved). `step` on Perform Script without such a script: `NoFuel` for every fuel.
`C49_unknown_script`, `C49_scopes`

**C50 Finds return exactly the matching records in record order** (proved). `step` on Perform Find with `update_found_set`.
`C50_find`, `C50_find_total`

**C51 Script blocks are flattened faithfully** (proved). Parser of `burn_script`. Structured scripts to tokens to steps, any nesting.
`C51_structured`, `C51_always`, `C51_no_error`, `C51_missing_bracket_refuted`, `C51_unknown_step_refuted`

**C52 Script source text is lexed into its tokens** (proved). Lexer of `burn_script`. An inductive relation `reads` between texts and tokens, iff for all texts.
`C52_tokens`, `C52_ends`, `C52_compile`, `C52_comma_in_literal_refuted`, `C52_paren_in_literal_refuted`, `C52_spaces_refuted`

**C53 Schema components get consecutive ids in source order** (proved). `parse_program` and `compile_burn` of `compile/`. Declarations to components, with their ids.
`C53_compiled`, `C53_compiles`, `C53_ends`, `C53_table`

**C54 Relationships overwrite each other** (proved). `parse_program`, relationships: their key is one more than the number of tables so far, so they replace each other.
`C54_kept`, `C54_at_most`, `C54_all_kept_refuted`

**C55 Merging several input files keeps the last component for each id** (proved). The merge in `main.rs`.
`C55_compile`, `C55_decompile`, `C55_tables`, `C55_all_kept_refuted`

**C56 Layouts map to the occurrence registered last under their name** (proved). `layout_mgr.rs`, `generate_layout_mgr`.
`C56_lookup`, `C56_generated`, `C56_duplicates_refuted`

**C57 Schema source text is lexed into its tokens** (proved). `tokenize` of `compile/lexer.rs`. Relation between texts and tokens, iff for all texts.
`C57_tokens`, `C57_ends`, `C57_written`, `C57_fields_refuted`, `C57_digit_word_refuted`, `C57_quote_refuted`, `C57_semicolon_refuted`, `C57_missing_end_refuted`, `C57_no_assertions`

**C58 The sort form preserves order** (proved). `encode_text`. Lexicographic order.
`sortform_order`

**C59 The test database is set up as the file describes** (proved). `generate_from_fmp12`. Every table, occurrence and relation of the new database from the file, in any order of the maps.
`generated_database`, `generation_aborts`

**C60 Related fields cannot be written or enumerated** (proved). `get_related_record_field_mut`, `get_nth_related_record_field` on every reachable database.
`related_places_unavailable`

**C61 The calculation parser invents nothing** (proved). Parser of `calc_eval.rs`: the written form of the tree is a subsequence of the tokens.
`C61_nothing_invented`

**C62 What an operand of a calculation stands for** (proved). `get_operand_val`. An inductive relation `stands_for` for the answer; endless chains of variables are exactly the endless runs.
`C62_lookup`, `C62_single_answer`, `C62_never_ends`, `C62_bound`, `C62_answer_refuted`

**C63 Min returns a smallest argument** (proved). `evaluate` on Min.
`C63_min`, `C63_min_refuted`

**C64 Char gives the numbered character** (proved). `evaluate` on Char.
`C64_char`

**C65 Each plain script step has exactly its defined effect** (proved). `step` on each plain instruction against a separate table of effects.
`C65_step_effect`

**C66 Calling a script** (proved). `step` on Perform Script.
`C66_call`, `C66_fresh_variables_refuted`

**C67 Tests keep the database in its invariants** (proved). `run_tests` and `run_tests_with_cleanup` keep the invariants of C28 and C29.
`C67_database_of_tests`, `C67_step`

**C68 Tests are not independent of each other** (proved). Witnesses by computation.
`C68_variables_refuted`, `C68_records_refuted`

**C69 Script source text runs as its structure says** (proved). C52, C51 and C43-C46 composed: from text to result.
`C69_text_to_run`

**C70 Tests written in a schema run as their structure says** (proved). C57, C53 and C69 composed: from schema text to result.
`C70_schema_test`

**C71 The program tests and writes everything collected so far after each input** (proved). `main`: the list of events of a run, for every list of inputs.
`C71_compile`, `C71_decompile`, `C71_any_order`, `C71_bad_input`, `C71_bad_test_file`, `C71_tested_once_refuted`, `C71_name_clash_refuted`

**C72 Decompiled and collected files are well-formed** (proved). `decompile_fmp12_file` and the merge: the maps of the file have distinct keys.
`C72_decompiled`, `C72_collected`

**C73 A file written by the compiler decompiles to an empty file** (proved). C15, C17 and C71 composed.
`C73_written_is_empty`

**C74 Reads from the test database** (proved). The readers of `database.rs`.
`C74_read`, `C74_no_field`, `C74_current_value`, `C74_table_by_name`

**C75 Deleting a record removes a field** (proved). `Table::delete_record`.
`C75_removes_field`, `C75_deletes_refuted`, `C75_possible_refuted`

**C76 Related fields several relations away** (proved). `get_related_record_field` over a path of relations.
`C76_lookup`, `C76_join_refuted`

**C77 Codes of the double byte text form** (proved). `ENCODING_MAPPING` against a second transcription as a string of letters; `decode_bytes` on every list of bytes.
`sortform_codes`, `sortform_decode`

**C78 Every calculation has the value its tree says** (proved). `evaluate`, whole, with the parser and the tokeniser. The rules are an inductive relation (`TreeSpec.value_is`); both directions by induction, the fuel made large enough.
`C78_value`, `C78_calculation`, `C78_written`, `C78_one_value`, `C78_asin`, `C78_asin_refuted`

**C79 How every calculation text is divided into tokens** (proved). `lex`, whole. The rules are an inductive relation (`TokensSpec.splits`) on the text; one direction by induction on the steps of the loop, generalised over the word read so far, the other by induction on the rules.
`C79_tokens`, `C79_space`, `C79_aborts`, `C79_one`, `C79_value`, `C79_digit`

**C80 Scripts stored in place come back with the parameters of their steps** (proved). The arms of the decompiler for script steps and their parameters, through the whole of `decompile`. The expected steps are a relation on the stored bytes (`InlineSpec.inline_steps`), built on `block_step` (C20) and the calculation tokens (C22); induction over parameters and scripts on top of C23.
`C80_recovered`, `C80_missing_step`, `C80_segments_abort`, `C80_renamed`, `C80_segment_four`, `C80_tail_refuted`

**C81 Any script text is compiled to the scripts its tokens stand for** (proved). The parser of scripts on arbitrary token lists, which C51 covers only for structured scripts. ScriptsSpec.v says what a body, a heading and a list of scripts are, with a rule for each kind of token and the open blocks as a parameter; Scripts.v proves both directions (induction on the fuel and on the derivation). C81_text joins it to the exact tokeniser of C52; C81_one, C81_aborts: the scripts are unique and the compiler panics on exactly the other texts; C81_not_invented accounts for every step; C81_next_script_refuted shows a block left open closing in the next script.
`C81_text`, `C81_one`, `C81_aborts`, `C81_not_invented`, `C81_next_script_refuted`

**C82 Any list of steps runs along described moves** (proved). The whole of `step` on arbitrary scripts; C43-C46 cover structured programs. VmTextSpec.v describes the moves with places in the text (first place from i on with one of some kinds of steps), reusing the step effects of C65 (`does`, `leaves`); VmText.v proves that `vm_step` succeeds with a state exactly if it is a described move, for every state, and that runs are exactly sequences of moves. C82_open_elif_refuted and C82_flag_outlives_refuted are the surprising consequences.
`C82_step`, `C82_run`, `C82_one_end`, `C82_loops_pile_up`, `C82_open_elif_refuted`, `C82_flag_outlives_refuted`

**C83 What is recovered from any file at all** (proved). C23 and C80 give the result for files laid out in one way; this gives it for all files. HistorySpec.v defines the sequence of records of a file (`file_history`: sector chain and `get_chunk`, which C08-C12 describe) and reads each component off the sequence with `after_last`, `last_of`, `sections`, `joins`, `sources`. The proof goes record by record (History.v layouts, script names, occurrences; History2.v relations, data sources; History3.v tables, and from the file to its records). Left out: the steps of scripts (see C84), and tables t for which a table t+128 is announced, where the reader mixes up the two numbers (large_table_ids_refuted in C23).
`C83_any_file`, `C83_own_directories`, `C83_layout_kept_refuted`, `C83_source_names_refuted`, `C83_large_source_refuted`

**C84 The steps of scripts in any file at all** (proved). Completes C83. StepsSpec.v says what a piece of code reads as (`reads_as`, from the declared step numbers), how code is cut (`cut`), what one record does to the steps of a script (`contributes`), and what the segments amount to (`joined`); `calc_says` is a grammar of all compiled calculations. Steps.v proves the pieces against the decoder, Steps2.v every record against the dispatcher, Steps3.v whole files, that the relation is a function, and that only own records matter. The iteration order of the segment table is any permutation.
`C84_any_file`, `C84_own_directories`, `C84_parameters`, `C84_left_over`, `C84_called_name_refuted`

**C85 Which files can be decompiled at all** (proved). Completes C83 and C84 to an exact condition. AbortSpec.v says for every directory which records fit after which (`record_ok`), from the records alone; the tables are given by recursion over the records, latest first. Abort.v proves the exact tables, Abort2.v the condition of every schema record against the dispatcher, Abort3.v the same for steps and for whole sequences of records, Abort4.v for sectors, segments and whole files. The unrestricted `tables_recovered` replaces the restriction to tables without a neighbour 128 above in C83. Fuel only measures running time: the conclusion holds for all fuel from some amount on.
`C85_exact`, `C85_records`, `C85_unfit`, `C85_stops`, `C85_any_order`, `C85_tables`, `C85_well_formed_refuted`, `C85_field_kept_refuted`

**C86 The tree of every list of tokens** (proved). PhraseSpec.v gives the language as rules (`phrase`, `arguments`, `tree_of`), and `dangles` for token lists on which reading does not end; Phrase.v proves that the parser reads exactly these, in both directions, by treating the five levels of the parser uniformly. C86_value composes this with C78 and C79 so that no function of the model is left on the right hand side. The number of steps is not modelled beyond ending or not ending.
`C86_tree`, `C86_endless`, `C86_stops`, `C86_one`, `C86_usual`, `C86_value`, `C86_text`

**C87 How every run of tests ends** (proved). RunsSpec.v: states that `n` moves lead to (`comes_to`), runs that get stuck or go on for ever, and the reports of a list of tests (`reported`), over the moves of C82. Runs.v proves that no step of the runner needs fuel and that each way to end is exactly one of these. That a run which neither ends nor is broken off is endless at one particular test is not stated, as this has no constructive proof; C87_hangs gives the other direction.
`C87_stuck`, `C87_forever`, `C87_reports`, `C87_breaks_off`, `C87_hangs`, `C87_cases`, `C87_hidden_refuted`

**C88 What the program does with any texts and files** (proved). SessionSpec.v puts the specifications of all parts together: schema texts (C53, C81), records of binary files (C83, C84, C85), the database and layouts at the start (C56, C59, here in full: `database_of`), runs of tests (C87), the binary image (C15). Session.v carries the sessions of C71 over to it. Runs that do not come to an end within the fuel are left out.
`C88_compile`, `C88_decompile`, `C88_written`, `C88_failed_test_stops_refuted`

**C89 The JSON of a schema is JSON and says the whole schema** (proved). JsonModel.v models the values that serde's derive makes of every component and the pretty printer of serde_json, both after their documentation. JsonSpec.v holds the grammar of RFC 8259 (with all escapes, surrogate pairs, white space and forms of numbers) and, apart from the model, what the members of the value have to say for each component. Json.v proves that printed values are texts of the grammar, that the grammar is unambiguous, and that the members fix the schema.
`C89_text`, `C89_one`, `C89_lossless`, `C89_names`

**C90 The files that the program leaves behind** (proved). FilesModel.v turns the events of a run into contents by path; the copy made by --print-header is modelled there too. FilesProps.v states the contents after a run with the specifications of C88 and C89. A run that does not come to an end within the fuel is left out for compiling.
`C90_compile`, `C90_compile_others`, `C90_decompile`, `C90_header`, `C90_decompile_others`

**C91 What a run of tests prints** (proved). PrintModel.v gives the lines of each step beside the step itself; a line is what it is about, its wording and colours are left out. PrintSpec.v says which line each kind of step prints and puts them together along the moves of C82. Print.v proves both the same, also for runs that are broken off, and derives the order of lines from the moves. C91_events ties the lines to the events of C71 and C88.
`C91_lines`, `C91_cut`, `C91_step`, `C91_events`, `C91_assertion`, `C91_nested`, `C91_after_failure`, `C91_shown_failure_refuted`

**C92 Where the texts of compiled and decompiled files come from** (proved). PieceSpec.v says what it means that all texts of a file stand in the source. Pieces.v proves it from the token and component relations of C53, C54 and C70 (SchemaSpec.v, BurnSpec.v, ScriptsSpec.v), so it holds for whatever compile_burn returns. Unicode.v derives that all texts are made of Unicode scalar values, for compiled files from that, for decompiled files from the records of C83 to C85. This discharges the hypothesis of C89 and C90 on the characters. C92_second_table_refuted shows that the exception is needed.
`C92_pieces`, `C92_second_table_refuted`, `C92_compiled_unicode`, `C92_decompiled_unicode`, `C92_compiled_json`, `C92_decompiled_json`

**C93 What a calculation prints** (proved). TalkModel.v has the tokeniser, the operand lookup and the evaluator once more, each with the lines it prints (`told`). Talk.v proves that without the lines they are the functions of CalcModel.v and EvalModel.v, and that the lines are those of TalkSpec.v: `strays` counts the misplaced colons by a scan of the text, `meets` and `mixes` say which unset names and which text operands the evaluation of a tree meets, in terms of `value_is` (C78) and `leads_far` (C64). `recites` gives the lines of every tree in their order, also of one without a value, and `calculation_recites` those of every text, also of one that cannot be read (`strays_before`: the colons in the pieces before the first place that is no piece). Speech.v proves that each text has exactly one such list of lines and that it is the printed one.
`C93_lines`, `C93_exact`, `C93_same`, `C93_value`, `C93_unread`, `C93_read`, `C93_unset_named`, `C93_quiet`, `C93_colons`, `C93_colon`, `C93_misspelt_refuted`, `C93_written_refuted`

**C94 Everything a run of tests prints** (proved). TalkModel.v gives the lines of the calculations of a step (`step_said`) and merges them with those of PrintModel.v. TalkSpec.v has a table of the calculations each kind of step evaluates (`evaluates`), and the lines along the moves of C82 (`run_speaks`, `tests_speak`). `stuck_speaks` gives the lines of runs that break off. TalkRun.v proves for both kinds of runs that the printed lines are exactly these, and that without the lines of calculations they are those of C91.
`C94_lines`, `C94_exact`, `C94_breaks`, `C94_runner`, `C94_complete`, `C94_every`, `C94_unset_named`, `C94_unset_fails_refuted`

**C95 What every compiled file carries** (proved). HeadSpec.v describes the header and the values of the template in readable parts (marks, texts, runs of zeros and spaces). HeadProps.v proves that the 4095 bytes of HEADER_INIT and the seven values are these, and what the name makes of the header for names of every length.
`C95_head`, `C95_line`, `C95_line_exact`, `C95_name_refuted`, `C95_closing`, `C95_template`

**C96 What the script compiler complains about** (proved). GripeModel.v has the parser of BurnModel.v once more with the complaints it prints. GripeSpec.v says for each rule of C81 what is complained about. Gripe.v proves that without complaints the functions are those of BurnModel.v, that the complaints are those of the rules and no others, and looks for a word in a text that is read without complaint. HaltSpec.v says where a text that is not compiled breaks off, and Halt.v proves that the complaints about it are those before that place.
`C96_lines`, `C96_same`, `C96_one`, `C96_breaks`, `C96_misspelt`, `C96_kept`, `C96_scripts`, `C96_lost_refuted`, `C96_bracket_refuted`

**C97 What is complained about when a schema text is compiled** (proved). SourceModel.v has the schema parser of SchemaModel.v once more with the complaints of the script compiler, which it calls for script blocks and tests. SourceSpec.v adds the complaints to the rules of SchemaSpec.v. Source.v proves that without complaints the functions are those of SchemaModel.v, and that the complaints are those of the rules and no others. HaltSpec.v says where a text that is no schema breaks off; HaltSource.v proves that its complaints are those before that place.
`C97_lines`, `C97_told`, `C97_same`, `C97_one`, `C97_begins`, `C97_breaks`, `C97_said`, `C97_none`, `C97_kept`, `C97_words_refuted`, `C97_late_refuted`

**C98 What the assembler prints** (proved). TraceModel.v has the assembler of AsmModel.v once more with its lines. TraceSpec.v says which line belongs to which storage event of AsmSpec.v, and in which order bytes are taken and lines printed for an event (`event_acts`), from which `breaks_off` says how far a block of a given size lets them go. TraceProps.v proves that without lines the functions are those of AsmModel.v and that the lines are those of the events if there is a result; TraceRoom.v proves where it stops otherwise. The wording of the lines is left out.
`C98_lines`, `C98_begins`, `C98_breaks`, `C98_same`, `C98_only_numbers`, `C98_tables`, `C98_every_value_refuted`

**C99 What is printed while a file is decompiled** (proved). ReportModel.v has the decompiler of DecompModel.v once more with its lines. ReportSpec.v says which lines each record of a file leaves (codes of a calculation, the step it belongs to), for whole files and for the part before the place where decompiling broke off. Report.v and Report2.v prove that without lines the functions are those of DecompModel.v and that the lines are those of the records. The wording of the lines is left out.
`C99_same`, `C99_lines`, `C99_begins`, `C99_code`, `C99_occurrences`, `C99_quiet`, `C99_written`, `C99_quiet_refuted`

**C100 Everything a run of the program shows, line by line** (proved). WholeModel.v has `main` of MainModel.v once more, calling the functions with lines (SourceModel, TalkModel, TraceModel, ReportModel). WholeSpec.v extends the sessions of SessionSpec.v by the lines, in terms of the specifications of C94, C97, C98 and C99. Whole.v proves that forgetting the other lines gives the events of MainModel.v, and that the sessions are those. The option that prints headers is left out.
`C100_same`, `C100_compile`, `C100_decompile`, `C100_written`, `C100_complaints_stop_refuted`

**C101 The program on the files of a disk** (proved). StoreModel.v has `main` once more, on a disk: a path leads to a file or to none (`place`), a file may be written or not (`accepts`), and reading and writing are done at their turn. `Path::file_name` is modelled on strings. StoreSpec.v says what a run does to the disk, in terms of the sessions of SessionSpec.v for one input each (`compiles_at`, `decompiles_at`, `performs`), and what the last part of a path is (`base_name`). Store.v proves that the runs are those, and C101_as_given that they are the runs of MainModel.v and FilesModel.v if no input is at a place that is written.
`C101_name`, `C101_as_given`, `C101_compile`, `C101_decompile_as_given`, `C101_decompile`, `C101_performed`, `C101_others`, `C101_decompile_others`, `C101_output`, `C101_stops`, `C101_decompile_stops`, `C101_no_directory`, `C101_decompile_no_directory`, `C101_inputs_kept_refuted`

**C102 The memory behind encoded names** (proved). VecModel.v models a vector as length, capacity and block, with the growth of the standard library written after its source (`RawVec::grow_amortized`, `SpecFromIterNested::from_iter`, `Chars::size_hint`), and notes each broken rule. The capacity is bounded from both sides by induction over the text, and computed exactly for ASCII names and for wide ones. What the program does after a broken rule is undefined in Rust; the other models go on as if the memory was there.
`C102_encoded`, `C102_table`, `C102_outside_ascii`, `C102_outside_wide`, `C102_given_back`, `C102_any_growth`, `C102_file`, `C102_file_outside`, `C102_safe_refuted`

**C103 The outcomes of tests on the standard output** (proved). WordsModel.v gives the words of every line of C100 that goes to the standard output; the texts that `color_print` makes of its tags and the text that derive(Debug) gives for a tree are parameters. WordsSpec.v cuts a text at line feeds and looks for the lines of outcomes without reference to the program. It is shown that no other line has the form of an outcome: the lines that begin with program text begin differently, and the rest carry texts without line feeds. For the whole program this is by C100, and by following where the scripts of merged files come from. The two counterexamples are computed.
`C103_one`, `C103_lines`, `C103_tests`, `C103_compile`, `C103_decompile`, `C103_dialog_refuted`, `C103_assertion_refuted`, `C103_names`

**C104 What the standard output says** (proved). HeardSpec.v is a grammar for the lines with its own rules for numbers and lists of bytes. That it is unambiguous is proved for all texts: the first two characters tell the kinds of lines apart, and numbers end where something else begins. The printed words of C103 are shown to follow the grammar; for the whole program by C100. The statement about the assembler adds what C98 says about its lines.
`C104_one`, `C104_lines`, `C104_same`, `C104_compile`, `C104_decompile`, `C104_assembler`, `C104_dialog_refuted`

**C105 What the error stream says** (proved). MutterModel.v has the words of all `eprintln!` the program reaches; MutterSpec.v is a grammar for them, shown unambiguous for all texts. The tokens of a script are shown to hold no line feeds where a step word is complained about (from C79), which gives the statement about any schema text; the whole program follows by going through C100's transcript. The texts of `derive(Debug)` for tokens and instructions are parameters, taken to be on one line. The line of database.rs:301 is only reached from tests of the code itself, and is left out.
`C105_one`, `C105_source`, `C105_compile`, `C105_decompile`, `C105_untested`, `C105_streams`, `C105_name_refuted`

**C106 The test database holds what was last written to it** (proved). PastSpec.v defines pasts, their effects and the values they leave without reference to stored values. By induction over the past, with C28's invariant for the number of records and C31's for a single write. C106_reached connects this to all databases reached while tests run (C67).
`C106_contents`, `C106_every`, `C106_one`, `C106_reached`, `C106_same`, `C106_kept`, `C106_twice_refuted`

**C107 The test database is a small machine** (proved). WorldSpec.v is the machine: functions for found sets, positions, counts and values, and one step per operation, without the vectors of the program. World.v proves that each operation keeps the relation `represents`, in both directions (success and abort), with C28's and C59's lemmas. C106 follows values through time; C107 gives the whole state. TestWorld.v shows that a step of the runner is at most one operation, so the statement carries over to whole test runs. RelatedWorldProps.v does the same for reads over a direct relation.
`C107_machine`, `C107_read`, `C107_show_all_refuted`, `C107_show_all_again`, `C107_step`, `C107_tests`, `C107_related`

**C108 Fields in calculations are those of the layout shown** (proved). FieldSpec.v says when two calculation trees differ only in the occurrences their fields name; FieldProps.v proves by induction over the trees that they evaluate alike, reads a field off the machine of C107 (WorldSpec.v) with all aborts, and has the witness, run by the test runner, against the expected reading. C108_texts carries this over to texts with the grammar of C34 and the spelling of C38; C108_criteria is about the step Perform Find.
`C108_field`, `C108_names`, `C108_occurrence_refuted`, `C108_number`, `C108_criteria`, `C108_texts`

**C109 Laws of the operations on the test database** (proved). LawSpec.v lists the laws and closes them under context, symmetry and repetition. Law.v proves each for the machine of C107 up to equality of worlds, which every operation respects; LawProps.v carries them to the database with C107_machine and to reads with C107_read and C108_field. Unique.v shows that operations keep the names of tables and fields, the index and the relation graph, so that two databases from the same start that represent the same world are equal (C109_determined, C109_same).
`C109_laws`, `C109_reads`, `C109_same`, `C109_determined`, `C109_there_and_back_refuted`, `C109_find_undone_refuted`, `C109_occurrences_refuted`

**C110 The clock is never read** (proved). ClockSpec.v changes the time in the surroundings `fenv`, and runs a test with another time during each step. Clock.v shows that evaluation reads the clock only in a unary node, which the parser never makes (C36_no_odd_nodes), and carries this through the steps, the tests and the program. ClockTalk.v does the same for the lines printed (TalkModel.v and WholeModel.v) and their texts (WordsModel.v and MutterModel.v).
`C110_calculation`, `C110_current_time_refuted`, `C110_moving`, `C110_tests`, `C110_program`, `C110_printed_compile`, `C110_printed_decompile`

## 5. Assumptions of the theorems

Every theorem in the manifest is followed by `Print Assumptions`. All of them print `Closed under the global context`: no axiom, no parameter,
no section variable. `coqchk` lists seven constants of `Coq.ssr.ssrunder`, which the standard library loads; no theorem uses them.

## 6. Wrong programs

`seeded/LOG.jsonl` lists edits of the model that stand for bugs, one per line: the definition edited, the edit, the claim it breaks,
the theorems that no longer prove, and the theorems that were added or tightened because of it. Each was built in a copy of `rocq/`.
The build stops at the first proof that fails (`failing_lemma`); `theorems_failed` lists the theorems that this lemma is or that rest on it,
and `properties_hit` their properties. A theorem in that list no longer builds, which does not mean that each of them is false of the edited model.
An edit that the build at the time did not notice has an empty `theorems_failed` and names the theorem that was added or tightened because of it.
These edits were run again on a later build, in lines of their own that are marked as reruns.

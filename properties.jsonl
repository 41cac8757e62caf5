{"id": "C01", "title": "Path numbers survive encode/decode exactly below 384", "statement": "Writing a path number with put_path_int and reading it back with get_path_int returns the same number if and only if the number is below 384; above that the reader returns a different number.", "quantifier": "every u32 n", "why_tests_cant": "A test samples a few numbers; the claim is an iff over the whole u32 range and pins the exact threshold.", "anchors": ["src/encoding_util.rs::put_path_int", "src/encoding_util.rs::get_path_int"]}
{"id": "C02", "title": "Path number encoding is canonical and its aliasing is known exactly", "statement": "put_path_int produces one byte below 0x80 for numbers under 128 and otherwise two bytes whose first byte is in 0xFC..0xFF; two numbers have the same encoding exactly when they are equal or are both at least 128 and congruent modulo 1024. In particular it is injective below 1152 and not injective beyond.", "quantifier": "every pair of u32 numbers", "why_tests_cant": "Collisions are a statement about pairs over a 2^64 space.", "anchors": ["src/encoding_util.rs::put_path_int"]}
{"id": "C03", "title": "Plain integers survive put_int/get_int", "statement": "put_int gives exactly four bytes that are the big-endian representation of n, and get_int of them is n, for every n below 2^24; in a debug build put_int aborts for every larger n, in a release build it works below 2^32 and aborts from 2^32 on.", "quantifier": "every usize n, both build profiles", "why_tests_cant": "Range is unbounded for tests; the abort threshold is an iff.", "anchors": ["src/encoding_util.rs::put_int", "src/encoding_util.rs::get_int"]}
{"id": "C04", "title": "get_int reads big endian for widths 1, 2, 4 and is 0 for every other width", "statement": "get_int returns the positional base-256 value of slices of length 1, 2 and 4 and returns 0 for slices of any other length, including 3.", "quantifier": "every byte slice", "why_tests_cant": "Quantifies over all slices and all lengths.", "anchors": ["src/encoding_util.rs::get_int"]}
{"id": "C05", "title": "Text obfuscation is lossless on every Unicode string", "statement": "fm_string_decrypt(fm_string_encrypt(s)) = s, the ciphertext has the UTF-8 length of s, and encryption is injective. Decrypting bytes that do not unmask to UTF-8 gives the fixed message instead of failing.", "quantifier": "every Unicode string and every byte string", "why_tests_cant": "Needs all code points including 2, 3 and 4 byte sequences, and all invalid byte strings.", "anchors": ["src/encoding_util.rs::fm_string_encrypt", "src/encoding_util.rs::fm_string_decrypt"]}
{"id": "C06", "title": "Sort-form text round trips up to ASCII case on the supported alphabet", "statement": "For text made only of supported characters (after ASCII lower-casing) decoding the encoded pairs followed by the terminator returns the lower-cased text.", "quantifier": "every string over the supported alphabet", "why_tests_cant": "Unbounded strings and two independent hand-written tables have to be mutually inverse.", "anchors": ["src/dbcharconv.rs::encode_text", "src/dbcharconv.rs::decode_bytes", "src/dbcharconv.rs::encode_char", "src/dbcharconv.rs::decode_char"]}
{"id": "C07", "title": "Unsupported characters and byte pairs degrade in one known way", "statement": "Any character outside the alphabet encodes to the pair (0,0), any unknown pair decodes to '?', encoding has exactly two bytes per character, and two strings have the same encoding exactly when they agree position by position up to case or are both unsupported there.", "quantifier": "every string and every byte string", "why_tests_cant": "Universally quantified over all characters and pairs.", "anchors": ["src/dbcharconv.rs::encode_char", "src/dbcharconv.rs::decode_char", "src/dbcharconv.rs::encode_text"]}
{"id": "C08", "title": "Reading one chunk makes progress except for one opcode family", "statement": "Whenever reading a chunk succeeds, the read position strictly increases, except exactly for opcode 0x0F (or its delayed-pop forms) not followed by 0x80, where it does not move at all and the caller reads the same chunk for ever.", "quantifier": "every buffer, position and starting path", "why_tests_cant": "Non-termination cannot be observed by a finishing test; the iff is over all byte buffers.", "anchors": ["src/chunk.rs::get_chunk_from_code"]}
{"id": "C09", "title": "Chunk payloads lie inside the buffer and right before the new position", "statement": "When reading a chunk succeeds, the payload and the reference bytes are contiguous parts of the buffer after the opcode. They end at or before the new position, except that the payload of opcode 0x38 and the reference of opcode 0x1F may reach past it. The new position is inside the buffer unless the opcode is 0x00, 0x19..0x1D or 0x38, each of which can leave it outside.", "quantifier": "every buffer and position", "why_tests_cant": "Memory-safety style claim over all inputs.", "anchors": ["src/chunk.rs::get_chunk_from_code"]}
{"id": "C10", "title": "Reading one chunk changes the directory path by at most one element at its end", "statement": "The kind of the chunk read and the delayed-pop bit of its opcode byte determine the directory path: a push appends one number below 384, a pop removes the last element, everything else leaves the path alone, and then the delayed bit removes one more. A single chunk can thus leave two directories. The path stored in the chunk is the new path.", "quantifier": "every buffer, position and path", "why_tests_cant": "Universally quantified over path stacks of any depth.", "anchors": ["src/chunk.rs::get_chunk_from_code"]}
{"id": "C11", "title": "Chunk reading is local", "statement": "On buffers of at least two bytes, the result of a successful read depends only on the bytes from the read position on: it is unchanged by replacing everything before the position and by appending bytes after it, with the new position moved along. On a one byte buffer opcode 0 breaks this.", "quantifier": "every two buffers agreeing on the read region", "why_tests_cant": "Relational property over pairs of inputs.", "anchors": ["src/chunk.rs::get_chunk_from_code"]}
{"id": "C12", "title": "The chunk opcode table", "statement": "The reader agrees on every input with a declarative opcode table giving for each opcode the instruction kind, the width of the reference, the way the payload length is found and the trailing bytes.", "quantifier": "every buffer, position and path", "why_tests_cant": "Functional equivalence over all buffers.", "anchors": ["src/chunk.rs::get_chunk_from_code"]}
{"id": "C13", "title": "A short key/value written by the assembler is read back exactly for the known lengths", "statement": "Emitting a simple key/value and reading it with the chunk reader returns the same key and the same value and stops exactly at its end if and only if the value length is 1, 2, 4, 6, 8 or between 10 and 255, or the key is one of the forced keys and length at most 255; for all other lengths something else is read.", "quantifier": "every key below 256 and every value", "why_tests_cant": "An iff over all values of all lengths across writer and reader.", "anchors": ["src/compile/assembler.rs::emit_simple_kv", "src/compile/assembler.rs::calc_small_kv_ins", "src/chunk.rs::get_chunk_from_code"]}
{"id": "C14", "title": "Every other emitted chunk form is read back exactly", "statement": "Extended key/value, long key/value, trailing data, directory push, pop and no-op chunks emitted by the assembler are read back as the same chunk, the path stack follows pushes and pops.", "quantifier": "every key, value and context in the stated length ranges", "why_tests_cant": "Round-trip over all values.", "anchors": ["src/compile/assembler.rs::emit_simple_kv_e", "src/compile/assembler.rs::emit_long_kv", "src/compile/assembler.rs::push_directory", "src/compile/assembler.rs::pop_directory", "src/chunk.rs::get_chunk_from_code"]}
{"id": "C15", "title": "The assembled image has a fixed size and a valid sector chain", "statement": "If assembling succeeds the image has exactly 20479 bytes and following the next-pointers from sector 1 visits sector 4 and then ends.", "quantifier": "every schema", "why_tests_cant": "All schemas; the property is about layout arithmetic.", "anchors": ["src/compile/assembler.rs::assemble", "src/compile/assembler.rs::append_blank_chunk"]}
{"id": "C16", "title": "Directory pushes and pops balance in the assembled image", "statement": "For every schema that fits into the metadata sector with table names of at most 126 and occurrence names of at most 125 characters, reading sector 2 of the assembled image chunk by chunk covers the sector and ends with an empty path, for any number of tables, relationships and fields.", "quantifier": "every schema that fits with names short enough for one length byte", "why_tests_cant": "Unbounded number of components, needs induction.", "anchors": ["src/compile/assembler.rs::emit_table_metadata", "src/compile/assembler.rs::emit_relationship_data", "src/compile/assembler.rs::push_directory", "src/compile/assembler.rs::pop_directory"]}
{"id": "C17", "title": "Decompiling an assembled file does not give the schema back", "statement": "The expectation decompile(assemble(f)) = f is false: for every schema that fits (table names at most 126, occurrence names at most 125 characters), the decompiler succeeds on the assembled image and finds no component at all.", "quantifier": "every schema that fits with names short enough for one length byte", "why_tests_cant": "A test only shows one schema failing; the claim is universal.", "anchors": ["src/compile/assembler.rs::assemble", "src/decompile/decompiler.rs::decompile_fmp12_file"]}
{"id": "C18", "title": "Reading sectors ends exactly when the chain of next-pointers ends", "statement": "Decompiling produces a result only if following next-pointers from sector 2 reaches 0; on any file whose chain is cyclic it never produces one. Conversely, if the chain ends and the bytes 0x0F and 0xCF are always followed by 0x80, decompiling stops; without that condition there is a file with an ending chain on which it runs for ever.", "quantifier": "every file image", "why_tests_cant": "Non-termination is not testable.", "anchors": ["src/decompile/decompiler.rs::decompile_fmp12_file", "src/decompile/sector.rs::get_sector"]}
{"id": "C19", "title": "Sector headers are decoded as laid out; payload runs to the end of the file", "statement": "For each sector index the decoded header fields are the big-endian fields at the documented offsets (deleted flag at 0, level the single byte at 1, previous at 4, next at 8) and the payload is everything from byte 20 of the sector to the end of the file, not only the rest of the 4096 byte sector; fewer than 20 bytes abort.", "quantifier": "every image and sector index in range", "why_tests_cant": "All images.", "anchors": ["src/decompile/sector.rs::get_sector"]}
{"id": "C20", "title": "Script segments are joined in index order whatever order they arrive in", "statement": "The steps recovered for a script depend only on the final set of (index, bytes) segments and are those of the concatenation in increasing index order; the order of arrival and hash-map iteration order do not matter.", "quantifier": "every set of segments and every arrival order", "why_tests_cant": "Permutation-invariance over unbounded sets.", "anchors": ["src/decompile/decompiler.rs::decompile_fmp12_file"]}
{"id": "C21", "title": "Step opcode numbers map to the step with that number", "statement": "For every opcode byte below 254 the recovered step is the step whose declared number is that byte; byte 254 gives the step numbered 255, byte 255 aborts.", "quantifier": "every byte", "why_tests_cant": "Exhaustive over 256 entries of a hand-written table.", "anchors": ["src/fm_script_engine/fm_script_engine_instructions.rs::INSTRUCTIONMAP"]}
{"id": "C22", "title": "Compiled calculations are rendered back token by token", "statement": "For every sequence of calculation tokens, decoding its byte form gives the concatenation of the tokens' source text, provided literal text is ASCII; text with a byte of 128 or more is garbled; a byte form cut off inside a token aborts. What arbitrary bytes decode to, and that they abort otherwise, is given by one grammar of all byte sequences: bytes without meaning are skipped, and a number may end early at the end.", "quantifier": "every token sequence", "why_tests_cant": "Unbounded sequences; needs induction.", "anchors": ["src/decompile/decompiler.rs::decompile_calculation"]}
{"id": "C23", "title": "Tables, fields, layouts, occurrences, relations, scripts and data sources stored in a file are recovered under their ids", "statement": "For every schema (table ids below 128, directory numbers below 384, names of at most 255 bytes) stored as directories and key/values with tables before their fields, and spread over any number of chained sectors at directory-balanced points, decompiling the file yields exactly the components with these names, contents and ids; relations are numbered in order and stored once per pair. Value lists, tests and the file name are never recovered from any file. With table ids of 128 or more, or with fields stored before tables, the claim fails (abort, or lost fields).", "quantifier": "every schema within the stated bounds and every way to cut it into sectors", "why_tests_cant": "Unbounded streams.", "anchors": ["src/decompile/decompiler.rs::decompile_fmp12_file"]}
{"id": "C24", "title": "External file locations are extracted or the program aborts", "statement": "SourceFileLocation::from_bytes on bytes without the marker pair aborts; otherwise it returns the text found by the documented substitutions.", "quantifier": "every byte string", "why_tests_cant": "Abort-freedom over all inputs.", "anchors": ["src/component.rs::SourceFileLocation::from_bytes"]}
{"id": "C25", "title": "The relation graph is symmetric and has no duplicate edges", "statement": "After any sequence of insertions the neighbours of an occurrence are exactly those inserted for it, in order of first insertion and without repetition; if only add_relation is used, b is a neighbour of a iff a is a neighbour of b iff some insertion mentioned the pair in either order.", "quantifier": "every sequence of add_node and add_relation calls", "why_tests_cant": "Invariant over all histories.", "anchors": ["src/testing/relation_mgr.rs::add_node"]}
{"id": "C26", "title": "Relation paths are real, found whenever they exist, and shortest", "statement": "get_path(a,b) always ends; when it returns a path it starts at a, ends at b and each step is an edge; it returns one whenever b can be reached in at least one step; no path with at least one edge is shorter; and among equally short ones it is the one through the earliest inserted neighbours.", "quantifier": "every graph built by insertions and every pair of occurrences", "why_tests_cant": "Graph search correctness over all graphs.", "anchors": ["src/testing/relation_mgr.rs::get_path"]}
{"id": "C27", "title": "A path from an occurrence to itself goes through a neighbour", "statement": "get_path(a,a) is never the trivial path: it is a-a if a is related to itself, otherwise a-b-a through the first neighbour b, or none if a has no neighbour.", "quantifier": "every graph built by add_relation calls", "why_tests_cant": "All graphs.", "anchors": ["src/testing/relation_mgr.rs::get_path"]}
{"id": "C28", "title": "Tables stay rectangular", "statement": "In every database reached from a generated one by creating records, writing fields, finding, showing all records, moving between records, changing layouts and clearing records, all fields of a table have the same number of records, and that is what get_records_n reports.", "quantifier": "every file whose maps have distinct keys, every operation sequence, every table", "why_tests_cant": "Invariant over unbounded operation histories.", "anchors": ["src/testing/database.rs::create_record", "src/testing/database.rs::clear_records", "src/testing/database.rs::get_records_n", "src/testing/database.rs::generate_from_fmp12"]}
{"id": "C29", "title": "Found sets only name existing records", "statement": "In every database reached from a generated one without clear_records, each found set is strictly ascending and each entry is the number of an existing record of the occurrence's table. After clear_records found sets keep naming records that no longer exist.", "quantifier": "every file, every operation sequence, every occurrence", "why_tests_cant": "Invariant; the refutation needs a concrete history.", "anchors": ["src/testing/database.rs::create_record", "src/testing/database.rs::update_found_set", "src/testing/database.rs::reset_found_set", "src/testing/database.rs::clear_records"]}
{"id": "C30", "title": "Creating a record appends one blank row and shows it in every occurrence of the table", "statement": "create_record adds exactly one record with every field empty at the end of the current occurrence's table, appends its number to the found set of every occurrence of that table, makes it the current record of each of them, and changes nothing else. It aborts when the current occurrence or its table does not exist or the table has no fields.", "quantifier": "every database state in which the table is rectangular", "why_tests_cant": "Frame condition over all states.", "anchors": ["src/testing/database.rs::create_record"]}
{"id": "C31", "title": "Writing a field changes that field of that record only", "statement": "Writing field f of occurrence o through get_current_record_by_table_field_mut changes exactly one stored value: that of the first field named f of o's table in o's current record. Reading it back with get_current_record_by_table_field gives the written value. With no current record it is an error. A read through the found set of the current occurrence (get_found_set_record_field) need not see the write.", "quantifier": "every database state, occurrence, field and value", "why_tests_cant": "Read-over-write and frame for all states.", "anchors": ["src/testing/database.rs::get_current_record_by_table_field_mut", "src/testing/database.rs::get_current_record_by_table_field", "src/testing/database.rs::get_found_set_record_field"]}
{"id": "C32", "title": "Record navigation stays within the found set", "statement": "Going to the first, previous, next, last or n-th record moves only the current occurrence's pointer: to 0, one back (not below 0), one on (not past the end), to the end, to min(n, last). On an empty found set first and previous leave it at 0 and the others abort. Without clear_records a non-empty found set always has a current record, and it exists.", "quantifier": "every database state; every reached state for the last sentence", "why_tests_cant": "All states, includes underflow.", "anchors": ["src/testing/database.rs::goto_record", "src/testing/database.rs::goto_first_record", "src/testing/database.rs::goto_last_record", "src/testing/database.rs::goto_previous_record", "src/testing/database.rs::goto_next_record"]}
{"id": "C33", "title": "Related-field lookup over one relation returns the first matching record", "statement": "With a direct relation from the current occurrence, the lookup returns the requested field of the first record whose match field compares as the relation says, or an error if there is none; without any chain of relations it is an error. Less and Greater also relate equal values; a relation seen from its second side is not turned round; over two relations the value compared second is the one matched first, so a lookup over two relations can fail although each step succeeds.", "quantifier": "every reached database, occurrence and field", "why_tests_cant": "All tables and values.", "anchors": ["src/testing/database.rs::get_related_record_field"]}
{"id": "C34", "title": "Operator expressions are parsed with the usual precedence and left associativity", "statement": "Every token list spelled by the usual grammar of calculations without calls (numbers, texts, fields, variables, parentheses; * and / bind tighter than + and -, then &, then comparisons, all left associative) is parsed to exactly the tree it spells. Tokens after a complete calculation are ignored unless they continue it, so token lists outside the grammar are not refused.", "quantifier": "every token list of the grammar, and every continuation", "why_tests_cant": "Unbounded expression trees; needs induction over the grammar.", "anchors": ["src/testing/calc_eval.rs::Parser"]}
{"id": "C35", "title": "A function call swallows the operators that follow it", "statement": "The expectation that f(x)+y is the sum of f(x) and y is false: for every function name, argument and right operand the following sums and products go into the argument; a comparison with a call, a text joined to a call and a second argument of one token are dropped altogether.", "quantifier": "every argument and right operand", "why_tests_cant": "Universal statement of misbehaviour.", "anchors": ["src/testing/calc_eval.rs::Parser::parse_args", "src/testing/calc_eval.rs::Parser::parse_factor"]}
{"id": "C36", "title": "The calculation parser never builds unary or grouping nodes", "statement": "No token list makes the parser return a tree containing a unary or grouping node, and a parsed call of Get with an argument therefore always evaluates to the text 'Unknown argument for Get(): ' followed by the debug form of its first argument.", "quantifier": "every token list", "why_tests_cant": "Universal over inputs.", "anchors": ["src/testing/calc_eval.rs::Parser"]}
{"id": "C37", "title": "The calculation parser ends except on a dangling open parenthesis", "statement": "What the parser answers is decided by a fuel of ten steps per token; it answers (with a tree or an abort) unless the last token is an open parenthesis, and on any number of open parentheses alone it never ends.", "quantifier": "every token list", "why_tests_cant": "Termination.", "anchors": ["src/testing/calc_eval.rs::Parser"]}
{"id": "C38", "title": "Arithmetic in calculations", "statement": "If both operands give numeric texts, + - * / give the formatted result of the float operation; more generally, operands are resolved (variables, fields, chains of names) first, and the result is the text undefined as soon as one of them stands for a text. The text of a whole arithmetic expression with parentheses evaluates to its value, provided the numbers met on the way read back as they are written.", "quantifier": "every operand text and every float implementation", "why_tests_cant": "All strings.", "anchors": ["src/testing/test.rs::evaluate"]}
{"id": "C39", "title": "Comparisons in calculations are on text", "statement": "The result of < <= > >= == != is decided by comparing the operand texts in dictionary order of code points, which is the order of their UTF-8 bytes; the numeric expectation 9 < 10 is therefore false.", "quantifier": "every pair of operands", "why_tests_cant": "All operand pairs.", "anchors": ["src/testing/test.rs::evaluate"]}
{"id": "C40", "title": "Concatenation joins operand texts", "statement": "a & b gives, in quotes, the text of a followed by that of b with every double quote character removed; for operands that are quoted or plain texts without inner quotes it is exactly their concatenation; & is associative. A double quote produced by Char(34) is lost.", "quantifier": "every operand text", "why_tests_cant": "All strings.", "anchors": ["src/testing/test.rs::evaluate"]}
{"id": "C41", "title": "Empty string literals disappear from calculations", "statement": "A string literal without any letter or digit contributes no token. A comparison whose right side is such a literal evaluates to its left side, in particular name==\"\" evaluates exactly as name, giving neither true nor false; name&\"\" aborts.", "quantifier": "every identifier and state", "why_tests_cant": "Universal.", "anchors": ["src/testing/test.rs::eval_calculation"]}
{"id": "C42", "title": "Calculation text is tokenised back into its tokens", "statement": "For every token sequence written out in the stated way (spaces optional where a following character ends the word) lexing gives back the same tokens; lexing ends on every text. A tab does not separate words, a single = leaves no token and at the end of the text aborts.", "quantifier": "every token sequence in the stated printable class", "why_tests_cant": "Unbounded sequences.", "anchors": ["src/testing/test.rs::eval_calculation"]}
{"id": "C43", "title": "A flat if/else-if/else runs exactly one branch", "statement": "For a test whose script is an if block (any number of else-if branches, with or without else, branch bodies of steps without control flow) followed by steps without control flow: the test can end in a state exactly if executing the body of the first branch whose condition evaluates to the text true (otherwise the else body), followed by the steps after the block, in order up to a failed assertion, ends in that state. More generally, for every script in which no loop is inside a loop, no if inside an if, no exit inside an if and calls are outside of both (also in called scripts), the runner's result is that of a structured big-step semantics, in both directions.", "quantifier": "every number of branches, bodies and conditions", "why_tests_cant": "Unbounded programs.", "anchors": ["src/testing/test.rs::step", "src/testing/test.rs::run_tests"]}
{"id": "C44", "title": "A flat loop repeats its body until the exit condition holds", "statement": "For a test whose script is a loop (steps, one exit condition, steps; all without control flow) followed by steps without control flow: the test can end in a state exactly if repeating the rounds - steps before the exit condition, exit condition not true, steps after - until the exit condition evaluates to true, then the following steps, ends in that state; failed assertions end the test at once.", "quantifier": "every body and number of iterations", "why_tests_cant": "Unbounded iteration.", "anchors": ["src/testing/test.rs::step"]}
{"id": "C45", "title": "Nested loops and nested ifs are not respected", "statement": "The statement that the runner implements structured control flow for all scripts is false, with witnesses for each: a loop inside a loop (the outer body is not repeated), an if inside an if with false condition (steps after the inner block run), an exit inside an if inside a loop (the else branch of the next block is passed over), and a call, inside a loop, of a script with its own loop (the first step of the outer body is left out from then on).", "quantifier": "existence of counterexamples", "why_tests_cant": "A passing suite cannot show it; an explicit witness is proved.", "anchors": ["src/testing/test.rs::step"]}
{"id": "C46", "title": "Straight-line scripts run every step once and end", "statement": "A test whose script has no control flow executes each step once, in order, up to a failed assertion: it can end in a state exactly if that sequence of effects leads there; and with more fuel than steps the run never is unfinished (so it ends or panics).", "quantifier": "every straight-line script", "why_tests_cant": "Unbounded length.", "anchors": ["src/testing/test.rs::step", "src/testing/test.rs::run_tests"]}
{"id": "C47", "title": "Once a test failed, no later test runs", "statement": "If a test has failed, each later test of the file is reported as failed while none of its steps is executed: the database, find mode and criteria stay as they are and only one empty variable scope is added per test. Hence the reports of a finished run are successes up to the first failure and failures from there on.", "quantifier": "every test list", "why_tests_cant": "Universal over test lists.", "anchors": ["src/testing/test.rs::run_tests"]}
{"id": "C48", "title": "An assertion fails exactly on the text false", "statement": "A step Assert with a calculation goes well exactly if the calculation evaluates to some text; if this is the text false the test is marked as failed, and with any other text (including an empty result and a name that is not defined) nothing but the position changes.", "quantifier": "every state and assertion", "why_tests_cant": "All evaluation results.", "anchors": ["src/testing/test.rs::step"]}
{"id": "C49", "title": "Performing an unknown script never ends", "statement": "If the current step performs a script and no script of the file has the given name, the run of the test does not end for any number of steps (in every state with one variable scope per running script, which all reached states have).", "quantifier": "every state and file", "why_tests_cant": "Non-termination.", "anchors": ["src/testing/test.rs::step"]}
{"id": "C50", "title": "Finds return exactly the matching records in record order", "statement": "Perform find sets the found set of the current occurrence to the records that satisfy at least one criterion, in increasing order without duplicates, with the pointer at the first; if there is none, to all records of the table with the pointer unchanged. No other occurrence and no stored value changes, find mode ends and the criteria are cleared. It goes well whenever all criteria name fields of the current table, which has a field.", "quantifier": "every database and criteria", "why_tests_cant": "Universal over data.", "anchors": ["src/testing/test.rs::step", "src/testing/database.rs::update_found_set"]}
{"id": "C51", "title": "Script blocks are flattened faithfully", "statement": "For every list of structured scripts (any nesting of loops, ifs, else-ifs and else), parsing its tokens gives scripts with the same names and parameters whose flat instruction list is the structure: begin and end markers at the right places, steps in order with their arguments. Steps with unknown words are silently left out, and a text with a missing closing bracket is accepted: the next script becomes part of the first. The parser's error value is never returned.", "quantifier": "every structured script", "why_tests_cant": "Arbitrary nesting depth.", "anchors": ["src/burn_script/parser.rs", "src/burn_script/lexer.rs"]}
{"id": "C52", "title": "Script source text is lexed into its tokens", "statement": "The script tokeniser gives exactly the tokens described by a separate grammar of words, operators and argument lists; it always ends, and panics only when the text ends with one of ! = > <. So every structured script whose names are words and whose arguments are balanced can be written as text and is compiled back to its steps. Commas and parentheses inside string literals are not protected, and arguments keep trailing spaces.", "quantifier": "every such script", "why_tests_cant": "Unbounded text.", "anchors": ["src/burn_script/lexer.rs"]}
{"id": "C53", "title": "Schema components get consecutive ids in source order", "statement": "A schema text compiles exactly when it has the tokens of a list of components (tables, value lists, relationships, table occurrences, script blocks, tests; only the last may lack its end). The file then has the tables, value lists and scripts numbered 1,2,3,... and the occurrences numbered 0,1,2,... in source order, each with its name, and the tests in order; nothing else. Compiling always ends; every other text makes it panic.", "quantifier": "every text", "why_tests_cant": "Unbounded sequences.", "anchors": ["src/compile/parser.rs::parse_program"]}
{"id": "C54", "title": "Relationships overwrite each other", "statement": "A relationship gets the number of tables declared before it plus one as its id, so of several relationships with no table between them only the last is kept, and a file never has more relationships than tables plus one. That every declared relationship is kept is false.", "quantifier": "every text that compiles", "why_tests_cant": "Universal.", "anchors": ["src/compile/parser.rs::parse_program"]}
{"id": "C55", "title": "Merging several input files keeps the last component for each id", "statement": "The file that is tested and assembled has for every id the component (table, relationship, layout, value list, script, occurrence) of the last input file that defines one under that id, and nothing else; its tests are those of the test files followed by those of the input files, in order. Since compiled files number their tables 1, 2, 3, ..., the i-th table is that of the last input with so many tables, and the merged file has only as many tables as the largest input: files with overlapping ids lose components.", "quantifier": "every list of input files", "why_tests_cant": "Universal over files.", "anchors": ["src/main.rs"]}
{"id": "C56", "title": "Layouts map to the occurrence registered last under their name", "statement": "Looking a layout name up gives the occurrence of the latest insertion with that name. In a generated environment with unique layout names, exactly the layouts of the file are found, with their occurrences, for every order in which the hash map is visited; with a name used twice the result depends on that order.", "quantifier": "every insertion sequence", "why_tests_cant": "All histories.", "anchors": ["src/testing/layout_mgr.rs", "src/testing/test.rs::generate_layout_mgr"]}
{"id": "C57", "title": "Schema source text is lexed into its tokens", "statement": "The schema tokeniser gives exactly the tokens described by a separate grammar of words, signs, strings, calculations and blocks, and always ends. So every list of components, with any fields, options, values and criteria, can be written and compiles to its components. Fields, options, values and criteria are not kept; a word such as 1st swallows the words after it; a closing quote is glued to the next word; a component with a missing end swallows its successors; no text gives a test assertions.", "quantifier": "every text; every list of components", "why_tests_cant": "Unbounded text.", "anchors": ["src/compile/lexer.rs::tokenize"]}
{"id": "C58", "title": "The sort form preserves order", "statement": "Comparing the sort forms of two texts over the supported alphabet bytewise gives the same result as comparing the case-folded texts alphabetically.", "quantifier": "every two texts over the supported alphabet", "why_tests_cant": "Order preservation is a relation over all pairs of strings.", "anchors": ["src/dbcharconv.rs::encode_text"]}
{"id": "C59", "title": "The test database is set up as the file describes", "statement": "generate_from_fmp12 puts each table under its number with its fields under theirs and no records, each occurrence under its number with the two sides of its relations, relates two occurrences in the graph exactly if a relationship names them, finds each occurrence by its (unique) name and makes the one with the smallest number current. It aborts exactly when a relationship names an occurrence number past the largest one.", "quantifier": "every file whose maps have distinct keys, in any iteration order of the maps", "why_tests_cant": "the maps are iterated in arbitrary order and numbers may have gaps", "anchors": ["src/testing/database.rs::generate_from_fmp12"]}
{"id": "C60", "title": "Related fields cannot be written or enumerated", "statement": "get_related_record_field_mut and get_nth_related_record_field abort in every reachable database.", "quantifier": "every reached database, occurrence and field name", "why_tests_cant": "a test can only show single aborts", "anchors": ["src/testing/database.rs::get_related_record_field_mut", "src/testing/database.rs::get_nth_related_record_field"]}
{"id": "C61", "title": "The calculation parser invents nothing", "statement": "For every token list that is parsed, the literals, names and operators of the tree, read from left to right, are tokens of the list in the same order; tokens may be left out but never changed, reordered or made up.", "quantifier": "every token list", "why_tests_cant": "Universal over inputs, and over all the ways in which tokens are skipped.", "anchors": ["src/testing/calc_eval.rs::Parser"]}
{"id": "C62", "title": "What an operand of a calculation stands for", "statement": "An operand that is a number or a quoted text stands for itself, a Table::Field for the value in the current record, any other name for what its variable in the current scope holds, looked up again until a number or quoted text is found (or the name is unset). The answer is unique, and the lookup fails to end exactly if some name met on the way leads back to itself; a variable holding its own name is such a case, so evaluation of a calculation may never end.", "quantifier": "every operand text, every scope and database", "why_tests_cant": "Unbounded chains of names and termination.", "anchors": ["src/testing/test.rs::evaluate", "src/testing/test.rs::get_operand_val"]}
{"id": "C63", "title": "Min returns a smallest argument", "statement": "Wherever the order on numbers is total (all numbers but NaN), evaluating a Min node with numeric arguments gives the text of one of the arguments, and no argument is smaller. (Written with commas in a text, only the first argument survives the parser: Min(2, 1) gives 2.)", "quantifier": "every argument list and every float implementation that is totally ordered apart from NaN", "why_tests_cant": "Unbounded argument lists.", "anchors": ["src/testing/test.rs::evaluate", "src/testing/test.rs::get_operand_val"]}
{"id": "C64", "title": "Char gives the numbered character", "statement": "If the argument gives a decimal numeral of a Unicode scalar value, Char gives that character in quotes.", "quantifier": "every numeral and scalar value", "why_tests_cant": "More than a million characters and unbounded leading zeros.", "anchors": ["src/testing/test.rs::evaluate", "src/testing/test.rs::get_operand_val"]}
{"id": "C65", "title": "Each plain script step has exactly its defined effect", "statement": "For every step that is not part of control flow, in every state of the runner: the step goes well exactly if its effect (set variable, set field, go to layout, records first/last/next/previous, new and delete record, enter find mode, perform find, show all, assert, and steps that are ignored) is defined on the database, variables and criteria, and then exactly this effect happens and the position moves on by one.", "quantifier": "for all steps, runner states, files and evaluation oracles", "why_tests_cant": "The property ranges over all databases and calculations, and over the absence of other effects; tests check single results.", "anchors": ["src/testing/test.rs::step"]}
{"id": "C66", "title": "Calling a script", "statement": "Performing a script that exists starts it at its first step one level deeper, with the caller going on after the call; its variables are the scope whose number is its depth, which is empty on the first call at that depth. The statement that each call starts without variables is false: the second call at the same depth finds the variables of the first.", "quantifier": "for all states whose current step performs an existing script; witness for the refutation", "why_tests_cant": "Leaking variables are visible only for particular sequences of calls; the absence of other effects is not testable.", "anchors": ["src/testing/test.rs::step"]}
{"id": "C67", "title": "Tests keep the database in its invariants", "statement": "Every database that is reached while tests run (any scripts, any number of tests, with or without clean-up) is one reached by the database operations from the generated one, so all found sets name existing records in increasing order, relations stay sound, and all other results on databases apply.", "quantifier": "for all files with proper maps, tests, numbers of steps", "why_tests_cant": "The claim is an invariant over unboundedly many script runs.", "anchors": ["src/testing/test.rs::step", "src/testing/test.rs::run_tests", "src/testing/test.rs::run_tests_with_cleanup"]}
{"id": "C68", "title": "Tests are not independent of each other", "statement": "The statement that the result of a test does not depend on the tests before it is false: a variable set by one test makes another pass that fails on its own, and records created by one test make another fail that passes on its own, also with clean-up, which only happens at the end.", "quantifier": "witnesses", "why_tests_cant": "The tests of the repository run one test per environment.", "anchors": ["src/testing/test.rs::run_tests", "src/testing/test.rs::run_tests_with_cleanup"]}
{"id": "C69", "title": "Script source text runs as its structure says", "statement": "If a test's script is compiled from any text with the tokens of a structured script and the structure is one the runner respects, then the run of the test ends in a given state exactly when the structured semantics of the script does.", "quantifier": "every text, structured script, environment and final state", "why_tests_cant": "Unbounded nesting, loops, texts and values.", "anchors": ["src/burn_script/compiler.rs", "src/burn_script/lexer.rs", "src/burn_script/parser.rs", "src/testing/test.rs"]}
{"id": "C70", "title": "Tests written in a schema run as their structure says", "statement": "A test component whose script is the text of a structured script the runner respects is compiled to a test whose run ends in a given state exactly when the structured semantics of the script does.", "quantifier": "every schema, structured script, environment and final state", "why_tests_cant": "Unbounded texts, nesting, loops and values.", "anchors": ["src/compile/compiler.rs", "src/compile/parser.rs", "src/compile/lexer.rs", "src/burn_script", "src/testing/test.rs"]}
{"id": "C71", "title": "The program tests and writes everything collected so far after each input", "statement": "Compiling goes through the inputs in order: for each, everything collected so far is shown, all tests collected so far are run (unless --no-testing), and the assembled file is written as name.fmp12 where the input is name.burn. Decompiling shows each decompiled file, tests everything collected, and writes nothing. An input that does not compile, is not called *.burn or makes the file too large, and a test that panics, end the program with a panic; what was written for earlier inputs stays, nothing is written for later ones. A test file that does not compile ends the program before anything happens. Earlier tests are run again after each later input, against the merged file, so that files which are fine alone can hang together.", "quantifier": "every command line, every list of input and test files, every order of the hash maps", "why_tests_cant": "Universal over file lists and hash map orders; includes a non-termination.", "anchors": ["src/main.rs:21-96"]}
{"id": "C72", "title": "Decompiled and collected files are well-formed", "statement": "In every decompiled file no id occurs twice in a map, occurrences and relationships have the ids 1..n, and the fields of every table are in ascending order. Files collected from compiled and decompiled files have no id twice either, so they satisfy what the database generator relies on.", "quantifier": "every byte string that decompiles, every list of input files, every hash map order", "why_tests_cant": "Universal over files.", "anchors": ["src/decompile/decompiler.rs:115-420", "src/main.rs:21-96"]}
{"id": "C73", "title": "A file written by the compiler decompiles to an empty file", "statement": "Decompiling any file the program has written while compiling gives an empty file: no tables, occurrences, scripts or layouts (for names of at most 125 characters).", "quantifier": "every command line, all input files, every order of the hash maps", "why_tests_cant": "Universal over schemas; combines compiler, merging, assembler and decompiler.", "anchors": ["src/main.rs:21-96", "src/compile/assembler.rs", "src/decompile/decompiler.rs"]}
{"id": "C74", "title": "Reads from the test database", "statement": "Reading a field of the shown table gives the column of the first field of that name, the value of the current record in it, or that of a record by number. Without a current record the current value is the empty string, a record by number is an error, and a read through the found set aborts. A name no field has aborts every read but that through the found set, which gives the empty string. As long as records are not cleared, reading an existing field of the current record never aborts. A table asked for by name is the first of that name.", "quantifier": "every database state; for the last claim every state reached by a run without clearing", "why_tests_cant": "The reads depend on four pieces of state (occurrence, table, found set, pointer) that only all histories together cover.", "anchors": ["src/testing/database.rs:210-229", "src/testing/database.rs:261-269", "src/testing/database.rs:283-329"]}
{"id": "C75", "title": "Deleting a record removes a field", "statement": "delete_record with number k removes field k of the table with all its values, aborts exactly when the table has no field k, and keeps the order of the others. It does not delete record k: the number of records stays the same, and there are records it cannot delete.", "quantifier": "every table and every number", "why_tests_cant": "A test with one field and one record cannot tell the two apart.", "anchors": ["src/testing/database.rs:46-48"]}
{"id": "C76", "title": "Related fields several relations away", "statement": "The field of an occurrence several relations away is read from the end of the first chain of records along the shortest path of relations, where each comparison uses the value found by the one before. It is an error if an occurrence on the way has no current record or there is no such chain. This is not the join of the relations: a second relation that starts from another field is followed wrongly.", "quantifier": "every reached database, every path of relations of any length", "why_tests_cant": "Universal over paths of any length and all table contents.", "anchors": ["src/testing/database.rs:387-466", "src/testing/relation_mgr.rs"]}
{"id": "C77", "title": "Codes of the double byte text form", "statement": "The double byte form of NUL, space, underscore and the letters uses fixed 16-bit codes, high byte first. Any bytes are read pair by pair: a code as its character in lower case, any other pair as a question mark, an odd last byte as nothing; reading succeeds exactly if the last pair is the zero code, which is not part of the text.", "quantifier": "every character and every byte string", "why_tests_cant": "Universal over all byte strings, including those no encoder writes.", "anchors": ["src/dbcharconv.rs:4-47"]}
{"id": "C78", "title": "Every calculation has the value its tree says", "statement": "A calculation evaluates to a text exactly if that text is the value of its tree by rules that give one value per operator and function: numbers and texts themselves, names what they stand for, & joined texts, comparisons of texts, arithmetic or undefined, Abs, Acos, Char, Min (the first smallest argument), Get (an error text), and an error text for other functions. The value is unique. Asin is no arc sine: with one argument it aborts, with two it gives the smaller text.", "quantifier": "every tree the parser can build, every text, scope, database and float implementation", "why_tests_cant": "Unbounded expression trees.", "anchors": ["src/testing/test.rs:721-898"]}
{"id": "C79", "title": "How every calculation text is divided into tokens", "statement": "The tokens of a calculation are those of rules that cover every text: white space before a token, words (numbers, or names not beginning with a digit), the one-character signs, comparisons (a second equals sign is looked at again), string literals (dropped without a letter or digit, closed by the end of the text), and names with colons. A text the rules do not divide aborts, for example one that ends in a comparison sign or has a word beginning with a digit that is no number. The division is unique, and with C78 it gives the value of every text.", "quantifier": "every text, every float implementation and alphabet", "why_tests_cant": "Universal over all texts, including malformed ones.", "anchors": ["src/testing/test.rs:470-672"]}
{"id": "C80", "title": "Scripts stored in place come back with the parameters of their steps", "statement": "In a file that holds a schema and scripts whose steps are stored in place, each script comes back with its steps in order, and each parameter is added to the first step with its index: names and text values to Set Variable, calculations to Exit Script and, in the directory for calculations, to any step. A parameter whose step has not been read aborts the program, so parameters of scripts stored in segments always do. Naming a script again keeps its steps. Left over bytes are dropped below 21, abort at 21 and are read as a step from 22 on.", "quantifier": "every well formed schema, every number of scripts, steps and parameters that fit a chunk, every division into sectors", "why_tests_cant": "Unbounded files and orders of chunks.", "anchors": ["src/decompile/decompiler.rs:500-689"]}
{"id": "C81", "title": "Any script text is compiled to the scripts its tokens stand for", "statement": "For every script text, well formed or not, compiling it gives exactly the scripts that its tokens stand for: a script for each `define` that is not inside another script, with its name and parameters, and with a step for every known word that is followed by arguments and a semicolon, for every `if`, `elif`, `else` and `loop`, and for every closing bracket that closes a block. The compiler stops with a panic on exactly the texts that stand for no scripts (a known word whose arguments are not followed by a semicolon, a condition without opening bracket, `loop` or `else` as the last token, `define` as the last token, or a comparison sign at the very end). No step is invented: each one is named in the text with its arguments, belongs to a block keyword, or closes a block. A block that a broken script leaves open is closed in the next script, which then swallows the script after it.", "quantifier": "for all texts, and for all lists of tokens", "why_tests_cant": "Tests compile a few well formed scripts; what happens to the unboundedly many malformed texts, and that errors reach into the next script, is not visible from them.", "anchors": ["src/burn_script/parser.rs:21-210", "src/burn_script/compiler.rs:8-14", "src/burn_script/lexer.rs"]}
{"id": "C82", "title": "Any list of steps runs along described moves", "statement": "For every file, every state of the test runner and every list of steps, structured or not, the runner makes exactly the moves described: an `if` whose condition is not `true` leads to the first else, elif or end-if in the text after it (nested or not) and leaves the script if there is none; an else or elif after a taken branch leads to the first end-if after it; the end of a loop leads behind the loop step met last, in whatever script; leaving a loop leads behind the first end-loop in the text; calls, unknown calls and the end of a script do what is said. A test ends exactly where these moves end, in one way at most. The places of loops are never taken away. An elif after a taken branch whose if has no end computes an argument of the last step of the script, and the flag that a branch was taken outlives scripts and tests.", "quantifier": "for all files, states, lists of steps and calculations", "why_tests_cant": "Tests run a handful of scripts; the moves for all lists of steps, and the flag and the loop places that are shared by all scripts, show only in combinations nobody writes a test for.", "anchors": ["src/testing/test.rs:176-463", "src/testing/test.rs:138-140"]}
{"id": "C83", "title": "What is recovered from any file at all", "statement": "A file that can be decompiled has exactly one sequence of records, and the recovered file is what these records say, whoever wrote the file. A layout has the last name and occurrence stored since a directory at or below it was last entered; a table has the last name since its directory was last entered, and its fields the last texts since theirs were; occurrences are numbered in the order of their records; a relation is made for every pair whose reverse is not there, with the last condition stored after it was made; a script has the last name stored for its number; data sources take the names read so far in the order in which directories below 32/5 are entered, at any depth. No component is there that no record announces, and records elsewhere do not matter. So a directory below a layout erases its name, a directory below a data source takes the name of the next one, and data sources from number 128 on come back under another number.", "quantifier": "for all byte sequences that can be decompiled (tables: those whose number plus 128 is not a table as well)", "why_tests_cant": "The round trips of tests use files in the order one program writes them; how repeated, reordered, nested or foreign records combine is a statement about all sequences of records.", "anchors": ["src/decompile/decompiler.rs:223-749"]}
{"id": "C84", "title": "The steps of scripts in any file at all", "statement": "In a file that can be decompiled, whoever wrote it, the steps of every script are exactly what its records say. Code stored in place is cut into pieces of 28 bytes: pieces of 22 and more bytes are read as a step each, shorter ones are dropped, and their steps go to the end, or, for a segment numbered 4, to the position their index says. A parameter goes to the first step with its index among the steps there at that time. Code stored in segments is joined by rising segment number, the last segment with a number counting, and its whole pieces are read at the end of the file, after all steps in place. A step that calls a script shows the name the script has when the step is read. Only records in the directories of the script and the names of scripts matter. No file that can be decompiled has a parameter without its step before it, or code in place that leaves exactly 21 bytes. Scripts never get arguments, an account or a user.", "quantifier": "for all byte sequences that can be decompiled, all iteration orders of the segment table", "why_tests_cant": "Records of a script may be repeated, reordered and spread over the file in unboundedly many ways; tests use the one order a sample file has.", "anchors": ["src/decompile/decompiler.rs:487-689", "src/decompile/decompiler.rs:745-787"]}
{"id": "C85", "title": "Which files can be decompiled at all", "statement": "A file can be decompiled exactly if sector 1 is there and names the last sector, every sector of the chain from sector 2 on has its header in the file and a number up to the last one, every record can be read, every record fits those before it, and the code in segments can be read; the records are those the opcode table finds in the bytes of the sectors, one after the other. A record fits if, for instance, the table it names or the field it describes has been entered before, an occurrence is named after it was started, a parameter follows its step, and steps belong to scripts with a name. With enough time such a file gives a result, in any order of the segment table. A file whose sectors are there and whose records can be read but do not fit together stops the program, and so does any file in which every record moves on, the chain ends and which is not of this form. For every file that can be decompiled, all tables and fields are those the records say, without restriction on table numbers: entering the directory of a table starts it anew, dropping its name and fields, unless there is a table whose number is larger by 128.", "quantifier": "for all byte sequences, all iteration orders of the segment table", "why_tests_cant": "Whether the program stops depends on every record and all records before it, in files of any size; tests try a few sample files, all of which can be decompiled.", "anchors": ["src/decompile/decompiler.rs:229-787", "src/decompile/sector.rs"]}
{"id": "C86", "title": "The tree of every list of tokens", "statement": "Every list of tokens is read as one tree, stops the program, or goes into endless recursion, and the rules of the language say which. Numbers, texts, field names and variables are operands; products bind tighter than sums, sums than joined texts, joined texts than comparisons, and all associate to the left. A comparison sign at the very end is ignored, and so is everything after the first complete comparison. A name that is no field name and is followed by an opening parenthesis is a call: its arguments are sums separated by commas, the first of them beginning at the parenthesis itself, and the token after the last of them is dropped whatever it is. The token after a comparison in parentheses is dropped in the same way. The recursion is endless exactly if reading gets to an opening parenthesis that is the last token. Together with the rules for characters and for values this gives the value of every calculation from its characters.", "quantifier": "for all token lists, all calculation texts, all values of variables and fields, all number arithmetic", "why_tests_cant": "The tree depends on all tokens and on the nesting; tests try a few well-formed calculations and no stray tokens.", "anchors": ["src/testing/calc_eval.rs:79-144", "src/testing/calc_eval.rs:289-437"]}
{"id": "C87", "title": "How every run of tests ends", "statement": "The tests of a file are run in order, each from its first step with one more scope of variables, and otherwise in the state the test before has left: reports are printed for all of them exactly if the moves of the script language lead each one to an end, and each report says whether no assertion has failed up to there. The run is broken off by a panic exactly if, after tests that have come to an end, some test gets to a step that cannot be done; it never ends if some test goes on for ever. There is no fourth case, and the first three exclude each other. A test that would break off the run does not do so after another test has failed: then it is only reported as failed.", "quantifier": "for all files, scripts, lists of tests, starting states and number arithmetic", "why_tests_cant": "How a run ends depends on all steps of all tests before; tests of the runner try single short scripts.", "anchors": ["src/testing/test.rs:99-174", "src/testing/test.rs:176-463"]}
{"id": "C88", "title": "What the program does with any texts and files", "statement": "From the characters of its inputs to everything it shows, prints and writes: for each text the schema it holds by the rules of the schema language; for each binary file what its records hold; after each input the collected file is shown, its tests are run on the database and layouts of that file, with the reports printed as the moves of the script language give them, and the file is written in the binary format under the name of the input. The program ends early exactly where a text is no schema, a binary file cannot be read, a relationship names an occurrence that is not there while there are tests, a test gets to a step that cannot be done, or the file is too large; the reports up to there have been printed. A file is written only after every test collected up to it has come to an end; but a failing test does not keep it from being written.", "quantifier": "for all lists of inputs and test files, all orders in which maps are visited, all number arithmetic; for runs that come to an end", "why_tests_cant": "It speaks about all inputs at once and about all parts of the program together; there are no tests of the program as a whole.", "anchors": ["src/main.rs:21-96", "src/compile/compiler.rs:5-9", "src/testing/test.rs:99-174"]}
{"id": "C89", "title": "The JSON of a schema is JSON and says the whole schema", "statement": "What the program writes for inspection is a JSON text by the grammar of RFC 8259, whatever quotation marks, line ends or other characters the names and texts of the schema hold. Its value says, member by member, every number, text, flag and variant of the schema, from the name of the file down to the operands of each script step. A JSON text has only one value and says only one schema, in whatever layout it is written; so schemas with the same JSON are the same. If no key occurs twice in the schema, no object has two members of the same name.", "quantifier": "for all schemas whose texts are Unicode texts (as all Rust strings are), and all JSON texts", "why_tests_cant": "Escapes, nesting and layout combine without bound; nothing in the repository reads the JSON back.", "anchors": ["src/main.rs:54-57", "src/main.rs:77-80", "src/file.rs:7-18", "src/component.rs:8-290", "src/fm_script_engine/fm_script_engine_instructions.rs:5-200", "src/fm_script_engine/fm_script_engine_instructions.rs:485-490"]}
{"id": "C90", "title": "The files that the program leaves behind", "statement": "After compiling, each input has a binary file named after it that holds everything collected up to that input (of inputs of the same name, the last one counts), and the inspection file holds the JSON of everything collected. After decompiling, the inspection file holds the JSON of the last input only: of the inputs before it nothing is left. With --print-header, header.log is a copy of the last input that was begun, even if it could not be decompiled. However the program ends, no other file is changed.", "quantifier": "for all lists of inputs and test files, all contents of the disk before, all orders in which maps are visited", "why_tests_cant": "It is about every other path on the disk, and about all inputs together.", "anchors": ["src/main.rs:21-96", "src/compile/assembler.rs:313-315", "src/decompile/decompiler.rs:214-221"]}
{"id": "C91", "title": "What a run of tests prints", "statement": "Each test prints a line at its start, then the lines of its moves in their order, then a line with its outcome: the value of the calculation for each dialog, the text of the calculation for a failed assertion, the name of each script called and left, and a complaint for each step the runner does not know; nothing for any other step. A run that is broken off has printed everything up to the step that could not be done. A test that fails shows exactly one failed assertion, as its last line, and one that passes shows none; but after a failure the tests that are left print nothing and are reported as failed without any assertion. The lines about calling and leaving scripts are nested with matching names.", "quantifier": "for all files, lists of tests, starting states and number arithmetic; the lines that calculations print are left out here and added by C93 and C94", "why_tests_cant": "The lines depend on all moves of all scripts; no test of the repository looks at the output.", "anchors": ["src/testing/test.rs:132-167", "src/testing/test.rs:195-217", "src/testing/test.rs:420-463"]}
{"id": "C92", "title": "Where the texts of compiled and decompiled files come from", "statement": "Every name and every argument in a compiled schema stands in the source text in one piece: names of tables, value lists, occurrences, scripts and tests, the first table of a relationship, parameters, and arguments of steps. The only exception is the second table of a relationship, which may be a number that is written anew. A compiled schema has no fields, layouts, data sources, assertions, accounts or users. So a text of characters is compiled to texts of characters, and what is decompiled from any bytes are texts of characters too. Therefore the JSON that the program leaves behind shows the schema for all source texts and all files.", "quantifier": "for all source texts, all files of bytes, all orders of the maps, and all number arithmetic (for the characters: numbers are shown as texts of characters)", "why_tests_cant": "It is about every text in every schema; the tests of the repository compare a few names of a few schemas.", "anchors": ["src/burn_script/lexer.rs", "src/burn_script/parser.rs", "src/compile/lexer.rs", "src/compile/parser.rs", "src/decompile/decompiler.rs"]}
{"id": "C93", "title": "What a calculation prints", "statement": "A calculation that has a value prints first one complaint for each misplaced colon, then its tree, then complaints. The complaints name exactly the unset names that the evaluation meets: variables, and also values that are looked up again as operands of arithmetic or of Min; and there is a complaint about operands exactly if one of the operands of an arithmetic operation is no number. Their order is that of evaluation: the left part before the right one; the operands of arithmetic are looked up after both have been evaluated, and the complaint about them comes last; Min looks up the smallest value so far and the next one after that has been evaluated. If a part has no value, its lines are the last ones. So an unset variable in a part that is evaluated is always named. Text that cannot be read prints only the complaints about misplaced colons before the place where reading breaks off, and no tree, and the tree of other text is printed even if it has no value. Printing changes no value. But a misspelt function name is not complained about, and a complaint may name something that does not stand in the calculation.", "quantifier": "for all calculation texts, states of variables and database, and all number arithmetic", "why_tests_cant": "It is about every tree and every state; the tests of the repository look at values only, never at the output.", "anchors": ["src/testing/test.rs:469-719", "src/testing/test.rs:793-870", "src/testing/calc_eval.rs:285-295"]}
{"id": "C94", "title": "Everything a run of tests prints", "statement": "The tests that come to an end print, move by move, the lines of the calculations that the step evaluates (C93), and then the line of the runner (C91); which calculations a step evaluates, and in which order, is fixed by its kind, by whether a branch was taken, and for a stray elif by the last step of the script. These are all the lines, in this order. A run that is broken off prints the lines of the moves before the step that cannot be done, and then those of the calculations of that step up to the first one that has no value. Without the lines of calculations this is what C91 says, however the run ends. So every calculation evaluated in a run is shown as a tree, and each unset variable in it is named, also where the test passes: an assertion about a variable that was never set can hold.", "quantifier": "for all files, lists of tests, starting states and number arithmetic", "why_tests_cant": "The lines depend on all moves of all scripts; no test of the repository looks at the output.", "anchors": ["src/testing/test.rs:132-463", "src/testing/calc_eval.rs:285-295"]}
{"id": "C95", "title": "What every compiled file carries", "statement": "Whatever is compiled, the first block of the file holds the marks of the format and the version 'Pro 12.0' at fixed places, the name of the file with a slash from byte 3082 on, and what the template holds behind it: a name of less than five bytes is followed by the end of the name of the template (a file named a reads a/ank/), a longer one by spaces; the line shows the name alone only for names of 5 or 1005 bytes, and a name of more than 1005 bytes is written over the mark that closes the area. The stored values begin with those of the template, among them version numbers and the paths of two dictionaries on the machine where the template was made.", "quantifier": "for all schemas that can be assembled; the line of the name for names without carriage return", "why_tests_cant": "It is about names of every length and every schema; the tests of the repository compile one file and look at no byte of the header.", "anchors": ["src/compile/header.rs:1-136", "src/compile/assembler.rs:148-158", "src/compile/assembler.rs:282-288"]}
{"id": "C96", "title": "What the script compiler complains about", "statement": "For a text that is compiled, the complaints on the error stream are exactly those of its tokens in their order: one for each token between scripts, for each token in the head of a script that does not belong there, for each word in a body that is no step (with the word), for each other token in a body that has no place there (with the token), and one for a loop or else without its bracket. For a text that is not compiled, the complaints are exactly those of the tokens before the place where it breaks off: a step without its semicolon, or a condition without its bracket, that something else follows; a loop or else with nothing after it; a last definition without a name; text that cannot be divided into tokens is not complained about at all. So if a text is compiled and nothing is complained about, no step name is misspelt, each step, loop and condition that is written out is in one of the scripts, and every definition is a script of its own. But a last step without its semicolon, missing brackets at the end and a missing script name are not complained about.", "quantifier": "for all texts, compiled or not, and all number arithmetic", "why_tests_cant": "It is about all texts, with errors in any place; the tests of the repository compile correct texts and look at no output.", "anchors": ["src/burn_script/parser.rs:21-210", "src/burn_script/compiler.rs:8-14"]}
{"id": "C97", "title": "What is complained about when a schema text is compiled", "statement": "For a schema text that is compiled, the complaints on the error stream are exactly those about the script texts in its script blocks and tests, in the order of the text; tables, relations, value lists and data sources are never complained about. If compiling breaks off, the complaints are exactly those about the complete components before that place, followed, if it is a script block or test that breaks off, by those about its script texts up to there. In a file that is compiled without complaint, every step written out in a script block is a step of one of its scripts. But words that mean nothing in a table, or in a test outside its script, are passed over without a complaint, and there may be complaints about a script of a test that is then not compiled.", "quantifier": "for all schema texts and all number arithmetic", "why_tests_cant": "It is about all texts, with errors in any place; the tests of the repository compile correct texts and look at no output.", "anchors": ["src/compile/parser.rs:100-330", "src/burn_script/parser.rs:21-210", "src/burn_script/compiler.rs:8-14"]}
{"id": "C98", "title": "What the assembler prints", "statement": "If a schema is assembled, the lines printed are exactly: one for each directory that is entered, one for each value that is stored with its own length, one for each key of 128 and more, and one for the number of each table, in the order in which they are stored. If assembling breaks off, they are the lines up to the place where it does: the first number, name or marker for whose bytes there is no room left in the block, counting what was stored before, or the first number or text that cannot be stored at all. Each table has its line with its number and nothing else of the schema is shown: two schemas with the same table numbers print the same lines. But not every value that is stored is printed: the count of the tables is not.", "quantifier": "for all schemas, also those that do not fit into the file", "why_tests_cant": "It is about all schemas and all places where assembling breaks off; no test of the repository looks at the output.", "anchors": ["src/compile/assembler.rs:74-118", "src/compile/assembler.rs:125-199", "src/compile/assembler.rs:282-315"]}
{"id": "C99", "title": "What is printed while a file is decompiled", "statement": "For any file that is decompiled, the lines printed are determined by its records: one with the third byte of each record that begins an occurrence, and one for each function that is not known in a compiled calculation of a script step that is read (those of its own calculation, and the value of an Exit Script step); nothing else is printed, also not for values of other steps. If decompiling breaks off, the lines are those of the first records, then those of the calculation in which it broke off, or one line with the unknown code (without its two high bits), the start of its sector and 4096 divided by its distance from there; an unknown code always leaves such a line, which is the last, and never a result. There is a result with as many occurrences as lines with bytes. A file without occurrences and scripts is decompiled without a line, and so is every file the assembler writes. But a file without anything unknown can leave lines.", "quantifier": "for all files and all orders in which maps are visited", "why_tests_cant": "It is about all files, also broken ones; the tests of the repository decompile a few files and look at no output.", "anchors": ["src/decompile/decompiler.rs:18-139", "src/decompile/decompiler.rs:223-787", "src/chunk.rs:275-290"]}
{"id": "C100", "title": "Everything a run of the program shows, line by line", "statement": "For any texts, files and options other than the one that prints headers, everything that a run which comes to an end prints and writes is said by what it is given. Compiling: first the complaints about the files of tests; then for each text the complaints about it, the collected file, all lines of its tests, the lines of the assembler, and the written file. A text that is no schema leaves the complaints about it up to the place where it breaks off, and nothing after; a name without the ending leaves the complaints only; a test that breaks off leaves its lines up to the step that cannot be done; a file that is too large leaves the lines of the assembler up to the place where there is no more room. Decompiling: the lines about the records of each file, the file, the lines of its tests. The files, reports and written files among this are the events of C71. Right before each file that is written stand the lines of the assembler for it. But neither a complaint about a text nor one about an unset variable keeps a file from being written.", "quantifier": "for all texts, files, names, orders in which maps are visited, and with and without testing; runs that do not end are excluded", "why_tests_cant": "It is about the order and completeness of the output over whole sessions of any length; the tests of the repository do not run the program or look at its output.", "anchors": ["src/main.rs:21-96", "src/compile/compiler.rs:5-15", "src/testing/test.rs:132-167", "src/compile/assembler.rs:74-190", "src/decompile/decompiler.rs:18-139"]}
{"id": "C101", "title": "The program on the files of a disk", "statement": "What the program does to the files of a disk, from the paths it is given, is said exactly. First the files of tests are read. Then each input is read when it is its turn, from the files as the inputs before have left them. Compiling writes the JSON of everything collected to inspect_output/test_compile and the binary file to NAME.fmp12 in the current directory, where NAME.burn is the last part of the path; slashes at the end and dots that stand alone do not count, and a path that ends in two dots has no name. Decompiling writes the JSON to inspect_output/test_decompile, and with --print-header first a copy of the input to header.log; it is no matter if the copy cannot be written. A run ends early with a panic exactly where a file cannot be read (or is no UTF-8, when compiling), has no such name, breaks off itself or in its tests, or where the JSON or the binary file cannot be written; what was written before stays, and the paths behind are not looked at. No other file changes, however the run ends. Without the directory inspect_output nothing is compiled or decompiled. If no input is at a place that is written, the program does on the paths what it does on their contents (C88), and after compiling, the file NAME.fmp12 holds everything collected up to its input. But inputs are not kept in general: header.log given as an input after another file is overwritten before it is read.", "quantifier": "for all paths, files of a disk, ways in which paths lead to files (two paths may lead to the same file), files that may and may not be written, orders in which maps are visited, and with and without testing and --print-header; runs that do not end are excluded", "why_tests_cant": "It is about every disk and every list of paths, also with links and with files that cannot be read or written; the tests of the repository do not run the program.", "anchors": ["src/main.rs:21-96", "src/cli.rs:16-23", "src/decompile/decompiler.rs:214-227", "src/compile/assembler.rs:313-315"]}
{"id": "C102", "title": "The memory behind encoded names", "statement": "The function that encodes the names of tables, occurrences and scripts turns a vector of pairs into a vector of bytes by unsafe code. The bytes are the right ones (two for each character, and three more for a table), but the rules for memory are broken, exactly as follows. The length of the vector is set beyond its capacity exactly for names of three characters or more. The three bytes after the name of a table are written outside of the memory of the vector exactly for ASCII names of 3, 4, 7 or 8 characters; for names whose characters take four bytes each, exactly for three characters or more. The memory is given back, or traded for more, with the wrong size for every name that is not empty, and for every table occurrence. So a file is assembled without breaking a rule exactly if it has no table occurrences and its tables and scripts have no names, and compiling `table Product: end table;` writes outside of memory.", "quantifier": "for all names, and all files; the strategy by which vectors grow is that of the standard library, and one theorem is for any strategy", "why_tests_cant": "Writing a few bytes beyond a small block mostly goes unnoticed, so tests pass; which names do it depends on the lengths of names and the growth of vectors.", "anchors": ["src/dbcharconv.rs:37-47", "src/compile/assembler.rs:166-174", "src/compile/assembler.rs:207-210", "src/compile/assembler.rs:248-250"]}
{"id": "C103", "title": "The outcomes of tests on the standard output", "statement": "Somebody who looks in the standard output for the lines `Test NAME outcome: Success` and `Test NAME outcome: Fail` always finds one list of outcomes. It is the list of what the tests gave, in their order, each test once, for every run of the program with -c or -d and however the run ends, if the scripts show no dialogs and no name and no argument of a step has a line feed. Without this it is false: a dialog, and also the text of an assertion that fails, can print the line of an outcome that no test had, so that a test that failed is also reported as a success. The names of tests never have a line feed, whatever the text.", "quantifier": "for all schema texts, stored files, tests, and orders of maps; any texts for colours that are on one line, where the one for red does not begin with a T", "why_tests_cant": "A script that greps for outcomes reads an output mixed from the words of the parser, assembler, calculator and test runner; tests would have to try all texts that may be mixed in.", "anchors": ["src/testing/test.rs:133-166", "src/testing/test.rs:190-220", "src/testing/test.rs:440-452", "src/testing/calc_eval.rs:285-295", "src/compile/assembler.rs:75-185", "src/decompile/decompiler.rs:140-300"]}
{"id": "C104", "title": "What the standard output says", "statement": "The standard output of the program can be read back. No text can be read in two ways: each line says at most one thing, such as that a test runs, that a script is left, that the tree of a calculation has a certain text, or that a value with certain bytes is stored. For every run of the program with -c or -d, however it ends, the lines are read as what they are about, in their order, if the scripts show no dialogs and all texts are on one line. So two runs print the same exactly if there was the same to be said, and the lines of the assembler for two schemas are the same exactly if the schemas have the same table numbers. With dialogs it is false: a dialog that shows a number is read as a byte from a file.", "quantifier": "for all schema texts, stored files, tests, and orders of maps; any texts for colours on one line, where the one for red does not begin with a letter or digit", "why_tests_cant": "That no two different things are printed alike is about all pairs of outputs; a test compares one output with one expectation.", "anchors": ["src/testing/test.rs:133-166", "src/testing/test.rs:190-220", "src/testing/test.rs:440-452", "src/testing/calc_eval.rs:285-295", "src/compile/assembler.rs:75-185", "src/decompile/decompiler.rs:290-300"]}
{"id": "C105", "title": "What the error stream says", "statement": "The error stream of the program can be read back. No text can be read in two ways: each line says at most one thing, such as that a script step with a certain name is unknown, that a variable is unknown, or that an unknown code stands at a certain place of a file. The complaints about any schema text are read as what they are, without any condition on the text. For every run of the program with -c or -d, however it ends, the lines are read as what they are about, in their order, if the names of unknown variables are on one line; without tests there is no condition. Everything that is printed goes to one of the two streams, and nothing goes to both. With tests the condition is needed: a name of a variable with a line feed gives a line that says nothing.", "quantifier": "for all schema texts, stored files, tests, and orders of maps; any one-line texts for tokens and instructions", "why_tests_cant": "That no two complaints look alike, and that no text of a schema can forge one, is about all texts; a test compares one output with one expectation.", "anchors": ["src/burn_script/parser.rs:50-205", "src/testing/test.rs:415-460", "src/testing/test.rs:640-710", "src/testing/test.rs:820-870", "src/decompile/decompiler.rs:50-62", "src/chunk.rs:280-284"]}
{"id": "C106", "title": "The test database holds what was last written to it", "statement": "After any operations on a generated test database that go well, each field of each record holds the value last written there, or is empty if none was written since the last clean-up, and a table has exactly as many records as were created in it since the last clean-up. Every run of operations has one list of effects (records born, values written, clean-ups), told from the layout shown and the current record before each operation; two runs with the same births, writes and clean-ups store the same values, whatever was found, shown or moved to in between. A value stays until its place is written again or all records are cleared. Found sets do not follow clean-ups: after a clean-up and a new record, that record is in the found set twice.", "quantifier": "for all files, and all sequences of operations of any length (create, write, find with any numbers, show all, moves, layouts, clean-ups)", "why_tests_cant": "The statement is about all sequences of operations; tests try single short ones, and none mixes layouts of one table with clean-ups.", "anchors": ["src/testing/database.rs:36-48", "src/testing/database.rs:113-222", "src/testing/database.rs:331-385"]}
{"id": "C107", "title": "The test database is a small machine", "statement": "A generated test database does what a small machine says that knows only the file and the operations: which layout is shown; for each occurrence which records are found and the position among them; for each table how many records there are and their values. Any sequence of operations (create, write, find, show all, moves, layouts, clean-ups) leads to a database that shows the machine's state, and aborts exactly where the machine has no next state. Reading the current record of an occurrence gives the machine's value, an error without a current record, and aborts exactly for unknown occurrences, unknown fields or records that are gone. Showing all records keeps the position but not the record; finding nothing shows all records. Each step of a script does at most one of these operations to the database and never clears it, so what any tests leave behind is a state of the machine too, without records if the run cleans up. Over a direct relation the value read is that of the first record of the machine which the file's first relation between the two occurrences joins to the current record, whatever is found or current there; without one it is an error.", "quantifier": "for all files with valid maps and all sequences of operations of any length, including ones that abort; all tests, scripts and amounts of steps", "why_tests_cant": "A test runs single sequences of operations; the statement is about all of them, and about when they abort.", "anchors": ["src/testing/database.rs:94-222", "src/testing/database.rs:331-385", "src/testing/database.rs:546-600", "src/testing/database.rs:387-466"]}
{"id": "C108", "title": "Fields in calculations are those of the layout shown", "statement": "In a calculation of a script or test the occurrence a field names does not count: replacing it by any other, also by one that does not exist, in any fields anywhere in a calculation (except in the argument of Get, which is shown in messages) changes nothing, neither values nor aborts. The field is read from the current record of the occurrence of the layout shown; a field its table does not have reads as nothing, and without a current record, or when it is gone, the run aborts. The expectation that the named occurrence's current record is read is false: with customer 7 and order 9 current and orders shown, a test asserting customer::id == 9 passes. The same holds for the text of calculations (without function calls) and for the criteria of a find, which look for their field in the table of the layout shown.", "quantifier": "for all files with valid maps, all sequences of operations, all calculations, all field values and all floating-point environments", "why_tests_cant": "A test compares single calculations in one layout; that names never count is about all calculations, names and database states.", "anchors": ["src/testing/test.rs:679-719", "src/testing/test.rs:721-898", "src/testing/database.rs:210-222", "src/testing/test.rs:279-297"]}
{"id": "C109", "title": "Laws of the operations on the test database", "statement": "Sequences of operations on a generated database that can be turned into each other by a list of laws, applied anywhere, in both directions and any number of times, either both abort or lead to the same database, so that nothing done or read afterwards tells them apart: moves to a fixed place forget moves before, a new record is the last one found (going to the last or next record after creating one changes nothing), finds do not depend on what was found before, finding nothing is showing all, showing all twice is showing all once, the last of two writes to a field counts, different fields can be written in any order, writes by name do not depend on the layout shown, only the last of two changes of layout or clean-ups counts. Not laws, with witnesses: next then previous (or back) is staying; showing all undoes a find; writes through different occurrences commute.", "quantifier": "for all files with valid maps, all sequences of operations before and after, all values, and any number of uses of the laws", "why_tests_cant": "A test compares two sequences in one state; the laws hold in all states and contexts, with aborts.", "anchors": ["src/testing/database.rs:94-222", "src/testing/database.rs:331-385", "src/testing/database.rs:546-600"]}
{"id": "C110", "title": "The clock is never read", "statement": "The result of a calculation does not depend on the time: every text comes to the same value, or fails in the same way, at all times. A test during which the clock changes with every step in any way ends in the same state as with the clock stopped, all tests report the same, and the program reports, writes and prints the same whenever it is run, on the standard output and the error stream character for character. In particular Get(CurrentTime) is not the time, against what one would expect of the code that reads it.", "quantifier": "for all calculation texts, variables, files and tests, all sequences of times shown by the clock, all inputs and options of the program", "why_tests_cant": "The code reads the clock in one place, so that a test cannot rule out, for all texts, that some calculation gets there and makes results change from run to run.", "anchors": ["src/testing/test.rs:803-815", "src/testing/calc_eval.rs:289-437", "src/testing/test.rs:132-167", "src/main.rs:36-108"]}

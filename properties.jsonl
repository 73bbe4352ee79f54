{"id": "C01", "title": "Addition, subtraction and multiplication never wrap", "statement": "For two integer operands, `a + b`, `a - b` and `a * b` evaluate to the exact mathematical result when it fits in a signed 128-bit integer and report an error otherwise; they never wrap, truncate or crash.", "quantifier": "all pairs of 128-bit integers, all expressions producing them, all interpreter states", "why_tests_cant": "2^256 operand pairs; overflow happens only on boundaries a sample misses.", "anchors": ["src/lang/eval/eval.rs:eval_binop_expr (Plus, Minus, Multiply)"]}
{"id": "C02", "title": "Division and remainder truncate toward zero and refuse zero", "statement": "`a / b` and `a % b` report an error when b = 0; otherwise whenever the quotient fits in 128 bits they satisfy a = (a/b)*b + a%b, |a%b| < |b|, and a%b has the sign of a; the only other error is the overflowing pair (MIN, -1).", "quantifier": "all pairs of 128-bit integers", "why_tests_cant": "The single overflowing pair and sign combinations need all inputs.", "anchors": ["src/lang/eval/eval.rs:eval_binop_expr (Divide, Modulo)"]}
{"id": "C03", "title": "Every integer a program can observe is a 128-bit signed integer", "statement": "After any sequence of commands, every integer stored in a variable (at any depth inside arrays and structs) and every integer an expression evaluates to lies in [-2^127, 2^127-1].", "quantifier": "all command histories, all kernel responses, all images", "why_tests_cant": "It is an invariant over unbounded histories.", "anchors": ["src/lang/eval/eval.rs:Eval", "src/lang/eval/value.rs:Value"]}
{"id": "C04", "title": "Shifts: right shift is floor division, left shift multiplies, bad amounts are errors", "statement": "`a >> n` is floor(a / 2^n) and `a << n` is a * 2^n for 0 <= n < 128, and both report an error for any other n; in particular `a << n` reports an error when a * 2^n does not fit (as its 'overflows' error message promises).", "quantifier": "all 128-bit a, all shift amounts", "why_tests_cant": "Lost high bits only show for particular (a, n).", "anchors": ["src/lang/eval/eval.rs:eval_binop_expr (LeftShift, RightShift)"]}
{"id": "C05", "title": "Unary minus is exact or an error", "statement": "`-a` evaluates to the mathematical negation of a, or reports an error when that does not fit; it never crashes the debugger and never silently returns a wrong number, in debug and release builds.", "quantifier": "all 128-bit a, both build profiles", "why_tests_cant": "Only one value in 2^128 misbehaves.", "anchors": ["src/lang/eval/eval.rs:eval_unary_expr (Minus)"]}
{"id": "C06", "title": "Bitwise operators act on two's complement bits", "statement": "For every bit position i below 128, bit i of `a & b`, `a | b`, `a ^ b`, `~a` (two's complement) is the and/or/xor/complement of the operands' bits i, and the results are again 128-bit integers.", "quantifier": "all 128-bit operands and bit positions", "why_tests_cant": "All bit patterns.", "anchors": ["src/lang/eval/eval.rs:eval_binop_expr (BitAnd, BitOr, BitXor)", "src/lang/eval/eval.rs:eval_unary_expr (BitNot)"]}
{"id": "C07", "title": "Comparisons agree with integer order", "statement": "`<`, `<=`, `>`, `>=` on integers return exactly the mathematical comparison, and report an error when either operand is not an integer.", "quantifier": "all operand values of every type", "why_tests_cant": "All type pairs and integers.", "anchors": ["src/lang/eval/eval.rs:eval_binop_expr (LessThan...)"]}
{"id": "C08", "title": "Equality is structural, total and != is its negation", "statement": "`==` never fails once both operands evaluate; it is reflexive, symmetric and transitive and returns true exactly when the two values are identical (same type, same contents, same struct name, key and fields); `!=` always returns the opposite.", "quantifier": "all pairs/triples of values, unbounded nesting", "why_tests_cant": "Unbounded nested values.", "anchors": ["src/lang/eval/eval.rs:eval_binop_expr (Equals, NotEquals)", "src/lang/eval/value.rs:Value (derive PartialEq)"]}
{"id": "C09", "title": "Logical operators short-circuit", "statement": "`false && e` is false and `true || e` is true whatever e is - even when evaluating e would fail, crash, query the kernel or not terminate; otherwise the result is e's boolean value.", "quantifier": "all expressions e, all states", "why_tests_cant": "e ranges over all expressions.", "anchors": ["src/lang/eval/eval.rs:eval_binop_expr (LogicalAnd, LogicalOr)"]}
{"id": "C10", "title": "Block-local variables disappear and the scope stack is balanced", "statement": "Whatever happens inside an if/while/for block - normal end, error, quit, break, continue - after it the same scopes exist with the same names defined as before it: a name first assigned inside the block is not visible afterwards and no outer name vanishes.", "quantifier": "all blocks, all states, all outcomes", "why_tests_cant": "Every nesting of blocks and every way out of them.", "anchors": ["src/lang/eval/eval.rs:eval_statement (BlockStatement)", "src/lang/variables.rs:Variables"]}
{"id": "C11", "title": "Assignment inside a block updates the enclosing variable", "statement": "Assigning to a name that already exists in any enclosing scope changes that variable (and only it), wherever the assignment is nested; otherwise it creates the name in the innermost scope. Reading a name right after assigning it gives the assigned value, all other names keep theirs.", "quantifier": "all scope stacks, names and values", "why_tests_cant": "All shadowing/nesting configurations.", "anchors": ["src/lang/variables.rs:Variables::insert, get, get_mut"]}
{"id": "C12", "title": "Partial assignment changes exactly one location", "statement": "`x.f = v`, `x[i] = v` and any chain of them either fail leaving every variable untouched, or make exactly the designated location hold v and leave every other element, field and variable unchanged.", "quantifier": "all l-value chains, all values and states", "why_tests_cant": "Unbounded l-value depth.", "anchors": ["src/lang/eval/eval.rs:eval_lhs_assign", "src/lang/eval/eval.rs:eval_statement (AssignStatement)"]}
{"id": "C13", "title": "break/continue never escape their loop", "statement": "A program accepted by the analyser never ends with the internal 'Unhandled control flow' error: every break and continue it executes is consumed by the innermost enclosing loop.", "quantifier": "all accepted programs, all states", "why_tests_cant": "All nestings of loops and blocks.", "anchors": ["src/lang/eval/eval.rs:into_eval_result", "src/lang/semantics.rs:SemanticAnalyzer (loop_depth)"]}
{"id": "C14", "title": "for iterates over a snapshot, in order", "statement": "`for v in e { body }` evaluates e once and runs body once for each element in order with v bound to it, even if body reassigns the array or v; break stops, continue skips to the next element.", "quantifier": "all arrays, all bodies", "why_tests_cant": "Bodies that mutate what is iterated over.", "anchors": ["src/lang/eval/eval.rs:eval_for"]}
{"id": "C15", "title": "while unrolls", "statement": "`while c { b }` behaves as `if c { b; while c { b } }` sharing one scope: the condition is re-evaluated before each pass, break ends the loop, continue goes back to the condition, any error or quit ends it at once.", "quantifier": "all conditions, bodies and iteration counts", "why_tests_cant": "Unbounded iteration.", "anchors": ["src/lang/eval/eval.rs:eval_while"]}
{"id": "C16", "title": "quit stops everything at once", "statement": "Once a quit statement is executed, at any nesting depth, no later statement of the program runs: the final variables, output and filesystem are those at the quit and the result is Quit.", "quantifier": "all programs and nesting depths", "why_tests_cant": "All continuations of the program.", "anchors": ["src/lang/eval/eval.rs:eval_builtin (Quit)", "src/lang/eval/eval.rs:eval"]}
{"id": "C17", "title": "Rejected input has no effect", "statement": "If a command does not parse or is rejected by semantic analysis, an error is returned and the evaluator state - variables, selected filesystem, output, kernel interaction - is exactly as before.", "quantifier": "all command strings, all session states", "why_tests_cant": "All rejected inputs.", "anchors": ["src/lang/runtime.rs:Runtime::eval"]}
{"id": "C18", "title": "The analyser recovers from errors", "statement": "After every command, accepted or rejected, the analyser is back at loop depth 0 and in the global scope; so a later top-level break/continue is always rejected and later globals are really global.", "quantifier": "all command histories including failing ones", "why_tests_cant": "Histories with errors at arbitrary depth.", "anchors": ["src/lang/semantics.rs:analyze_block_stmt"]}
{"id": "C19", "title": "The analyser never rejects a defined variable", "statement": "In every session, every variable the evaluator currently defines is known to the analyser: 'Unknown variable' is never reported at analysis time for a variable that has a value.", "quantifier": "all command histories", "why_tests_cant": "Invariant between two stateful components over histories.", "anchors": ["src/lang/semantics.rs:SemanticAnalyzer", "src/lang/variables.rs:Variables", "src/lang/runtime.rs:Runtime"]}
{"id": "C20", "title": "Use before assignment is reported before anything runs", "statement": "A command that reads a variable that has not been assigned is rejected by the analyser, so that no statement of the command runs.", "quantifier": "all programs and session states", "why_tests_cant": "All data-flow paths.", "anchors": ["src/lang/semantics.rs:analyze_stmt", "src/lang/semantics.rs:analyze_expr"]}
{"id": "C21", "title": "The debugger does not crash on any input", "statement": "No sequence of commands, no kernel response and no image content makes the interpreter panic (abort): every problem is reported as an error and the session continues.", "quantifier": "all command histories x all kernel behaviours x all images x both build profiles", "why_tests_cant": "All inputs, including hostile bytes.", "anchors": ["src/lang/eval/eval.rs", "src/lang/eval/value.rs", "src/btrfs/fs.rs:search", "src/lang/semantics.rs"]}
{"id": "C22", "title": "Fixed-size structs decode to what was encoded", "statement": "For every fixed-layout type, decoding the little-endian packed encoding of a value gives back that value, whatever bytes follow it.", "quantifier": "all fixed-size types (nested structs, arrays), all values, all trailing bytes", "why_tests_cant": "All types and values.", "anchors": ["src/lang/eval/value.rs:Struct::from_bytes", "src/lang/eval/value.rs:BtrfsType::to_value", "src/btrfs/structs.rs:Type::size"]}
{"id": "C23", "title": "Packed layout: each field is read at the sum of the preceding sizes", "statement": "In a decoded fixed-size struct the k-th named field's value is the decoding of the bytes starting at the total size of the fields before it; integers are unsigned little-endian of exactly their width.", "quantifier": "all fixed-size struct definitions, all byte strings", "why_tests_cant": "All definitions and offsets.", "anchors": ["src/lang/eval/value.rs:Struct::from_bytes", "src/btrfs/structs.rs:Struct::size"]}
{"id": "C24", "title": "Decoding is memory-safe and total on the shipped definitions", "statement": "For every struct definition btrd ships and every byte string, decoding either returns a struct or an error - it never indexes out of bounds, overflows or hits an internal panic; a byte string shorter than the fixed part is always an error.", "quantifier": "all shipped definitions x all byte strings", "why_tests_cant": "All malformed on-disk contents.", "anchors": ["src/btrfs/definitions.rs:STRUCTS", "src/lang/eval/value.rs:Struct::from_bytes"]}
{"id": "C25", "title": "Length-prefixed trailing strings and arrays are read exactly", "statement": "A trailing string (or array) field contains exactly the next n bytes (elements) after the preceding fields, n being the value of its length field, consecutive trailing fields follow each other; if fewer bytes are available the decode is an error.", "quantifier": "all definitions with trailing fields, all byte strings", "why_tests_cant": "Length fields are attacker-controlled data.", "anchors": ["src/lang/eval/value.rs:Struct::from_bytes (TrailingString, TrailingTypes)"]}
{"id": "C26", "title": "Extent items account for every byte", "statement": "A byte string decodes as btrfs_extent_item iff it is a 24-byte header followed by a sequence of inline references of the four known kinds that ends exactly at the end; the decoded struct then shows the header fields and one inline_ref per reference, in order.", "quantifier": "all byte strings, any number of inline references", "why_tests_cant": "Unbounded data-dependent layout.", "anchors": ["src/btrfs/definitions.rs:STRUCTS btrfs_extent_item DynamicStruct"]}
{"id": "C27", "title": "Anonymous unions overlay their members", "statement": "Members of an anonymous union/struct appear as fields of the parent; all members of a union are decoded from the same starting offset and the fields after the union start at the size of its largest member.", "quantifier": "all definitions with anonymous unions, all bytes", "why_tests_cant": "All overlays.", "anchors": ["src/lang/eval/value.rs:BtrfsType::to_value (Union)", "src/lang/eval/value.rs:StructField::from_bytes", "src/btrfs/structs.rs:Union::size"]}
{"id": "C28", "title": "Strings are lossless under display", "statement": "The displayed form of a byte string is pure printable ASCII (plus raw whitespace when printed directly) and determines the original bytes: two different strings never display alike.", "quantifier": "all byte strings, both escaping modes", "why_tests_cant": "All byte strings.", "anchors": ["src/lang/eval/value.rs:Value::as_string"]}
{"id": "C29", "title": "print shows a string verbatim", "statement": "`print s` writes exactly the characters of s followed by a newline.", "quantifier": "all printable ASCII strings", "why_tests_cant": "All strings.", "anchors": ["src/lang/eval/eval.rs:eval_builtin (Print)", "src/lang/eval/value.rs:Value::as_string"]}
{"id": "C30", "title": "The filesystem command opens the path that was written", "statement": "`filesystem \"p\"` opens exactly path p; when opening fails the previously selected filesystem stays selected.", "quantifier": "all path strings, all OS responses", "why_tests_cant": "All paths.", "anchors": ["src/lang/eval/eval.rs:eval_builtin (Filesystem)", "src/btrfs/fs.rs:Fs::new"]}
{"id": "C31", "title": "A histogram counts every sample exactly once", "statement": "Printing a histogram shows contiguous, ascending power-of-two buckets in which every value of the array is counted in exactly one bucket, so the counts add up to the number of values.", "quantifier": "all non-empty arrays of integers", "why_tests_cant": "All multisets of integers.", "anchors": ["src/lang/eval/value.rs:Array::as_hist"]}
{"id": "C32", "title": "Printing a histogram terminates", "statement": "Printing a histogram of any integers terminates, with output or an error.", "quantifier": "all arrays of 128-bit integers", "why_tests_cant": "Non-termination only for values >= 2^126.", "anchors": ["src/lang/eval/value.rs:previous_power_2, next_power_2, as_hist"]}
{"id": "C33", "title": "Histogram labels are exact", "statement": "The bucket bounds printed with K/M/G/T suffixes denote exactly the bucket bounds (no rounding).", "quantifier": "all powers of two in range and their negatives", "why_tests_cant": "All bucket bounds.", "anchors": ["src/lang/eval/value.rs:num_bytes_to_pretty"]}
{"id": "C34", "title": "search() sends exactly the requested key", "statement": "search(tree, key) passes the tree id and the eight key fields unchanged to the kernel; any of them that is not an integer or does not fit its kernel width (u64; u8 for types) is an error and the kernel is not called - never a truncated value.", "quantifier": "all key structs, including ones whose fields were reassigned to anything", "why_tests_cant": "All 128-bit field values.", "anchors": ["src/lang/eval/eval.rs:eval_function (Search)", "src/btrfs/fs.rs:search"]}
{"id": "C35", "title": "Bounded searches page through all results, even on a live filesystem", "statement": "When at least one max bound is below its maximum, search() keeps asking until the kernel has no more: the returned keys are strictly ascending (no duplicates), every item returned was present and in range when read, every in-range item present during the whole search is returned - for every interleaving of concurrent filesystem changes - and the loop terminates.", "quantifier": "all filesystem histories between ioctls, all ways the kernel splits batches", "why_tests_cant": "All schedules of concurrent modification and batch splits.", "anchors": ["src/btrfs/fs.rs:search"]}
{"id": "C36", "title": "Unbounded searches return everything", "statement": "A search with all max bounds at their maximum (the key() default) returns every matching item.", "quantifier": "all filesystems, all batch sizes", "why_tests_cant": "Needs > 16 MB of results.", "anchors": ["src/btrfs/fs.rs:search (retry)"]}
{"id": "C37", "title": "Kernel result buffers are parsed faithfully and safely", "statement": "From a buffer laid out as the kernel documents, search() extracts exactly the headers and payloads written; for arbitrary buffer contents it never reads outside the 16 MB buffer: it returns an error instead.", "quantifier": "all item lists; all buffers and item counts", "why_tests_cant": "All kernel/hostile buffers.", "anchors": ["src/btrfs/fs.rs:search", "src/btrfs/fs.rs:BtrfsIoctlSearchHeader"]}
{"id": "C38", "title": "search results keep order, keys and types", "statement": "The array returned by search() has, in kernel order, one struct per returned item whose key is recognised, decoded from that item's bytes with the first matching definition, and keyof() of it gives back the item's objectid, type and offset.", "quantifier": "all result sets", "why_tests_cant": "All item lists.", "anchors": ["src/lang/eval/eval.rs:eval_function (Search, KeyOf)", "src/btrfs/definitions.rs:STRUCTS key_match"]}
{"id": "C39", "title": "A cast reads exactly the bytes at the given address", "statement": "`(struct T) n` on an image decodes exactly bytes [n, n+size(T)) of it; a negative n or a range that is not inside the image is an error.", "quantifier": "all n (128-bit), all images, all struct types", "why_tests_cant": "All addresses, wrap-around.", "anchors": ["src/lang/eval/eval.rs:eval_unary_expr (Cast)", "src/btrfs/fs.rs:get_bytes"]}
{"id": "C40", "title": "search and cast only work on the right kind of filesystem", "statement": "search() on an image, a cast on a mounted filesystem, and either with no filesystem selected are errors and never touch the kernel or the image.", "quantifier": "all arguments and states", "why_tests_cant": "All arguments.", "anchors": ["src/btrfs/fs.rs:search, get_bytes", "src/lang/eval/eval.rs:eval_function, eval_unary_expr"]}
{"id": "C41", "title": "Only btrfs filesystems are accepted", "statement": "A path is accepted iff it is a directory on a filesystem of btrfs type, or a mappable file carrying the btrfs magic at one of the three superblock locations.", "quantifier": "all OS responses, all file contents", "why_tests_cant": "All file contents.", "anchors": ["src/btrfs/fs.rs:Fs::new, new_mounted, has_superblock_magic, new_unmounted"]}
{"id": "C42", "title": "Comment stripping preserves code and strings", "statement": "strip_comments removes exactly the text from an unquoted # to the end of the line, never changes the contents of a string literal, and joins lines with a space.", "quantifier": "all input texts", "why_tests_cant": "All placements of quotes, escapes and #.", "anchors": ["src/input.rs:strip_comments"]}
{"id": "C43", "title": "fixup_input terminates the statement and is idempotent", "statement": "The fixed-up input always ends with a ';' (ignoring trailing whitespace), an input that already does is otherwise unchanged, and applying it twice changes nothing more.", "quantifier": "all input texts", "why_tests_cant": "All texts.", "anchors": ["src/input.rs:fixup_input"]}
{"id": "C44", "title": "Backslash line continuation works in the REPL", "statement": "In the REPL, a command continued over several lines with trailing backslashes means the same as the command with each backslash-newline replaced by a space.", "quantifier": "all continued commands", "why_tests_cant": "All inputs through two composed passes.", "anchors": ["src/input.rs:ReplHelper, fixup_input", "src/main.rs:repl"]}
{"id": "C45", "title": "Blank and comment-only lines are harmless in the REPL", "statement": "Entering an empty line or a comment in the REPL does nothing and reports no error.", "quantifier": "all blank/comment lines", "why_tests_cant": "All such lines.", "anchors": ["src/main.rs:repl", "src/input.rs", "src/lang/parse.rs:stmts"]}
{"id": "C46", "title": "Parsing terminates on every input", "statement": "parse() returns (a program or an error) for every text: no grammar rule loops without consuming input and recursion is bounded by the input length.", "quantifier": "all texts", "why_tests_cant": "PEG non-termination needs all inputs.", "anchors": ["src/lang/parse.rs"]}
{"id": "C47", "title": "The parser accepts only the documented grammar", "statement": "Whenever parse() returns a program, the whole text is a rendering of that program: there is a derivation of it in the language's context-free grammar (tokens, optional whitespace, precedence levels, left association) and no character is ignored.", "quantifier": "all texts", "why_tests_cant": "All accepted texts.", "anchors": ["src/lang/parse.rs"]}
{"id": "C48", "title": "Printing a program and parsing it gives the program back", "statement": "For every well-formed program, parse(rendered text) is exactly that program: precedence, associativity, statement structure, literals and identifiers are recovered.", "quantifier": "all well-formed programs of any size", "why_tests_cant": "Unbounded ASTs.", "anchors": ["src/lang/parse.rs", "src/lang/ast.rs"]}
{"id": "C49", "title": "Any identifier can be used as a variable name", "statement": "A statement `name = e;` with any identifier name other than a keyword is parsed as an assignment to that name, and `name;` as reading it.", "quantifier": "all identifiers", "why_tests_cant": "Keyword-prefix clashes.", "anchors": ["src/lang/parse.rs:stmt, builtin_stmt, jump_stmt, constant, type_specifier"]}
{"id": "C50", "title": "Compound assignment is its expansion", "statement": "`x += e` and `x -= e` have exactly the effect of `x = x + (e)` and `x = x - (e)`.", "quantifier": "all l-values, expressions and states", "why_tests_cant": "All operands.", "anchors": ["src/lang/parse.rs:assign_stmt"]}
{"id": "C51", "title": "Output only grows, and only print/help/interactive expressions write", "statement": "Running any program only appends to the output; in non-interactive mode a program without print and help writes nothing.", "quantifier": "all programs and states", "why_tests_cant": "All programs.", "anchors": ["src/lang/eval/eval.rs:eval_statement, eval_builtin"]}
{"id": "C52", "title": "The REPL survives errors and ends on quit or EOF", "statement": "The REPL processes each line in turn with the state left by the previous ones, continues after every error, and ends exactly at the first quit, end-of-file or unrecoverable read error.", "quantifier": "all sequences of readline events", "why_tests_cant": "All event histories.", "anchors": ["src/main.rs:repl"]}
{"id": "C53", "title": "A script's exit status reflects success", "statement": "Running a script fails iff evaluating its text reports an error; quit counts as success.", "quantifier": "all script texts", "why_tests_cant": "All scripts.", "anchors": ["src/main.rs:script"]}
{"id": "C54", "title": "All documented constants and functions are predefined and stay available", "statement": "A fresh session defines every btrfs constant with its value and all seven functions, as both analyser and evaluator see it; they keep that value until the program assigns to their name.", "quantifier": "all constants, all programs not assigning them", "why_tests_cant": "Preservation over all programs.", "anchors": ["src/lang/variables.rs:Variables::new", "src/btrfs/definitions.rs:CONSTANTS", "src/lang/functions.rs:FUNCTIONS"]}
{"id": "C55", "title": "Displaying arrays and structs shows every element, indented, on its own lines", "statement": "The displayed text of an array/struct consists of the opening line, then each element's displayed lines indented by four spaces with a comma after the element (fields prefixed by .name = ), then the closing line; scalars display on one line.", "quantifier": "all values, unbounded nesting", "why_tests_cant": "Unbounded nesting.", "anchors": ["src/lang/eval/value.rs:fmt::Display for Value, Array, Struct"]}
{"id": "C56", "title": "Integers print in decimal and read back", "statement": "An integer displays as its canonical decimal numeral; reading the numeral of any non-negative 128-bit integer as a literal gives that integer, and a literal exceeding 2^127-1 is rejected rather than wrapped.", "quantifier": "all integers", "why_tests_cant": "All 2^128 integers.", "anchors": ["src/lang/eval/value.rs:fmt::Display", "src/lang/parse.rs:constant"]}
{"id": "C57", "title": "key() and keyof() build exactly the documented structs", "statement": "key(a,b,c,d) on integers returns a search key whose min fields are a,b,c,d and whose max fields are the type maxima; with any other arity or a non-integer argument it is an error.", "quantifier": "all arguments", "why_tests_cant": "All arguments.", "anchors": ["src/lang/eval/eval.rs:eval_function (Key)"]}
{"id": "C58", "title": "typeof/len/str/hist are total on their domain", "statement": "typeof(v) never fails and names v's type; len is the element count of any array and an error otherwise; str passes strings through unchanged and otherwise returns the displayed text; hist() is an empty array; appending to any array with + adds exactly that element at the end.", "quantifier": "all values", "why_tests_cant": "All values.", "anchors": ["src/lang/eval/eval.rs:eval_function"]}
{"id": "C59", "title": "A histogram array behaves as a plain array except when printed", "statement": "Every operation other than print treats a histogram like a regular array with the same elements.", "quantifier": "all arrays", "why_tests_cant": "All operations.", "anchors": ["src/lang/eval/value.rs:Array (field is_hist)"]}
{"id": "C60", "title": "Every btrfs key type with a shipped struct is recognised", "statement": "For every on-disk item type named by a struct's documented key, an item with that key is decoded with that struct.", "quantifier": "all keys", "why_tests_cant": "All keys vs. ordered match.", "anchors": ["src/btrfs/definitions.rs:STRUCTS key_match"]}
{"id": "C61", "title": "File extent items show their location exactly when they have one", "statement": "A byte string decodes as btrfs_file_extent_item iff it starts with the 21-byte header and, when its type byte says regular or preallocated, with the 32-byte disk location after it; the decoded struct shows the header fields and, exactly in that case, the four location fields.", "quantifier": "all byte strings", "why_tests_cant": "the layout depends on the contents; tests cover a handful of items", "anchors": ["src/btrfs/definitions.rs: btrfs_file_extent_item", "src/lang/eval/value.rs: Struct::from_bytes"]}
{"id": "C62", "title": "Shipped struct sizes are the on-disk sizes, names are unique", "statement": "Every shipped struct definition has exactly the size of the fixed part of the on-disk structure of that name, and no two definitions share a name, so a cast to a name is unambiguous.", "quantifier": "all shipped struct definitions", "why_tests_cant": "no test compares the generated definitions with the on-disk format; a wrong width shifts every later field of every item", "anchors": ["src/btrfs/definitions.rs: STRUCTS", "src/btrfs/structs.rs: Type::size"]}
{"id": "C63", "title": "Every scalar member is read where the kernel keeps it", "statement": "Whenever bytes decode as a shipped struct, each scalar member (at any depth, also in anonymous unions, and each element of an array member) is the unsigned little-endian integer at the offset and width a C compiler gives that member in the kernel's btrfs_tree.h. Names, the xattr value and the stripes of a chunk are read right after the fixed part, with the lengths and counts the kernel keeps for them.", "quantifier": "all 253 scalar members and all variable-length members of the shipped structs, all byte strings", "why_tests_cant": "no test compares the shipped tables with the kernel's header, and a swapped, missing or mis-sized field silently shifts what is shown for every item ever decoded", "anchors": ["src/btrfs/definitions.rs: STRUCTS", "src/lang/eval/value.rs: Value::from_bytes"]}
{"id": "C64", "title": "Expressions evaluate by the language's rules, operands left to right", "statement": "An expression has exactly the value (and exactly the kernel interaction) given by the language's evaluation rules: operands are evaluated once each from left to right, each is checked to have the required type before the next is evaluated, evaluation stops at the first error, and the result of the operation on the operand values is the documented one (integer arithmetic, string concatenation, array append, field and index selection, equality, negation, calls); it is an error in exactly the remaining cases.", "quantifier": "all expressions, variable stores, filesystems and kernel behaviours", "why_tests_cant": "infinitely many expressions; the order of kernel calls and the absence of effects after an error are not visible in a value-only test", "anchors": ["src/lang/eval/eval.rs: eval_expr, eval_primary_expr, eval_binop_expr, eval_unary_expr, eval_function"]}
{"id": "C65", "title": "Statements execute by the language's rules", "statement": "A statement changes variables, selected filesystem, output and kernel state exactly as the language's execution rules say: sequencing stops at the first statement that does not end normally; if runs exactly the chosen branch in a fresh scope; while and for iterate, break and continue act on the innermost loop; an assignment evaluates the right-hand side first and then stores; print and (interactively) an expression statement write exactly one text; filesystem selects what was opened.", "quantifier": "all statements, states, kernel, file system and output behaviours", "why_tests_cant": "all programs and all environments, including failing output and failing kernel calls at any point", "anchors": ["src/lang/eval/eval.rs: eval_statement, eval_if, eval_while, eval_for, eval_lhs_assign, eval_builtin"]}
{"id": "C66", "title": "Kernel queries go only to the filesystem selected last", "statement": "In every session the current filesystem is the one opened by the last successful open (the working directory at startup, or the path of a filesystem command), a failed open changes nothing, every kernel search request goes to the filesystem selected at the moment of the request, and commands that contain no filesystem statement open nothing and leave the selection alone.", "quantifier": "all sessions (any commands in any order, ending in any way) and all operating-system and kernel behaviours", "why_tests_cant": "any history of opens, failures and searches; a test sees one mount", "anchors": ["src/lang/eval/eval.rs: Eval::new, eval_builtin, eval_function", "src/btrfs/fs.rs: Fs::new, Fs::search"]}
{"id": "C67", "title": "A string literal is the UTF-8 encoding of its text", "statement": "Evaluating a string literal yields exactly the UTF-8 encoding of the characters written between its quotes; that encoding is unique, differs for different texts, and consists of bytes; so comparing two literals compares their texts, adding them appends their texts, and entering `x = literal;` in any session stores it in x, changes no other variable and writes nothing.", "quantifier": "all texts of Unicode characters, all sessions", "why_tests_cant": "all lengths and all of Unicode", "anchors": ["src/lang/eval/eval.rs: eval_primary_expr, eval_statement", "src/lang/parse.rs: string"]}
{"id": "C68", "title": "Splitting a program over several commands does not change what it does", "statement": "Entering the concatenation of several programs as one command succeeds exactly when entering them one after the other all succeed, and then leaves the same variables, filesystem, output and kernel interaction. If a part does not end normally the rest is not run. The only difference: a part rejected before execution stops everything when entered as one command.", "quantifier": "all programs, all numbers of parts, all session states and all behaviours of the outside world", "why_tests_cant": "every program and every split point", "anchors": ["src/lang/runtime.rs: Runtime::eval", "src/lang/eval/eval.rs: Eval::eval", "src/lang/parse.rs: parse", "src/lang/semantics.rs: SemanticAnalyzer::analyze"]}
{"id": "C69", "title": "Interactive and script mode differ only in echoing expression statements", "statement": "A command without expression statements behaves identically in both modes. When the outside world answers questions in the same way, any session gives the same results, variables, filesystem and kernel requests in both modes; the output of a script is a subsequence of the interactive output, which only adds the echoed values.", "quantifier": "all commands, all sessions, all steady behaviours of the outside world", "why_tests_cant": "every program and history", "anchors": ["src/lang/eval/eval.rs: Eval::new, eval_statement, Eval::eval", "src/lang/runtime.rs: Runtime::new, Runtime::eval"]}
{"id": "C70", "title": "Nothing contained in an item is silently dropped", "statement": "Two items of the same kind that are shown as the same value are the same bytes.", "quantifier": "all shipped definitions, all item contents", "why_tests_cant": "all byte strings of all lengths", "anchors": ["src/lang/eval/value.rs: Struct::from_bytes", "src/btrfs/definitions.rs: STRUCTS"]}
{"id": "C71", "title": "Only printable text reaches the terminal", "statement": "In every session everything written to the output is printable ASCII or white space: no control characters or escape sequences reach the terminal, whatever file names and other bytes are on the disk. Every value a session can hold or compute consists of byte strings and printable names, so the line-by-line format of displayed values (C55) describes all of them.", "quantifier": "all sessions of Unicode commands, all kernel answers, all image contents", "why_tests_cant": "any bytes on the disk, any program that stores, joins, formats and prints them", "anchors": ["src/lang/eval/value.rs: Value::as_string, Value::fmt, Array::as_hist", "src/lang/eval/eval.rs: eval_builtin, eval_statement, eval_expr", "src/btrfs/definitions.rs: STRUCTS"]}
{"id": "C72", "title": "A command changes only the variables it assigns", "statement": "A variable that is neither the root of an assignment target nor a loop variable of a command has the same value (or is still undefined) after the command, in every scope, whether the command ends normally, fails, quits, crashes or is cut off.", "quantifier": "every statement and command text, every debugger state, environment, step budget, variable and scope", "why_tests_cant": "aliasing or scope bugs would show up only for particular nestings of blocks, loops and partial assignments and particular ways to end", "anchors": ["src/lang/eval/eval.rs:eval_statement", "src/lang/eval/eval.rs:eval_lhs_assign", "src/lang/variables.rs:Variables"]}
{"id": "C73", "title": "A command depends only on the variables it mentions, the selected filesystem and the outside world", "statement": "Two debuggers, with any histories, that agree on the variables mentioned by some commands and on the selected filesystem and face the same answers of kernel, files and terminal give the same results, make the same interactions and print the same output for those commands, and agree afterwards.", "quantifier": "every pair of debugger states or session histories, every sequence of commands, both modes, all environments that answer alike from now on", "why_tests_cant": "hidden state (leftover scopes, loop depth, cached results) can depend on any earlier history", "anchors": ["src/lang/runtime.rs:eval", "src/lang/semantics.rs:analyze", "src/lang/eval/eval.rs:Eval"]}
{"id": "C74", "title": "A program ends unless one of its while loops does not", "statement": "Entered in any session, on any filesystem whose kernel answers searches like a (possibly changing) btrfs tree, a command comes to an end (normally, with an error, quit or crash) if and only if each while loop it comes to ends and each print of a histogram holding a value above 2^125 it comes to ends. In particular a program without while loops and without such histograms always ends: searches, for loops over their results, casts, decoding and printing cannot go on forever.", "quantifier": "all typed environments with an honest kernel, all sessions, all commands, both interactive and batch mode", "why_tests_cant": "Termination for every program, filesystem content and history of a changing filesystem; a test only sees runs that ended.", "anchors": ["src/lang/eval/eval.rs:Eval", "src/btrfs/fs.rs:search", "src/lang/eval/value.rs:as_hist", "src/lang/runtime.rs:eval"]}
{"id": "C75", "title": "On an unchanging filesystem a search is a function of its key", "statement": "While the searched trees do not change, a bounded search(tree, key) returns exactly the items of that tree in the requested key and transaction range, by ascending key; so the same search gives the same array whenever, wherever in a program and with whatever paging by the kernel it is made; a search for part of the range gives part of the array in the same order; and searching the two halves of a cut range and joining the arrays gives the array for the whole range.", "quantifier": "every set of trees, every way the kernel splits its answers over requests, every request with at least one upper bound below its maximum, every program making the calls, every cut of the range", "why_tests_cant": "It relates arbitrary pairs and triples of searches over arbitrary tree contents and pagings; a test sees a few keys on one filesystem.", "anchors": ["src/btrfs/fs.rs:search", "src/lang/eval/eval.rs:Eval", "src/lang/functions.rs:search"]}
{"id": "C76", "title": "The shipped scripts compute what they are for", "statement": "On an unchanging filesystem mounted at /mnt/btrfs with a well-formed extent tree, running scripts/block_group_dist.btrd succeeds and prints exactly: the histogram of the percentages in use (rounded down) of all data block groups of the extent tree, and the histogram of the sizes of all gaps before the extents of each data block group; running scripts/example.btrd succeeds and prints the first three items that the kernel's first answer for tree 1 from key (4, 132, 0) on shows, each as its displayed text on a line of its own.", "quantifier": "every contents of the trees (any number of block groups, extents and other items), every way the kernel splits its answers over requests, both build modes", "why_tests_cant": "The scripts run two nested loops over whatever the kernel returns, paged in whatever way; a test sees one filesystem and one paging.", "anchors": ["scripts/block_group_dist.btrd", "scripts/example.btrd", "src/main.rs:main", "src/lang/eval/eval.rs:Eval", "src/btrfs/fs.rs:search"]}
{"id": "C77", "title": "What a run shows and how it ends", "statement": "With a script, stdout is exactly what the script writes (no banner), the exit code is 0 if it ends normally or by quit, 1 after an error (which is reported on stderr, followed by the error of main) and 101 after a panic, and the terminal, the editor and the history file play no role. Interactively, with a working stdout, stdout is at every moment the welcome message followed by the outputs of the lines read so far, in order, with a line 'quit' for each read error and for the end of file; stderr has one message per failing command, per Ctrl-C and per read error, in order; the exit code is 0 exactly when the user left by quit or end of file and the history could be saved, 1 when it could not, and failing commands never change it; the history is saved exactly when the exit code is 0. If the logger, the editor or the script file fails, the exit code is 1 and nothing was written or opened. A stdout that does not take the welcome message makes the program abort before it opens anything. Without overflow checks and with a working stdout the program never aborts. The commands of an interactive run behave as a session of the other properties.", "quantifier": "every script and sequence of inputs, every environment (kernel answers, paths, sink) and every combination of failing surroundings", "why_tests_cant": "The interactive loop has unboundedly many histories of lines, errors and interrupts, and the failures of the surroundings are hard to provoke.", "anchors": ["src/main.rs:main", "src/main.rs:repl", "src/main.rs:script", "src/main.rs:welcome", "src/main.rs:save_history", "src/lang/runtime.rs:Runtime"]}
{"id": "C78", "title": "No run depends on what comes later, or on its own output", "statement": "If two environments answer the first t interactions (ioctls, opens, writes) alike, then runs of the program in them are the same or were the same up to a point after these t interactions and did the same there: in particular the first t+1 interactions are the same, and a run with at most t interactions is the same altogether. What a command does depends only on the variables and the filesystem in use and on the answers it gets, not on earlier interactions or output.", "quantifier": "every two environments, every t, every script or interactive input, every state", "why_tests_cant": "It compares runs in all pairs of environments at every point in time.", "anchors": ["src/main.rs:main", "src/lang/eval/eval.rs:Eval", "src/btrfs/fs.rs:Fs"]}
{"id": "C79", "title": "What was shown stays shown, also for programs that never end", "statement": "Letting a run go on longer only adds interactions and output to it, and once it has ended nothing changes: any two views of a run are compatible, and it has at most one end. A program that does not terminate shows output without end (while true { print 1; } shows every number of lines).", "quantifier": "every script or interactive input, every environment, all numbers of steps", "why_tests_cant": "Runs that never end cannot be observed by tests, and the claim ranges over all moments of all runs.", "anchors": ["src/main.rs:main", "src/lang/eval/eval.rs:Eval"]}
{"id": "C80", "title": "No failure of the outside world is swallowed", "statement": "A command that succeeds or quits saw no failure: every kernel request was answered with a count its 16 MiB buffer can hold (also under the EOVERFLOW the code lets pass), every filesystem statement found a btrfs filesystem or image, every text was written completely. Whatever the result, a command does nothing more after its first failing interaction. A script that exits with 0, and an interactive run that reports no error on stderr, had no failure at all, except possibly the silent selection of the current directory at the start.", "quantifier": "every command, script or interactive input, every state, every environment (every pattern of failing ioctls, opens and writes), every step budget", "why_tests_cant": "A swallowed failure shows only for the particular interaction that fails; there are arbitrarily many of them in a run and the failures can come in any pattern.", "anchors": ["src/lang/eval/eval.rs:Eval", "src/btrfs/fs.rs:Fs::search", "src/btrfs/fs.rs:Fs::new", "src/main.rs:script", "src/main.rs:repl"]}
{"id": "C81", "title": "Equals may replace equals, and parentheses only group", "statement": "Two expressions that are analysed alike and evaluate alike in every situation may replace each other anywhere in a command (operands at any depth, indices of assignment targets, conditions, ranges) without any observable difference. In particular parentheses around an operand never change anything (except around an assignment target, which is refused), a != b is !(a == b), a <= b is !(a > b), a >= b is !(a < b), and constant operations may be computed in advance. a > b and b < a differ, because operands are evaluated in the order they are written.", "quantifier": "every command, every set of replaced places, every state, every environment, every step budget", "why_tests_cant": "The contexts and states in which an expression can stand are infinitely many.", "anchors": ["src/lang/eval/eval.rs:Eval::eval_expr", "src/lang/semantics.rs:SemanticAnalyzer", "src/lang/ast.rs:PrimaryExpression"]}
{"id": "C82", "title": "Nothing is left out without a warning, warned about without a cause, or shown without a source", "statement": "Every item a successful search receives is either an element of the result or reported on stderr with its key, both in the order received. A search that fails on an undecodable item has reported exactly the items of unknown kind before it. Every warning of a session is about an item whose key no definition matches and that the kernel returned in an earlier answer. Every element of a search result is the decoding of an item that stands in the kernel's answer to one of the requests of this very search.", "quantifier": "every search in every state against every kernel behaviour (any buffers and counts of the interface's types), every history of commands", "why_tests_cant": "Kernel answers, batches and mixes of known and unknown items are unbounded; provenance is a claim about all of them.", "anchors": ["src/lang/eval/eval.rs:Eval::eval_function", "src/btrfs/fs.rs:Fs::search", "src/btrfs/definitions.rs:STRUCTS"]}
{"id": "C83", "title": "A search makes at most one kernel request per item, and one more", "statement": "A bounded search() makes at most N+1 kernel tree-search requests, where N is the number of distinct items that were in the requested range at some time during the search, whatever it ends with; a successful one makes at least one and at most (elements returned + items warned about) + 1. A search whose upper bounds are all at their maximum makes exactly one request. So searching always ends, after work proportional to what is found.", "quantifier": "every program state, kernel that answers tree searches as documented on a filesystem changing arbitrarily meanwhile, batch sizes, request, and outcome (for unbounded searches: any kernel)", "why_tests_cant": "the batch sizes and the changes of a live filesystem are the kernel's choice and vary from request to request; a loop that re-requests a page or fails to advance shows only on particular batch boundaries", "anchors": ["src/btrfs/fs.rs: Fs::search (retry loop, 186-283)", "src/lang/eval/eval.rs: Eval::eval_function (Function::Search)"]}
{"id": "C84", "title": "An error report names the first thing that went wrong, with the right values", "statement": "When a statement fails, the text reported is that of the first failing operation in the order of evaluation: the unknown variable's name, the operands and operator of the overflowing operation, the types that cannot be added, the expected type and the value found (arrays and structs abbreviated), the index and length, the member and struct, the call that has the wrong number of arguments, the path and why it is no btrfs filesystem. Nothing after the failing operation has taken effect. Conversely every such situation is reported, with exactly this text, and never two different ones.", "quantifier": "every expression, statement and sequence of statements, program state, environment, interactive or not", "why_tests_cant": "every combination of operator, operand types, nesting, order of evaluation and loop iteration gives its own report; a test shows one message for one program", "anchors": ["src/lang/eval/eval.rs: every bail!/ensure!/ok_or_else", "src/lang/eval/value.rs: as_*, short_display, type_str, field, field_mut", "src/btrfs/fs.rs: Fs::new, search, get_bytes"]}
{"id": "C85", "title": "The checks before execution accept exactly the programs without problems and report the first one", "statement": "A command that parses is executed iff no variable is read that is neither known from before nor assigned earlier in a block still open at that point, no unknown struct is named in a cast, no break or continue stands outside of a loop, and no form that is never allowed is used (a member that is no name, a cast to something else, a for variable that is no name, a computed filesystem argument). Otherwise nothing is executed and the text reported is that of the first such problem from left to right. The names known from before are the constants, the functions and what earlier commands assigned outside of blocks before their own first problem. The error of a command is therefore: no program, the first problem, or that of the first failing statement.", "quantifier": "every history of commands and command, environment, interactive or not", "why_tests_cant": "which names are visible depends on the nesting of blocks and on all earlier commands, including rejected ones; tests check single programs in a fresh session", "anchors": ["src/lang/semantics.rs: SemanticAnalyzer::analyze and helpers", "src/lang/variables.rs: Variables", "src/lang/runtime.rs: Runtime::eval"]}
{"id": "C86", "title": "References into the search buffer are inside it and aligned", "statement": "Whatever count and bytes the kernel answers, every reference to an item header that search() makes from a raw pointer lies inside the 16 MiB buffer, these references are exactly the announced items in order, and each is aligned to 8 bytes (as Rust requires of a reference to a struct with u64 members).", "quantifier": "all kernel answers (counts, bytes), all lists of items", "why_tests_cant": "undefined behaviour is not visible in the output of a test; whether a header is misaligned depends on the lengths of all items before it", "anchors": ["src/btrfs/fs.rs: Fs::search", "src/btrfs/fs.rs: BtrfsIoctlSearchArgsV2", "src/btrfs/fs.rs: BtrfsIoctlSearchHeader"]}
{"id": "C87", "title": "The names of variables do not matter", "statement": "Consistently renaming the variables of a sequence of commands (different names stay different, constants and functions keep theirs and their names are not reused) changes nothing: the same output, the same requests to the kernel, the same results and errors, except that an unknown-variable error shows the new name; and the renamed variables end with the same values.", "quantifier": "all command sequences, all one-to-one renamings, all environments, both modes, all starting states that correspond under the renaming", "why_tests_cant": "there are unboundedly many programs and renamings; a hidden reserved or capturing name (a temporary, a keyword clash in the evaluator) would show for one name only", "anchors": ["src/lang/eval/eval.rs: Eval::eval_expr", "src/lang/eval/eval.rs: Eval::eval_statement", "src/lang/semantics.rs: SemanticAnalyzer::analyze", "src/lang/variables.rs: Variables", "src/lang/runtime.rs: Runtime::eval"]}
{"id": "C88", "title": "What is displayed determines the value", "statement": "Two values that are displayed with the same text are the same value: nothing in the displayed text is ambiguous, in particular a string that contains brackets, commas or quotes is never mistaken for a nested array, a field or several elements.", "quantifier": "for all pairs of values that expressions entered in any session can evaluate to, with arrays and structures nested to any depth and strings of any bytes", "why_tests_cant": "It compares all pairs of values of unbounded size; a test compares a few.", "anchors": ["src/lang/eval/value.rs: impl fmt::Display for Value", "src/lang/eval/value.rs: impl fmt::Display for Struct", "src/lang/eval/value.rs: impl fmt::Display for Array", "src/lang/eval/eval.rs: Eval::eval_statement"]}
{"id": "C89", "title": "Parsing takes polynomially many steps", "statement": "Although the grammar backtracks (assignments are tried three times before expression statements, a statement is tried as an expression before it is tried as a block, arguments are tried before the call fails, every precedence level retries), no text makes the parser take exponentially long: the number of parser invocations on a text of n characters is at most a constant times (n+1)^3, whether it is accepted or rejected, and on an expression the number of rules tried is linear in n.", "quantifier": "every text, of any length and nesting, accepted or not, with the error anywhere", "why_tests_cant": "exponential backtracking shows only on particular nested or truncated inputs; a test times a few of them and cannot bound the rest", "anchors": ["src/lang/parse.rs: expr (113-343), stmts (345-428), parse (434-436)"]}
{"id": "C90", "title": "Decoding errors say exactly what is missing", "statement": "When bytes (of a search result or at an address of an image) cannot be read as a struct, the error names the struct, the part that is missing (nothing more for the fixed part, the string, the trailing elements), the number of bytes there are and the number needed; for extent items it names the unknown kind of inline reference or says that data is left over. There is at most one such explanation, and none exactly when the bytes decode. A cast of a struct with a non-empty trailing name therefore always fails with the two lengths.", "quantifier": "every shipped struct, every byte string, every offset and image, debug and release builds", "why_tests_cant": "The lengths in the text depend on the lengths stored in the data, over an unbounded family of byte strings and reference lists; have and need are easily swapped or taken from the wrong place without any test noticing.", "anchors": ["src/lang/eval/value.rs: Struct::from_bytes (303-401), StructField::from_bytes (474-503)", "src/btrfs/definitions.rs: btrfs_extent_item and its inline references (822-908), btrfs_file_extent_item (1181-1239)"]}
{"id": "C91", "title": "A script does what its lines do when they are typed one by one", "statement": "Take a script and cut it into groups of consecutive lines, each of which contains whole statements (or only comments). Typing one line per group with the same code at the prompt does what running the script does: it ends in the same way after the same statement, with the same variables, the same filesystem, the same searches, and the same output except for the echoes of expression statements; without expression statements nothing differs. The one exception is a script the analyser rejects: nothing of it is run, while typing runs the lines before the offending one; but it does not succeed either. Hence when btrd exits with 0 for a script, so does an interactive session fed with its lines, and its output contains the script's; lines without code are the only ones that are reported as errors.", "quantifier": "every script text, every way of cutting it into complete commands, every layout and comment (except lines with both a # and an escaped quote, C42), every steady environment (any environment without expression statements), every step budget", "why_tests_cant": "relates all scripts to all the sessions that enter their lines: two input paths (comment stripping of a whole file, fix-up of single lines) and two evaluation modes, over every split and every failure position", "anchors": ["src/main.rs: repl, script (78-137)", "src/input.rs: strip_comments, fixup_input (27-64)", "src/lang/runtime.rs: Runtime::eval (26-41)", "src/lang/eval/eval.rs: eval (interactive echo)"]}
{"id": "C92", "title": "Going on from a key", "statement": "On a filesystem that does not change, search(t, key(o, ty, f, 0)) gives the items of tree t from the key (o, ty, f) on, without a gap; so for every element x that some search in tree t found, search(t, key(keyof(x).objectid, keyof(x).type, keyof(x).offset, 0))[0] is x again, the search from the next offset gives what comes behind x, and going on like that until an empty array reads every item from the first key on, once each and in key order, in no more searches that find something than there are items.", "quantifier": "all trees, keys, contents and histories of such searches, and all ways in which the kernel splits its answers", "why_tests_cant": "How much the kernel puts into an answer depends on the filesystem and the size of the items; that nothing is skipped or repeated between two requests must hold for every split and every tree.", "anchors": ["src/btrfs/fs.rs:search", "src/lang/eval/eval.rs:Eval", "src/lang/functions.rs:search", "src/lang/functions.rs:key"]}
{"id": "C93", "title": "Statements may be rearranged", "statement": "Rewriting a program by these rules, anywhere in it and any number of times, changes nothing that can be observed (variables, filesystem, output, interactions, result, and whether it ends), as long as the analysis accepts both: if a && b { l } is if a { if b { l } }; if a || b { l } else { m } is if a { l } else { if b { l } else { m } }; if !(c) { l } else { m } is if c { m } else { l } when c is a comparison or made by &&, || or !; what follows break, continue or quit in its block may be dropped; a continue at the end of a loop body may be dropped; while c { l } is while true { if c {} else { break; } l }. And if true { l } is l when all names l assigns already are variables.", "quantifier": "all programs, rewrites, sessions, states, outside worlds and outcomes including endless loops", "why_tests_cant": "It is about all programs and all states, with conditions and bodies that fail, jump out or never end.", "anchors": ["src/lang/eval/eval.rs: Eval::eval_statement, eval_if, eval_while, eval_for, eval_binop_expr", "src/lang/variables.rs: Variables", "src/lang/runtime.rs: Runtime::eval"]}
{"id": "C94", "title": "Calls nest no deeper than the text is long", "statement": "The tree of a command is at most as deep as the text is long and has at most twice as many nodes as the text has characters; the recursive rules of the parser nest at most one level more than the text has characters. There is no smaller limit: for every n there is a command of n characters whose tree is n levels deep, which is accepted and executed to the end.", "quantifier": "all texts and all n", "why_tests_cant": "Whether the stack suffices depends on the longest input; a bound for every input, and that no input is refused for its depth, are not visible in examples.", "anchors": ["src/lang/parse.rs", "src/lang/semantics.rs: SemanticAnalyzer", "src/lang/eval/eval.rs: Eval"]}
{"id": "C95", "title": "Expressions may be simplified", "statement": "Logical and bitwise operators obey the laws of Boolean algebra that keep order and number of the operands, including all errors, kernel requests and warnings: && || & | ^ are associative; for expressions made by comparisons and logical operators De Morgan's laws hold, !! and comparing with true or false can be left out, and true and false are neutral; for expressions made by integer operators the same holds with ~, 0 and ~0. Addition is not associative, && not commutative, De Morgan's law fails for ! of integers, and a + -b is not a - b.", "quantifier": "all expressions, states and outside worlds", "why_tests_cant": "The laws are about all operands, including those that fail, ask the kernel or overflow.", "anchors": ["src/lang/eval/eval.rs: Eval::eval_binop_expr, eval_unary_expr", "src/lang/semantics.rs: SemanticAnalyzer"]}
{"id": "C96", "title": "The kernel gets each search request as meant", "statement": "For every request of every run, the argument of the ioctl has the nine numbers of the request at the offsets and with the widths of the kernel's struct btrfs_ioctl_search_args_v2, no limit on the number of items, the true size of the buffer and zeros elsewhere, so that the kernel finds this request and no other; the request code is BTRFS_IOC_TREE_SEARCH_V2, although the program's struct is much bigger than the kernel's (which is so for buffer sizes that are multiples of 16384 only); what the kernel may write ends where the buffer ends; and headers are read where the kernel writes them.", "quantifier": "all runs (scripts and sessions), outside worlds whose kernel answers with a count and bytes, all requests; all buffer sizes for the request code", "why_tests_cant": "A wrong offset or width shows for some numbers only, and the numbers of follow-up requests come from the kernel; a wrong request code shows on a real btrfs only.", "anchors": ["src/btrfs/fs.rs: btrfs_tree_search_v2, BtrfsIoctlSearchKey, BtrfsIoctlSearchArgsV2::new, BtrfsIoctlSearchHeader, Fs::search", "src/lang/eval/eval.rs: Eval"]}
{"id": "C97", "title": "Debug and release builds agree until a crash", "statement": "Built with and without overflow checks, the program does exactly the same in every run (same requests, output, error reports, exit code), unless an arithmetic overflow crashes the build with the checks; in that case everything it did before was done, in the same order, by the other build as well. So a debug run that does not end with exit code 101 shows what the release build shows, and the builds agree on a run if and only if no command crashes the debug build.", "quantifier": "all runs (scripts and sessions), commands, states, outside worlds and step budgets", "why_tests_cant": "Tests run one build; the statement is about all pairs of runs, including those that overflow in a place nobody thought of.", "anchors": ["src/lang/eval/eval.rs: Eval", "src/lang/eval/value.rs: Struct::from_bytes, num_bytes_to_pretty", "src/btrfs/fs.rs: Fs::search", "src/main.rs: main"]}

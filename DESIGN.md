# Formal model of danobi/btrd in Rocq (Coq 8.16.1)

## 1. What is modelled

btrd is a small interpreter (parse -> analyse -> evaluate) with a decoder for
btrfs on-disk structures and a paging search loop around one ioctl. All of that
is deterministic logic once the outside world is made explicit, so the model is
an executable Gallina program, function by function; every definition cites the
Rust lines it models:

| Rust file | Coq file (rocq/theories) | what |
|---|---|---|
| (std) | `Base.v` | text/bytes as `list N`, `res` monad (Ok / Err / Panic / Fuel), i128/u64/u32/u8/usize conversions, checked and wrapping arithmetic |
| src/lang/ast.rs | `Ast.v` | expressions, statements |
| pom 3.2 | `Pom.v` | the parser combinators parse.rs uses |
| src/lang/parse.rs | `Parse.v` | the whole grammar |
| src/btrfs/structs.rs | `Structs.v` | type descriptors, `size`, `is_static_sized` |
| src/btrfs/definitions.rs | `Definitions.v` | all 148 constants, all 34 struct definitions, key matching, both dynamic layouts |
| src/lang/eval/value.rs | `Value.v` | values, display, escaping, histogram, byte decoding |
| src/lang/functions.rs, variables.rs | `Variables.v` | builtin functions, scope stack |
| src/lang/semantics.rs | `Semantics.v` | analyser |
| src/btrfs/fs.rs | `Fs.v`, `Memory.v`, `Ioctl.v` | opening, search paging loop over raw ioctl buffers, get_bytes; the raw pointer reads; the layout and bytes of the requests |
| src/lang/eval/eval.rs | `Eval.v` | expression, l-value and statement evaluation |
| src/lang/runtime.rs | `Runtime.v` | parse, analyse, evaluate one command |
| src/input.rs, src/main.rs | `Input.v`, `Main.v`, `Process.v` | comment stripping, fixup, REPL and script drivers; the whole process with banner, stderr messages, history saving and exit code |

### The outside world
A record `env` holds everything the program does not decide: the build profile
(`overflow-checks` on = debug, off = release), the answer of every ioctl (a
function of the number of earlier events, the handle and the request: any kernel,
any concurrent modification of the filesystem), the answer of opening a path, the
current directory, and whether each write to the sink succeeds and how much of it
arrives. Theorems quantify over `env`. A `world` records all events in order.

### Termination and crashes
`res` has four outcomes: `Ok`, `Err` (a reported error), `Panic` (Rust panic:
abort), `Fuel` (the step budget ran out). Loops that Rust bounds structurally
(recursion on the AST, over lists) are structural; `while` loops, the search
paging loop and the power-of-two loops take explicit fuel. `Spec_Run` removes the
budget (`evals`, `runs`: some budget suffices); C15 proves that more fuel never
changes a finished result, so these relations are functions. Where the code
terminates there is a termination theorem, where it does not a divergence theorem.

### Not modelled (trusted or out of scope)
* Error texts made by the operating system (errno of ioctl, statfs, mmap, writes) or by pom: `message` (Errors.v) is None for these; all others are modelled word for word (C84).
* Stack overflow, memory exhaustion, running time (except the number of parser steps, C89, of kernel requests, C83, and how deep the calls nest, C94).
* The inside of the rustyline editor and of its history, clap, logging (`info!`).
* The mmap of an image is a fixed byte list (no concurrent writer to the image).
* fs.rs:221 forms a reference to a possibly misaligned header (undefined
  behaviour in Rust): `Memory.v` and C86 say exactly when; the rest of the model decodes
  the 32 header bytes little-endian, as compiled code does when alignment is not checked
  (`-C debug-assertions` with rustc >= 1.70 aborts instead).
* pom itself: `Pom.v` models its documented semantics (backtracking, ordered
  choice, `repeat`, `list`) from knowledge of the 3.2 sources, which are not
  available in the sandbox.
* nix: `Ioctl.v` models its `ioc!` macro and repr(C) placement from knowledge of both.
* 64-bit little-endian target (`usize` = u64); one `write!` is one write (std's line
  buffer may retry the rest of a failed write later; a failed `eprintln!` panics).
* Simplifications are stated in the comment of the definition concerned.

## 2. How each property is stated and proved

Each group has a `Spec_*.v` (vocabulary of the statements, independent of the
model's helpers: relations and tables, with as little of the model as possible), a
`Proof_*.v`, and a `Properties_*.v` holding only the theorems, `Print Assumptions`
and concrete examples that satisfy their hypotheses. A property the code violates
has a `_refuted` theorem with a witness and a `_partial` theorem for the largest
part that holds.

| id | files | statement | method |
|---|---|---|---|
| C01, C02, C04-C07, C09 | Arith | results of operators on all i128 values | case analysis, lia, bit lemmas of the standard library |
| C08 | Arith | `==` decides Leibniz equality | nested induction on values |
| C10-C12 | Vars | scopes as `binding vs depth name`; `set_at`, `updated` | induction on scopes, statements, l-values |
| C14-C16 | Run | `whiles`, `iterates`, `reaches` relations | induction on fuel, fuel monotonicity |
| C17-C20 | Session | `session E history state` | invariants over command histories |
| C03, C13, C21 | Safe | `i128`, `loose_jump`, panics | one invariant over expressions, statements, sessions |
| C22-C27, C61, C62 | Decode | independent encoder relation `encodes`; size table | nested induction on types; the shipped tables by computation |
| C63 | Layout | table of 253 members with C offsets and widths; table of the names, values and stripes that follow | decoding by offsets, computation over the table |
| C28, C29, C55, C58, C59 | Text | `shown`, `shown_lines` relations; simulation for C59 | induction on bytes/values; simulation |
| C30, C39-C41 | Fs | bytes at an offset, accepted paths | case analysis |
| C31-C33 | Hist | buckets and labels by integer powers | induction on the loops; divergence by invariant |
| C34-C38, C57, C60 | Search | abstract kernel: sorted items, arbitrary batches, contents changing between calls | paging invariant, measure on keys |
| C42-C45 | Input | line-based specification of comments | induction on text |
| C46, C47 | Parse | context-free grammar as inductive relation `g_program` | consumption lemmas, soundness of every rule |
| C48-C50, C56 | Syntax | canonical rendering; completeness for every layout | mutual induction with follow conditions |
| C51-C53 | Driver | event log of REPL and scripts | generic invariant over evaluation |
| C54 | Constants | kernel constant table | computation, preservation invariant |
| C64 | Lang | big-step rules `gives` for expressions | induction on expressions / derivations |
| C65 | Exec | big-step rules `executes` for statements | induction on statements / derivations |
| C66 | Access | `selected` (last successful open of the log), `only_selected` | generic state-relation induction over statements, session induction |
| C67 | Utf8 | `utf8_text`: the encoding table of RFC 3629 as a relation | induction on texts, decoding lemmas |
| C68 | Split | grammar relation `program`; commands entered one after the other | concatenation of derivations, list lemmas for analyser and evaluator |
| C69 | Echo | `alike`/`echoed`: states equal up to additional writes; `steady` outside worlds | simulation between the two modes |
| C70 | Lossless | encodings `enc_item` of values (C22-C27, C61) | injectivity of the encoding relations |
| C71 | Output | `terminal_safe` text, `textual` values | invariant over decoding, evaluation, parsing and sessions |
| C72 | Frame | `may_assign` (roots of targets, loop variables), `binding` | induction over the step budget and the statement shows every other binding is the same in every scope, for every ending. |
| C73 | Frame | `mentions`, `agree_on`, `same_future`, `same_since` | two runs with different environments and stores, related by agreement on the mentioned names and by the same future answers, are simulated step by step (analyser, expressions, statements, commands, command sequences). |
| C74 | Ends | `kernel_honest`, `arrives` (the statements a run comes to), `large_histogram`, `has_while` (Spec_Ends) | every expression settles at some budget (searches by `bounded_search_terminates`); induction on statements with the typing invariant of C03; converse by determinism (`arrived_ends`) |
| C75 | Still | `still` (each tree number always has the same items, paging free), `selection` (the items in range, by ascending key), `narrower`, `cut`, `sublist` | from C35: a complete result over a constant history is the unique sorted selection; selections of parts are sublists, of the halves of a cut append; decoding (`shown`) is functional and distributes over append |
| C76 | Scripts | the two shipped scripts byte for byte; `usage`, `free_space` computed from the tree and the item bytes directly (`num` of byte ranges), `extent_tree` (well-formedness), `histogram` (Spec_Hist) | the parsed program is run symbolically with the rules of C65; the two nested loops by induction over the items shown, with an invariant on the variables of each scope; searches by C35/C75, block group members by C63, histograms by C31/C32 |
| C77 | Process | `Process.v` models `main` with its surroundings; `banner`, `hears`/`listens` (what one input, and a sequence, adds to stdout and stderr), `leaves`, `aborts` | induction over the inputs; safety by the invariants of C03/C13/C21; sessions by a simulation that delays the environment (`Proof_Sim`) |
| C78 | Causal | `agree_until`, `parted`, `delayed` | the general simulation of `Proof_Sim` (two environments, two budgets) with "in step" = equal worlds and "parted" closed under growth |
| C79 | Causal | `continues` (the log and the output are extended) | the same simulation with two budgets, and the budget monotonicity of C15 |
| C80 | Failures | `good_answer` (the environment's answer to interaction number i was no failure), `all_good`, `run_good` (except the opening of the current directory) | a predicate on log segments (all good, or all but the last) carried through every operation, statement and the process loop |
| C81 | Laws | `same_expr` (interchangeable in analysis and in every situation), `swapped_stmts` (replaced at any depth), `bare_stmt` (without parentheses) | congruence of analysis and evaluation by mutual induction; laws by case analysis |
| C82 | Warn | `reports` (the warnings due for a list of items), `holds` (an item in a kernel buffer), `warnings_founded` | a generic lemma on properties of interaction sequences kept by concatenation (`Proof_Segments`); induction over the paging loop and the items |
| C83 | Cost | `requests` (the number of tree-search requests between two worlds), `covers` (a list with every item that ever was in the range) | the paging invariant of C35 with a counter: every request but the last brings a new item of the range |
| C84 | Model `message : error -> option str` (Errors.v), errors carry the operands, indices, lengths, names and values that are shown. Spec_Errors: relations `reports` (expressions) and `fails` (statements) giving the first error in evaluation order and its text. Proved equivalent to the evaluator in both directions, by induction on expressions and on runs; corollaries spell out casts, searches, filesystem and histogram errors. |
| C85 | Spec_Analysis: a program flattened to items in textual order (uses, declarations, types, jumps, block ends); visibility and being inside a loop are stated on prefixes of that list, without scopes or counters. The analyser's scope stack is related to the prefix read so far (Proof_Analysis `vis`, `loops`; invariant `holds`), by induction on statements; the names kept over a session by induction on the history. |
| C86 | Memory | `Memory.v`: the offsets at which the unsafe code of the search makes references to item headers | in bounds for every kernel answer, by induction on the count; linked to the extracted items; alignment refuted, characterised exactly |
| C87 | Rename | renaming of the variables of commands (`Spec_Rename.v`), related states | simulation between the two runs by induction on expressions, statements and fuel; `Proof_Nv.v`: only a variable lookup yields an unknown-variable error |
| C88 | Looks | `looks_alike` (which values a reader cannot tell apart), `bare` values | the lines of a value (C55) are decoded: joining lines is injective, an element or field is one line ending in a comma or a bracketed group of indented lines, names contain no blanks, escaping is injective (C28); naive form refuted, exact characterisation for all values a session can compute (C71) |
| C89 | Steps | The number of steps (calls of a parser combinator or a character test) of `parse` is at most 4·10⁷·(n+1)³ for a text of n characters; counting a token as one step, expressions are linear and programs at most quadratic | PomSteps/ParseSteps repeat the combinators and the grammar with a counter; erasure gives back the parser; amortised cost (steps + A·|rest| ≤ A·|text| + const, with the look-ahead that was wasted at the end charged to the operator that started it); a text that starts no expression fails in constant time; a failed `else` block is never parsed again because no statement starts with `else {` |
| C90 | Items | `decode_fault` (Spec_Items) says from the on-disk format alone why bytes cannot be read as a struct: the fixed part, a trailing string or array, an inline reference of unknown kind or cut short, a file extent's location; decoding fails with exactly that text and no other (both directions), and casts report it | induction over the fields with the invariant that the fixed part is complete; determinism of the explanation |
| C91 | Lines | Spec_Lines: script lines grouped into commands, one typed line with the same code for each group; the state and result of typing them one by one | the comment stripper's output is the concatenation of the groups' codes (C42); appending the `;` keeps each program; the pipeline on a concatenation (as C68); echoes by the simulation of C69; processes by C77 |
| C92 | Spec: a tree in key order, cutting it at a key, the request of `search(t, key(o, ty, f, 0))`, and `pages`, the history of someone who searches on from behind the last element until nothing is found. On a filesystem that does not change (the kernel of C75, which splits its answers as it likes). | An open search finds a prefix of the items from its key on, from C36 and uniqueness of sorted lists; cuts are functions, so the search from an element's key starts with that element, and the one from the next offset with what follows; the expression with `keyof` is evaluated. Paging by induction on the history. | partial: refuted if an item is of a type that no shipped struct is for, since such items count in an answer but are not shown, and an array without elements is then not the end |
| C93 | Spec_Blocks: blocks are interchangeable if run in the same state they end in the same way and state, or neither ends; `rearranged`: exchanging blocks anywhere; the seven rules. | each rule from the big-step rules of C01-C15 (Spec_Run); nested ifs: an additional empty scope at any depth is invisible to a run that leaves it (simulation with a hole in the scopes); loops by induction on the derivation; congruence by induction on `rearranged`; commands by determinism and fuel monotonicity. | proved |
| C94 | Spec_Depth: depth and number of nodes of a program tree (analysis, evaluation and release call themselves on the parts of the tree); the nested calls of the parser's recursive rules are its budget in Parse.v. | induction on the grammar (C47); `!...!1;` by render and parse (C48) and evaluation; parser: combinators are monotone in the budget. | proved |
| C95 | interchangeable expressions as in C81; Spec_Logic: expressions that are booleans or integers if they have a value. | evaluation of both sides in an arbitrary world, with the laws of booleans and of Z's bits; the forms by their operators; counterexamples by evaluation. | proved |
| C96 | Ioctl.v: repr(C) placement of the fields, nix's `ioc!`, the request's memory as a sequence of field assignments. Spec_Ioctl: `_IOWR`, the member tables of linux/btrfs.h, and what the kernel finds at these offsets. | bytes by computation for symbolic numbers; injectivity of little-endian numbers; the request code for any buffer size by bits; the widths of all requests of all runs by an invariant over search loop, evaluation and drivers. | proved |
| C97 | Spec_Build: the two builds of a run (overflow checks on or off, everything else equal) and what it means that one crashed on the way. | simulation of the two builds through arithmetic, histograms, decoding, search, expressions, statements and drivers: equal, or the first panics and the second has only added to what the first did; that the panics are overflows and that release never panics from C21's invariant. | proved |

## 3. Trusted base
* Coq 8.16.1's kernel, including `vm_compute`.
* `Print Assumptions` under every property theorem prints "Closed under the global
  context": no theorem depends on any axiom. (vcheck lists seven library axioms
  `Coq.ssr.ssrunder.Under_rel.*`, which come with importing the ssreflect plugin of
  the standard library through `Lia`/`ZArith`; no theorem uses them.)
* The faithfulness of the model to the Rust source (by reading), and the items
  under "Not modelled". `Conformance.v` transcribes every unit test in /repo/src
  (39 test functions, translated mechanically where the data are literals) and checks
  that the model gives the expected answers: tests of the model, not proofs.
* The tables transcribed from the kernel header as specification: `kernel_constants`
  (C54), `kernel_layout` (C63), the sizes (C62), the documented keys (C60).

## 4. Defects of the program found
Each is a theorem unless marked (note).
1. `-x` at -2^127 panics in debug and wraps in release builds (C05).
2. `a << n` silently drops bits although its error text promises an overflow error (C04).
3. Printing a histogram with a value above 2^125 never ends (C32); below -2^126 it panics (debug) or shows a broken label (C33).
4. A histogram does not count samples equal to the largest one when that is a power of two (C31).
5. Casts take the address modulo 2^64, may panic in debug near 2^64, and read 1024 bytes for unsized structs (C39, C40).
6. search() with the default key asks the kernel once: results beyond one buffer are lost (C36). A bounded search fails when a batch ends with an offset of 2^64-1 (C35).
7. print and filesystem escape quotes, backslashes and non-ASCII bytes: other text is written, another path opened (C29, C30).
8. The analyser accepts `x = x;`, `x += 1;`, `for i in i {}` and names assigned only in the other branch or in a rejected command (C20).
9. `==` distinguishes a histogram from an equal array (C59).
10. Identifiers beginning with print, help, quit, break, continue, true, false break statements: `printer;` prints `er` (C49).
11. strip_comments mistakes escaped quotes for string ends and restarts at each line (C42); continuation lines do not work in the REPL (C44); blank lines are errors (C45).
12. An unexpected readline error does not end the REPL loop (C52).
13. btrfs_dir_log_item is matched with the key type of inode_extref, so DIR_LOG_ITEM items are never shown (C60).
14. BTRFS_BALANCE_OBJECTID is 4 instead of -4 (C54).
15. (note) An item holding several inode_ref/dir_item records, or more than one checksum byte, shows only the first.
16. (note) An adversarial kernel repeating one item 2^31 times overflows the i32 collision counter (debug panic).
17. (note) Misspelt names: `btrfs_roof_ref`, `BTRFS_BLOCK_FLAG_F_BACKREF`; `btrfs_balance_item` lacks the unused tail; the member name `inline_ref` repeats.
18. Bytes of an item after the part its definition describes are ignored without an error; an INODE_REF item with several names shows only the first (C70).
19. (note) scripts/block_group_dist.btrd counts only the gaps before an extent: the free space behind the last extent of a block group, and all of an empty group, is left out (C76 states what it does count).
20. (note) README.md shows strings echoed in quotes and a blank line after each output; the code writes neither.
21. (note, C77) Leaving an interactive run with `quit` or Ctrl-D ends with exit code 1 when `.btrd_history` cannot be written in the current directory (e.g. a read-only mount under inspection), and the file is written into whatever directory is current, possibly the filesystem under inspection; after a panic the history of the run is lost.
22. (note, C84) The message for a search() key of another struct lacks its closing quote and names an internal struct (`must be 'struct _btrfs_ioctl_search_key`); a cast in the target of an assignment is reported as a unary expression.
23. search() makes misaligned references to item headers as soon as an item whose length is not a multiple of 8 is followed by another (C86): undefined behaviour, and an abort in debug builds of recent compilers.
24. Different values can be displayed alike (C88): strings are shown without quotes, so 5 and "5" cannot be told apart, and neither can histograms and plain arrays. Printed (not echoed) strings keep their line breaks and can look like arrays.
25. search() drops the items of types that no shipped struct is for, but they count in the kernel's answers; so an empty array from an unbounded search does not mean that the end of the tree was reached (C92). A script that searches on from the last element's key stops too early, and cannot know where to go on.
26. A cast of an address in an image to a struct that ends in a name (`btrfs_inode_ref` and the like) reads the fixed part only; unless the name is empty it fails, although the bytes are there (C90).
27. (note) Nothing limits how deep a command nests (C94), so a long enough one overflows the native stack, which ends the process without an error message.
28. (note, C96) The request code is the kernel's only because the size of the program's struct is cut to 14 bits and 16 MB is a multiple of 16384; a buffer of, say, 1000 bytes would make every search fail. `alloc_zeroed` may return null, which is not checked (undefined behaviour when memory runs out); it is not modelled.
29. (note) An image is opened for writing and mapped writable although nothing is ever written to it, so an image that may only be read is rejected as neither mounted nor unmounted.

## 5. Testing the theorems
`seeded/LOG.jsonl` records wrong programs: each line names the edited definition, the
edit, the claim it breaks, what failed to prove, and what was tightened.

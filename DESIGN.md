# Formal model of forsyth/jsonpath in Rocq (Coq 8.16.1)

## 1. What is modelled

The model is a set of total, executable Gallina functions, one per Go function, and of transition
relations where Go is not deterministic.  Every definition cites the lines of the source it models.

| file | models |
|---|---|
| `Base.v` | Go strings as byte lists, int64 wrap-around, `strconv.ParseInt`/`ParseUint`, `fmt.Sprint(int64)`, UTF-8 encoding, `utf8.RuneCountInString`, byte-wise string order, prefix/suffix/substring |
| `F64.v` | IEEE binary64 on the standard library's `SpecFloat` (no axioms), int64<->float64, `Ceil`, `Floor`, `Mod` |
| `Syntax.v` | `paths/ops.go`, `tokens.go`, `val.go`, `expr.go`, `path.go` |
| `Lexer.v` | `paths/rd.go`, `lex.go`, `lexpath.go`, `lexexpr.go` |
| `Parser.v` | `paths/parser.go`, `parsepath.go`, `parseexpr.go` |
| `Value.v` | the `JSON`/interface{} values, `mach/json.go` |
| `Fns.v` | `mach/fns.go` and `call` |
| `Program.v`, `Coder.v` | `mach/program.go`, `mach/coder.go` |
| `Machine.v` | `mach/run.go`, a loop's channel being a list of the values it will deliver |
| `Listing.v` | `mach/text.go`, the String methods it calls |
| `Describe.v` | `Step.String` (`paths/path.go`), with what `%#v` prints of its arguments |
| `Flags.v` | the arguments of jpath (`cmd/jpath/jpath.go:18-25`); the rules of Go's package flag, which is not in the repository, are from its documentation |
| `Debug.v` | what `%#v` prints of tokens and lexemes (`paths/tokens.go:44-71`, `paths/lex.go:41-49`) |
| `Messages.v` | the `Error` and `String` methods of errors and lexemes, the texts of `fmt.Errorf` |
| `Api.v`, `Cli.v`, `CliText.v`, `Writes.v` | `jsonpath.go`, `cmd/jpath/jpath.go` |
| `Trace.v` | `jsonString`, and what the machine writes when its field tracing is set (`mach/run.go:484-504`) |
| `Conc.v` | `looptop`, `stepping`, `walker`, `OpRep` as goroutines and unbuffered channels, small-step |
| `Heap.v` | the same over a store of arrays with capacities and of maps: any number of evaluations at once |

The three machines are related by proof: every schedule of `Conc.v` gives the result of `Machine.v`
(C47), and every evaluation among others in `Heap.v` gives the result of `Conc.v` (C49).

Specifications, written without reference to the model's helper functions, are in `Spec*.v`:

| file | specifies |
|---|---|
| `SpecSyntax`, `SpecTokens`, `SpecGrammar`, `SpecPrint` | token and path grammars, canonical notation |
| `SpecErrors` | what each syntax error says of the text |
| `SpecLayout` | texts with the same tokens; steps that differ only in notation |
| `SpecMessages` | errors with the same cause |
| `SpecCliText` | what jpath's messages say |
| `SpecTrace` | the lines of a trace |
| `SpecWrites` | which writes succeed, what was attempted |
| `SpecListing` | the words of constants and instructions in the text of a program |
| `SpecText`, `SpecCode` | accepted texts, programs that fit, what a program's orders stand for |
| `SpecDoc`, `SpecSelect`, `SpecIndex`, `SpecSem` | documents, selectors, meaning of a path over its tree |
| `SpecExpr`, `SpecOp`, `SpecEq`, `SpecLoose` | operators and functions, equality |
| `SpecWidth`, `SpecMembers` | documents that differ in the types of integers, in the order of members only |
| `SpecShape`, `SpecLaws` | documents that differ in scalars only; laws relating paths: filters, slices, selectors |
| `SpecEmbed` | a script expression put in a path |
| `SpecHand` | paths built by hand: which cannot be compiled, how many orders the others take |
| `SpecFlags` | how the arguments of jpath are read |
| `SpecDebug` | the lexemes that are read from a text |
| `SpecRound` | IEEE 754 rounding to the nearest double, over the rationals: no use of `SpecFloat`'s operations |
| `SpecCompare` | numbers that can be ordered, and integers that become the same double |
| `SpecAggregate` | totals and products of integers, and lists of which they stay within 2^53 |
| `SpecContext` | expressions that give the same values and errors, conditions that are true and false alike, and their exchange in paths |
| `SpecAddress` | the text that writes a place in a document key by key |
| `SpecOnce` | selections from different places, and in the order of elements; paths without unions, and the number of .. in a path |
| `SpecReach` | the places that match a path of names, integers and wildcards |
| `SpecEdit` | documents that differ at one place; places inside and apart from others |
| `SpecFind` | a short evaluator for paths of names, integers and wildcards |
| `SpecRename` | documents and paths with other names |
| `SpecTake` | the short evaluator with slices |
| `SpecListed` | the values a step lists |
| `SpecFetch` | the short evaluator with filters and scripts: truth, order, arithmetic, functions, expressions and their errors |
| `SpecGrow` | documents to which members and elements are added |
| `SpecRun`, `SpecCost` | runs of the machine, cost of a path |
| `SpecConc`, `SpecHeap` | what is sent and received, what is shared and what is private |
| `SpecCli` | jpath's output |

`Eval.v` is an evaluator over path trees that the compiler is proved correct against; it is a step
in the proof of C13, not a specification.  Proofs are in `*Proofs.v`, `*Final.v`, `*Exact.v`,
`Parser{Sound,Complete,Path}.v`, `LexReason.v`, `LexDeterm.v`, `UniquePath.v`, `SelectText.v`, `HeapSys.v`, `HeapProgress.v`.
`Properties*.v` hold only the property theorems, each closed by `exact`, with `Print Assumptions`
beneath, and an `Example` that meets the hypotheses.  `Examples.v` has the concrete worlds and
documents of the examples.

`Tests.v` runs the model, by computation, on the project's own tests: every line of `testdata/t1`
(text of the program, or error message), the consensus suite, the examples of the
documentation, and the tables in the `_test.go` files.  `tools/tests_to_coq.py` makes their data,
`TestData.v`, from /repo.  The answers of the parameters of section 2 for the few values that occur in
tests are tables there.  All agree, except that 13 queries of the consensus suite differ
from the consensus, which the project's test does not assert.

Conventions: error returns are values; `panic` is an explicit outcome; a Go loop is structural
recursion or recursion on fuel with an explicit out-of-fuel outcome which the theorems exclude;
nil slices are distinguished from empty ones where the code does; integers are `Z` with explicit
64-bit wrap; 32-bit orders are `Z` with explicit bit operations.

## 2. External behaviour: parameters, never axioms

They are fields of the records `textoracles` (compiling), `world` (evaluating) and `printers` (listing) and
`messages` (wording of errors), over which every
theorem quantifies: `strconv.ParseFloat`, `regexp.Compile`/`MatchString`/`Split`, `fmt.Sprint` of
floats and of composite values, `%q` of strings, `int64(f)` for f out of range, and the iteration order of Go maps
(a fresh permutation for every `range`, numbered by a counter in the machine's state).

Assumptions about them appear as hypotheses where they are needed: `orders_ok W` (the order of a
`range` is a permutation of the entries) and `literal_floats` (ParseFloat of a text that starts with
a digit gives neither NaN nor -0; part of `accepted`).

Three conditions recur.  `accepted TX s ss jp`: the text s, of bytes, parses to ss and compiles to jp.
`fits jp`: the program has fewer than 2^22 orders, which every text of up to 3 MiB satisfies
(C12_short); larger programs do not fit the operands of orders and theorems C12, C14-C16 are refuted
for them.  `doc v`: v is what encoding/json makes of a document (int64 in range, no NaN,
keys of an object distinct).

## 3. Simplifications, and what is not modelled

- Memory exhaustion, and Go's limit on the size of a goroutine's stack (C01, deep nesting).
- `jsonString` and tracing are modelled (`Trace`), with the encoder of encoding/json as a parameter; that Run never traces is not a theorem, but a constant of mach/run.go:127.  `Program.String` and `Step.String` are modelled (`Listing`, `Describe`); the formatting of quoted strings (`%q`) and of floats are parameters of it, as `%#v` of floats is of `Debug`.
- In `cmd/jpath`: the messages of package flag and its exit statuses (its rules are trusted to be as documented); opening and reading files, writing to the standard output and encoding/json are
  parameters (they may fail).
- Messages are modelled (`Messages`, `CliText`); `%#v` and `%s` of values and the texts of errors of
  `regexp`, `encoding/json` and `os` are parameters of it.  What the Go runtime writes on a panic is not.
- Lengths of slices and strings are unbounded.
- `Conc.v`: a machine order is one step; so is each statement of a producer that reads an element,
  sends or closes.  Orders other than OpFor, OpNest and OpRep do not communicate.
- `Heap.v`: the granularity is that of `Conc.v`.  What is between two steps of one goroutine touches
  only the storage named by C50_writes, which no other goroutine writes to (C50_separate,
  C50_private), so finer interleavings give nothing new.  Appending in place, growing
  to any capacity, the stack's stores, popN's copy, selection, loops and results are modelled slice by
  slice.  What operators and functions compute is any value made of parts of their operands and of new
  storage (`made`): fns.go and the operators of run.go assign to no element of an operand.  A panic
  leaves the store as it was before the order.

## 4. Trusted base

- The Coq 8.16.1 kernel (checked again with `coqchk`).
- The reading of the Go code: every model definition cites file and lines.
- `Print Assumptions` says "Closed under the global context" for every theorem of `Properties*.v`: no
  axioms, neither of ours nor of the standard library.
- Among the modules `coqchk -o` lists for the whole development are parameters of module types of the
  standard library (`Coq.ssr.ssrunder.Under_rel.*`, reached through the standard library's own
  imports); no theorem depends on them.

## 5. Mutation testing

`seeded/LOG.jsonl` has one line per wrong program tried: the definition edited, the edit, the
claim it breaks, the lemma where the build stopped, the property theorems that depend on that lemma,
and what was tightened if the build passed.

## 6. Properties

| id | how modelled and proved |
|---|---|
| C01 | parser on fuel; a measure on the remaining input shows out-of-fuel and panic unreachable |
| C02 | grammar relation over bytes (`SpecGrammar`); soundness and completeness of the parser |
| C03 | layered expression grammar; soundness and completeness; refuted: texts ending in an escaped quote |
| C04 | canonical notation (`SpecPrint`), from completeness |
| C05 | induction over the literal's bytes |
| C06 | arithmetic on surrogates; refuted: lone surrogate before a pair |
| C07 | paths: all; scripts: refuted for texts ending in an escaped quote |
| C08 | induction over digit strings |
| C09 | well-formedness of trees, from soundness |
| C10 | bit lemmas over Z |
| C11 | invariant of the constant table during compilation |
| C12 | size guard; refuted: a union of 2^22 elements panics, or selects nothing, at run time |
| C13 | compiler correctness against `Eval.v`, then against the relational meaning `SpecSem`; conversely every meaning is the outcome for some orders of iteration over maps (`EveryOrder`) |
| C14 | from C13, for slices whose stride does not overflow; refuted: `[1:3:9223372036854775807]` |
| C15 | from C13, with a bound in terms of path and document (`SpecCost`); refuted for huge programs |
| C16 | machine invariant along the C13 simulation; refuted for huge programs |
| C17,C18,C19 | invariants of the machine; refuted: the null a filter sees when there are no children |
| C20-C25,C53 | selectors of `SpecSelect`, exact statements and refutations (nil slice, stride overflow) |
| C26-C28,C54 | filters, `..`, scripts from the relational meaning; refutations |
| C29 | relational proof between two orders of maps; the restrictions are shown necessary |
| C30-C34 | integer and float arithmetic against `SpecExpr` |
| C35-C37 | induction on values; refutations |
| C38-C46,C55,C56 | functions and operators against `SpecOp`, `SpecIndex` |
| C40 | reasons of errors, against the meaning of the path |
| C47,C48 | interleaving semantics (`Conc.v`); refuted: an error inside a loop leaves a goroutine |
| C49,C50 | store (`Heap.v`); simulation by `Conc.v` under a separation invariant; progress the other way |
| C51,C52 | direct; refuted: `-l` with a line of 64 KiB |
| C66 | direct |
| C67 | texts of tokens and runes are compared by computation; decimal numbers and suffixes by lemma |
| C68 | relation `loose` (`SpecLoose`) listing the conversions; case analysis per kind, induction over the left value |
| C69 | relation `alike` (`SpecWidth`); a normal form, all integers int64, which each step of the machine commutes with; refuted for the least integer, which only abs of an int64 reports |
| C70 | relation `same_doc` (`SpecMembers`); the meanings of paths (C13) commute with sorting all members by name, then C13_every |
| C71 | by C52_exact; decimal numbers, the words of messages and the colon after a file name are told apart by lemma |
| C72 | relation `shape` (`SpecShape`); the direct evaluator (`Eval`) preserves it step by step, then C13 |
| C73 | all filters after the same steps go through the same values of @; what `!`, `&&`, `\|\|` do to the verdict on each |
| C74 | from the positions of C23 (`slice_positions`) |
| C75 | expressions without keys() and selections do not consult the order of iteration |
| C76 | a backquoted path ends at the first backquote, a quoted one by the hypothesis `quotes` that strconv.Quote is a prefix code; the two start differently |
| C77 | every reader with a bufio.Writer (`Writes`) is related to the one of `Cli` that returns its output: what was attempted and what is buffered make up the output so far |
| C78 | partial: the result of the final flush is dropped (jpath.go:27,121); C78_silent: of an output of at most 4096 bytes any failure goes unnoticed; C78_noticed: other failures are reported |
| C79 | expressions without $ have the same value for any two documents; then by composition |
| C80 | the containers in a value are itself and those in its children (`walks`); literal selectors do not depend on @ |
| C81 | the texts of the arguments are a prefix code (`quoting` of strconv.Quote assumed); arguments with the same text act alike as selectors; C81_refuted: two filters with the same text |
| C82 | containers, children and picked values of the grown document include those of the first up to order, step by step; three counterexamples for what is left out |
| C83 | the weight of a selection grows by at most `growth` at each step (`CostProofs`); doubling by induction on the number of steps |
| C84 | derivations of an expression are not changed by a `)` after it, nor by taking it away (C02, C03); C84_refuted: `'\'` |
| C85 | induction over the path with one statement for all outcomes (`HandProofs.does`); a hand-built path is a value of the model's `path`: its operators and operands are arbitrary, but a leaf has the operator of its type, no *Slice or *Regexp is shared and nothing is nil |
| C86 | `runs_means` needs the shape of the tree only, not a text; C86_ends_refuted: an empty union, then an `OpFor` with an argument, whose exit is the order before itself; C86_panics_refuted: `OpMember` without argument |
| C87 | induction over the arguments; that a path does not start with a dash is from the grammar (C02) |
| C88 | the errors and lexemes of C67; the names of tokens are compared by computation |
| C89 | nothing: `SpecFloat`'s operations, which C30, C31 and C43 mention, are shown to round the exact result |
| C90 | the values of C30 (`proper`); NaN is excluded from trichotomy and from == |
| C91 | how strconv.ParseFloat reads a text (parameter) |
| C92 | the values of C30 (`proper`); C92_minus leaves out a double minus an integer |
| C93 | C93_avg and C93_between suppose at most 2^53 elements; C93_extremes numbers but no Booleans (C93_refuted) and no NaN |
| C94 | equivalence is for every document as @ and the given root, over all orders; C94_same is for one order and excludes keys() in what is exchanged; C94_swap supposes an operand without errors (C94_steady; f() + g() in C94_refuted) |
| C95 | C95_distributes and C95_in evaluate an operand twice, so it may not call keys(); C95_in excludes null from the list (C95_refuted) |
| C96 | texts of up to 3 MiB; member names are bytes |
| C97 | C97_once_refuted, C97_order_refuted: the limits; the null a filter may give instead is that of C17 |
| C98 | arguments are literals: no slices, filters or expressions |
| C99 | as C98 |
| C100 | as C98 |
| C101 | as C98; C101_integers_refuted: $[0] selects the member "0" |
| C102 | as C98, with slices; bounds that are expressions count as 0, as in C29 |
| C103 | C103_reference for all paths if no object has two members, otherwise for those without keys(); C103_unordered for those without keys(); == is a parameter deciding the relation of C68, and the names of values as arguments are one deciding `named`. Texts are read as integers by `parse_int` and counted by `rune_count`, doubles are rounded by `f_ceil` and `f_floor` and divided by `f_mod`; these stand for the Go library's functions. What `regexp` matches and splits are the oracles of the world, and the number of pieces is assumed to be an int (`splits_ok`). Errors are those of `Fns.rerr`; in `C103_unordered` which of several errors comes first is left open, as it depends on the order of members |
| C104 | for all paths without keys(), C29_keys_refuted shows why |
| C105 | for all programs but C105_end, which is for accepted texts; the encoder's errors are supposed to be single lines (`quiet`) |
| C57 | invariant of values in expressions |
| C58,C59 | from the listing of C12 (`SpecCode`); operators against `SpecOrders` |
| C60,C61 | `SpecErrors` (what each error says of the text), a specification over the text alone; `LexReason`/`ReasonProofs`, `LexDeterm`/`DetermProofs` |
| C62,C63 | `SpecLayout` (texts with the same tokens, over `SpecGrammar`'s tokens; steps that differ only in notation), `LayoutProofs`, `NotationProofs` |
| C64,C65 | `SpecListing`, `ListingProofs`: each order written is shown as the word of its instruction; a bound of a slice that is an expression is not written out, so the text is ambiguous (C65_ambiguous) |

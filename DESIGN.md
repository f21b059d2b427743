# A Rocq model of bantling/micro

## Approach

`/repo` is a Go 1.18 generics library: iterators, streams, checked arithmetic, a decimal type, conversions, slice/map
helpers, an event registry, tagged unions, io helpers, a JSON reader/writer and a small REST mux.  Each module is
modelled by small total Gallina functions in `rocq/theories/<Name>.v` (definitions only, each citing the lines of
`/repo` it models); proofs live in `<Name>Proofs.v`; specification vocabulary in `<Name>Spec.v`
(nothing there refers to the model's loops); the property theorems live in `Props*.v`, named `Cnn_...` after the property they
belong to, each beside an `Example` that meets its hypotheses.

Go closures with captured variables become state machines `fuel -> state -> option ((value * option err) * state)`:
the captured variables are the state, `fuel` bounds loops inside one call, and `None` means the loop did not finish
within that fuel.  Statements use `returns f s r s'` (from some fuel on the call always gives `r` and `s'`), so running out of fuel
can never make a theorem true.  A panic is an explicit outcome.

## Plan per property

| id | property | model and method |
|----|----------|------------------|
| C01 | Unread/Next is a stack in front of the source | Iter.v: IterImpl as a record (live fn?, source state, buffer, lastErr). Refinement to an abstract stack-in-front-of-source machine, induction over the operation list. |
| C02 | Iterator errors are sticky and final | Iter.v; invariant over every later history of Next/Unread, source state unchanged once dead. |
| C03 | SetError replaces only the terminating error | Iter.v; emits/fails spec, induction on the prefix. |
| C04 | Of/OfSlice/OfEmpty/OfOne iterate exactly the given items | IterGen.v; induction on the slice. |
| C05 | Map iteration returns each entry once | IterGen.v; runtime order = an arbitrary permutation; nil interface value panics (refutation). |
| C06 | Concat is sequence concatenation | IterGen.v; source machines composed; induction on the iterator list and each value list. |
| C07 | InfiniteIterGen generates literals then f, f.f, ... | IterGen.v; induction on the index. |
| C08 | Fibonacci generator | IterGen.v; wrap mod 2^64; induction; exactness up to 91 by computation. |
| C09 | Byte reader iterates the reader's bytes | Readers.v; io.Reader as a machine over requests; induction; refutations by witness. |
| C10 | UTF-8 rune reader decodes every valid encoding | Readers.v; decoder function over byte list; encoder spec; finite/bitwise lemmas then induction. |
| C11 | UTF-8 rune reader's treatment of invalid input | Readers.v; exact characterisation of accepted byte sequences; refutation witnesses. |
| C12 | Line reader splits text at LF, CR and CRLF | Readers.v; spec = declarative line splitting; simulation by induction; refutation witness. |
| C13 | Map, MapError and Peek are element-wise, lazy and error-transparent | Stream.v; induction on emitted prefix. |
| C14 | Filter keeps exactly the matching values in order | Stream.v; same. |
| C15 | Reduce and ReduceTo are left folds | Stream.v; induction. |
| C16 | ReduceToBool, AllMatch, AnyMatch, NoneMatch short-circuit correctly | Stream.v; induction up to decisive element. |
| C17 | ReduceToSlice and ExpandSlices are inverse | Stream.v; induction, round-trip corollary. |
| C18 | ReduceIntoSlice writes a prefix and leaves the rest | Stream.v; slice as list with explicit Panic. |
| C19 | Skip and Limit are drop and take | Stream.v |
| C20 | Distinct and Duplicate | Stream.v; list-set invariant. Floats, where == is not reflexive: GoMap.per and StreamFloatProofs.v. |
| C21 | Reverse and Sort | Stream.v; sort is an oracle assumed to return a sorted permutation (hypothesis of the theorem). |
| C22 | Count, Sum, Max, Min | Stream.v |
| C23 | AvgInt and AvgUint round half away from zero or report overflow | Stream.v on MathInt.v |
| C24 | Parallel's ranges partition the input | Parallel.v; arithmetic on generateRanges, its float64 computations (conversion, Sqrt, Round, Min, Max) modelled with Float.v and proved exact below 2^50 (square root) and 2^53 items (ParallelFloatProofs.v). |
| C25 | Parallel with element-wise transforms equals the sequential result under every schedule | Parallel.v; step machine of workers over a shared array, invariant over every schedule.  For transforms of any kind: a worker's steps depend on its own range only (grun_local), so what it comes to depends on the number of its turns alone. |
| C26 | Parallel with non element-wise transforms keeps stale data | Parallel.v; refutation + characterisation. |
| C27 | AddInt, AddUint, SubUint: exact result or error | MathInt.v; two's complement wrap at every width w; lia/nia. |
| C28 | SubInt: exact result or error, except for the minimum subtrahend | MathInt.v; same, refutations. |
| C29 | Mul: exact product or error | MathInt.v |
| C30 | Div rounds to nearest | MathInt.v; against a rational rounding spec. |
| C31 | Abs | MathInt.v |
| C32 | Range never holds an out-of-range value after a successful SetValue | MathInt.v; history invariant. |
| C33 | Comparators and Min/Max | MathInt.v |
| C34 | Decimal construction bounds | Decimal.v |
| C35 | Decimal String/parse round trip | Decimal.v; digit strings. |
| C36 | Decimal Cmp is the numeric order when scales align exactly | Decimal.v; rational denotation by cross-multiplication in Z. |
| C37 | AdjustDecimalScale preserves values when it only scales up | Decimal.v |
| C38 | Decimal Add/Sub exactness and overflow | Decimal.v |
| C39 | Decimal Normalize preserves value and is canonical | Decimal.v |
| C40 | Decimal Mul | Decimal.v |
| C41 | Decimal integer division | Decimal.v |
| C42 | Integer conversions succeed iff the value is representable | Conv.v; wrap functions for every pair of widths. |
| C43 | Slice helpers meet their list specifications | Funcs.v |
| C44 | Map, map-of-map and map-of-slice helpers meet their finite-map specifications | Funcs.v; finite maps as functions/association lists. |
| C45 | Ordered tuple slices: binary search | FuncsOrd.v; binary search invariant. |
| C46 | Ordered tuple slices stay sorted under insertions not below the minimum | FuncsOrd.v; history invariant + refutation. |
| C47 | Predicate combinators | FuncsFn.v |
| C48 | TryTo runs closers exactly once, in order, whatever happens | FuncsFn.v; event trace. |
| C49 | SupplierCached calls its supplier at most once | FuncsFn.v; stateful supplier. |
| C50 | Event registry delivers in id order and folds results | FuncsOrd.v; history. |
| C51 | Unions and Maybe are tagged sums | Union.v; history of setters. |
| C52 | Writer stops at the first error | Writer.v |
| C53 | Rune writer and rune reader are inverse | Writer.v + Readers.v |
| C54 | ErrorReader and ErrorWriter fault injection | Writer.v |
| C55 | JSON numbers: lexer accepts exactly the number grammar | JsonLex.v; grammar as inductive spec. |
| C56 | JSON strings: escapes decode to the right characters | JsonLex.v; spelling relation. |
| C57 | JSON write/parse round trip | JsonParse.v/JsonWrite.v; structural induction. |
| C58 | JSON parser rejects malformed structure | JsonParse.v |
| C59 | JSON Value conversion round trip | Json.v |
| C60 | JSON path search | JsonSearch.v |
| C61 | REST mux dispatch | Rest.v; regex match is an oracle. |
| C62 | Pointer helpers | Reflect.v; types as inductive terms. |
| C63 | Line writer and line reader are inverse | Writer.v + Readers.v; composition of the writer's bytes with the line splitting theorem. |
| C64 | ReduceToMap and ExpandMaps | Stream.v over GoMap.v; induction on the emitted pairs / maps. |
| C65 | Generator asks for a new transform at every application | Stream.v; the generator's state counts its calls. |
| C66 | Decimal Div | Decimal.v; the long division loop against the rational quotient; induction on the digits produced. |
| C67 | Conversion of dynamically typed values | FuncsFn.v; any values tagged with their dynamic type, type arguments concrete, []any, map[K]any or an interface; has_type in FuncsFnSpec.v says which values have a type; success exactly characterised, first offending position reported, nil results on error. |
| C68 | Nil and zero helpers | Reflect.v over GoVal.v (types, values and kinds of package reflect). |
| C69 | Type classes and base types | Reflect.v; case analysis over all kinds, defined types in an arbitrary environment. |
| C70 | Maybe by reflection agrees with Maybe's methods | MaybeReflect.v; induction on the number of pointers in front of the Maybe; heap of cells. |
| C71 | JSON Iterate agrees with Parse | JsonParse.v; both run over the same token iterator; simulation on the list of tokens still to come. JsonIterProofs.v: over an array with a fault, every complete element before it is delivered (C71_elements_before_fault) and nothing else (C71_nothing_else). |
| C72 | IntToFloat | ConvFloat.v over Float.v (floats as sign, mantissa, exponent; rounding to nearest even on integers); what an out-of-range conversion gives is a parameter of the model. |
| C73 | Floats to *big.Int, *big.Float and other floats | ConvFloat.v; rounding is proved nearest in Q against every value of the format. |
| C74 | Floats to rationals and integers go through ten decimal digits | ConvFloat.v; big.Float.String + Rat.SetString is rounding to ten decimal digits. |
| C75 | Big numbers to integers are exact or fail | ConvFloat.v; rationals in lowest terms. |
| C76 | Big numbers to floats | ConvFloat.v; representability in Q decided by the rounding. |
| C77 | Conversions to *big.Float | ConvFloat.v; the precision computed from the length of the decimal text suffices; RatErr.v bounds the error for rationals. |
| C78 | Integers and strings | ConvFloat.v over Decimal.v's decimal digits; induction on the digits. |
| C79 | Strings to floats | ConvFloat.v; the grammar of big.ParseFloat is a parameter, its rounding is modelled. |
| C80 | conv.To preserves numbers | ConvFloat.v; case analysis over the table, each case by C72-C78. |
| C81 | Div/DivBigOps through pointers | Big.v: heap of objects, pointers as addresses; store/load laws, rounding by C30's lemmas. |
| C82 | AbsBigOps | Big.v; induction over the emitted pointers with the heap as state. |
| C83 | SumBigOps | Big.v; the reducing loop is a fold over the pointed-to values; big.Float rounding by the nearest-number relation. |
| C84 | AvgBigOps | Big.v; as C83, with the count in the heap (it saturates at 16 for big.Float). |
| C85 | Snake and camel case | CaseConv.v on byte strings; split/join inverse lemmas, induction over words; Unicode case tables outside ASCII are parameters. |
| C86 | Operators, expressions, types | Code.v; case analysis and an inductive predicate of complete types. |
| C87 | BaseGenerator | Code.v; an invariant over all histories of calls, on any file system; the laws used are in CodeSpec.v with an instance. |
| C88 | OfCSV, content types | Csv.v: encoding/csv is an arbitrary machine that gives a record and an error; records live in the modelled memory because ReuseRecord shares their arrays. Induction over the rows. |
| C89 | Floats | MathFloat.v: IEEE comparison, addition, division over Float.v; the rounding theorem incl. the overflow threshold (MathFloatProofs.v); folds for Max, Min, Sum. cmplx.Abs is a parameter. |
| C90 | Declared types | MathFloat.v: the dispatch by type name; reasoning over all strings. |
| C91 | Copies of big numbers | BigCopy.v: big.Int objects as headers (sign, array, length) over arrays of words, as math/big lays them out; frame reasoning over every memory. |
| C92 | Choice of the conversion | ConvAny.v: the table of 240 keys and the dispatch by type name; reasoning over all strings for declared types. |
| C93 | Send while receivers use the registry | EventRe.v: a receiver is a tree of registry operations and nested Sends; the range loops read the old array through the header taken at the start. Invariant: every old array cell keeps its id and gains or loses only such receivers. |
| C94 | Texts of numbers | Literal.v: the scanners of math/big (nat.scan, scanExponent, big.Float.Parse, big.Rat.SetString); a declarative grammar of numerals; the scanners accept exactly the grammar and compute its value; RatLitSpec.v is the grammar of StringToBigRat with prefixes, underscores and ratios, RatLitProofs.v its equivalence with the scanner. |
| C95 | Written numbers are read back | Literal.v: big.Float.Text('g', 10); what is written is a numeral of the same value, read back by C94's lemmas. |
| C96 | A cached supplier shared by goroutines | Supplier.v: the closure's accesses to its two variables as interleaved steps of any number of goroutines; invariants over all schedules; concrete schedules for the findings. |
| C97 | Patterns of a REST mux | Regex.v: regexp's parser as an automaton over the runes of the pattern, a leftmost-first matcher over the runes of the input with their bytes; a relational meaning of expressions; the matcher is sound and complete for it; the parser's result for any route; routes are unambiguous. |
| C98 | FloatToString writes the shortest decimal that identifies the float | FloatText.v models conv/string.go FloatToString with strconv's search for the shortest digits (roundShortest) and its plain rendering; rounding as a function of the number is monotone and convex (FloatTextProofs), hence the two cut-off candidates suffice and 9 or 17 digits always do (FloatTextProofs2); the rendering is the unique plain numeral of the decimal (FloatTextProofs3); reading back composes with float_parse (C94) and string_to_float (C79) |
| C99 | Directories of generated code: cleaned path names | Path.v: path.Clean loop for loop; PathSpec.v: where a path leads in a tree of directories; the loop computes the normal form (ups and names) of the parts (PathProofs), which determines where a path leads and is determined by it; combined with C87 for the directories Dir creates. |
| C100 | Fields of a struct by name | Fields.v: FieldsByName, GetFieldByName and the breadth-first search of reflect.Type.FieldByName with its counts and visited types; FieldsSpec.v: paths through embedded fields and the selector rule of the Go specification; invariant of the search per level (FieldsProofs, FieldsProofs2). |
| C101 | Content negotiation follows the request's headers | Content.v: the three functions of rest/content.go over http.Header (Add, Get and canonical keys modelled) and the fixed part of a gzip header; ContentSpec.v: the first line with a name, names compared up to case; the optional fields of a gzip header and decompression itself are a parameter. |
| C102 | A panic in a source or callback that the caller recovers | Crash.v: a second, panic-aware model of Next and ten transforms, in which a panic ends one call and leaves the captured variables as they are; CrashSpec.v: histories of values and panics; C102_calm ties panic-free sources to the iterators of the rest of the development. |
| C103 | What OfCSV reads from a text | CsvText.v: encoding/csv's readLine and readRecord (default settings) on byte lists, instantiating the parser of Csv.v; CsvTextSpec.v: documents as a grammar of cells, line ends and lines, independent of the reader. The reader is rephrased over the raw remaining text; both directions (documents are read, what is read is a document) by induction over the text; totality by its length. |
| C104 | Generated directories and their permissions | UnixFs.v: a tree of files and directories with permission bits, name resolution, and os.ReadDir, Mkdir, MkdirAll, RemoveAll and Create on it (from knowledge of package os and POSIX; trusted), as an instance of the file systems of Code.v with path.Clean of Path.v. Theorems state what is at every place before and after, by induction over the steps of the path and the history. |
| C105 | Laws of decimal arithmetic | Over the model of Decimal.v: a description of every case of Add and Mul (DecimalProofs) symmetric in the operands; the value of the rounded sum; closure by induction over the operations that gave a decimal (DecimalLaws.v: reachable). Counterexamples are families (every c of 17 or 18 digits), not single literals, except for Mul and Div. |
| C106 | Pipelines | Pipe.v composes the stage models of Stream.v as a type-indexed list of stages; PipeSpec.v gives each stage a meaning on traces (known values, then possibly an error) and a demand; PipeProofs.v proves each stage by induction on the trace, keeping the exact source state, and composes by determinism of calls. The laws are equations between meanings and demands. A map is an association list; the iteration order is a stateful Map stage with permuting callbacks in front of ExpandMaps, quantified in the theorems. Not modelled as stages here: Reverse and Sort (EagerPipe.v), the averages, Transform. |
| C107 | How Parallel starts its workers | ParallelSetup.v: the comparison of reflect types of zero values and the type assertion; a step machine of workers that share Generator's variable fn, with one step per access. Invariant over every schedule; the sharing schedule is given for every number of workers. |
| C108 | Go numbers as JSON | JsonNum.v puts together the models of AnyTo (ConvAny.v), of the texts (FloatText.v, Literal.v) and of numberToValue; the texts are shown to be in the RFC 8259 grammar of JsonSpec.v and to stand for the numbers; the document theorem composes this with C59 and C57; the error bound for *big.Rat is RatErr.v. |
| C109 | Numbers through their texts with conv.To | The table of conv.To (ConvFloat.v) instantiated with the models of the text functions (Literal.v, FloatText.v); the string column is shown exact on decimal texts by C78, C79, C94, and compared with the direct column by C80. |
| C110 | Pipelines with Reverse, Sort and Parallel stages | EagerPipe.v: applying a stage is a computation (fuelled, since it may not end) that yields an iterator; EagerPipeSpec.v gives the partial meaning on traces and the number of calls; proved by composing the per-stage simulation of PipeProofs.v with the eager iterators of Stream.v; non-termination by an invariant of endless sources; laws by uniqueness of sorted permutations. Parallel is a stage whose workers' outcome is any that the relation of Parallel.v (C25) allows for the values read, so the theorems hold for every schedule. |
| C111 | Torn JSON documents | JsonFaultSpec.v says document, cut short, and a destination that keeps; every lexer and parser step on a failing source either returns that error or does not depend on what follows (JsonFaultProofs.v, by induction over fuel and tokens); prefix-freeness of the token grammar rules out values of cut documents; the UTF-8 decoder rejects every torn character; writing is a fold over the rendered runes. |
| C112 | Documents one after the other in one io.Reader | JsonRead.v adds to Parse and Iterate the reader they leave; a simulation relates the lexer and its unread buffer to the plain text still to be read (JsonReadProofs.v), the parser never keeps a token after the closing bracket, and bracket tokens are lexed without reading ahead; bytes follow from runes because the reader is advanced by whole characters; logs by induction over the documents with C111 for the torn one. |
| C113 | JSON Values and the maps and slices they are made of | JsonHeap.v models value.go over a memory of maps and backing arrays; JsonHeapSpec.v says which places a Value uses and what it shows; proved by mutual induction over what the argument shows, with the invariant that the elements made so far use only new places other than the container being filled; results are those of the memory-less model of C59. |
| C114 | Lines of every text, whole or cut short, and logs of lines | LinesSpec.v: the text without the skipped LFs, cut at every CR and LF, as two recursive functions with no reader in them; proved equal to the state machine of Readers.v by induction on the text with the line read so far and the CR flag generalised; cuts by homomorphism lemmas; logs by an invariant on the destination's contents. |
| C115 | Slices that change while they are iterated, in-place pipelines | MemIter.v: SliceIterGen over the memory model of SliceMem.v with a memory per call; the loops of ReduceIntoSlice and of writing to OfSliceWriter with one memory for source and destination, over any pipeline of Pipe.v (its state made independent of the source function). A locality lemma (a stage behaves the same for two sources that agree from the current index on) lets the run on the changing memory follow the run on the original contents, with the demand function of C106 bounding what has been overwritten. |
| C116 | Iterating over a map while it changes | MapLive.v: the map with the keys the runtime must still produce and those it may produce (the Go specification of range over a map under writes, trusted of reflect.MapIter); the runtime's choice is any function that picks among them; runs are sequences of writes, deletions and calls with their answers; proved by invariants over runs (a delivered key that stays is in neither list, an undelivered key that stays is in the first) and by strong induction for the in-place loop. |
| C117 | Several pipelines on one iterator | Shared.v: the state of a pipeline with its source exchanged ([pipe_put]), so that two pipelines of Pipe.v share one source state; any schedule of calls.  Proved by tracking which results of the source a call of a pipeline takes (every stage sees its source only through them) and by comparing with a run on a reference iterator with the share alone, which exists by C106; batches by induction over the traces; peeks by a bisimulation between the source and the source after one peek, carried through a pipeline by the same tracking. |
| C118 | Must functions under TryTo; expressions of decimals | Must.v: the generic Must functions, the wrappers (all have the same body), bodies of Must calls as thunks for try_to, expression trees with Go's evaluation order.  Induction over call lists and trees: the invariant of a tree is that its decimal is exact and has at most the static number of decimals; for amounts, that the scale is the fixed one or the value is zero.  MustTo and JSON follow from C80 and C57. |
| C119 | Parallel whose transforms are any pipeline | ParallelPipe.v: the worker of Parallel.v whose program is a pipeline of Pipe.v over iter.OfSlice(in): between two accesses to the slices it is the pipeline as it was when Next last returned and the values read so far; a Next that cannot be answered from those reads one more.  The computation begun is done again with one more value known; callbacks are functions of their arguments and of variables of one application, so this is the same (a callback that shares variables between workers is a race and is not modelled).  Proof: more fuel and a source that answers more change no answer (monotonicity of every stage), so each answer is that of the pipeline over the whole range, and the no-faster bound of C115 gives that a value is read before its place is written; then C25 for any program.  With an output of its own no such bound is needed: the values the worker makes are those of the pipeline, and too many of them are an index out of range. |
| C120 | Slices of arguments that functions keep | Kept.v: the loops of And, Or, Compose and Concat with the element of the slice as a function of the world, which calls may change; In, InfiniteIterGen, ErrorReader and ErrorWriter over the memory of SliceMem.v.  KeptSpec.v: the functions or iterators found in the slice, histories of writes.  Proof: the loops equal those over the list of the functions found (FuncsFn.v), which is unique; the values emitted by induction over the run of iterators; frames for the memory. |
| C121 | Maps whose keys are floats | the functions of Funcs.v and Stream.v with any symmetric and transitive ==; MapKeys.v: Map2SliceAdd with each of its look-ups as written.  MapKeysSpec.v: the latest thing done to a key, the entries after a history.  Proof: induction over the history. Which of two equal keys (0, -0) stays in the map is left open by the Go language; the statements do not say.  Types with interface parts are not comparable type arguments in Go 1.18, so hashing never panics. |
| C122 | Big numbers that share memory after a conversion | BigMem.v: big.Int, big.Rat and big.Float as structures with slices of words (SliceMem.v), pointers to them and to a numerator; To for equal types, BigRatToBigInt, and the sixteen-type To on top of the model without memory.  BigMemSpec.v: which number a pointer holds in a memory, which parts of the memory stay.  Proof: separation of arrays, value of a word list.  Trusted of math/big (Go 1.18): nat.make, set and setWord, Rat.Num returns a pointer into its argument, SetFrac and Float.Rat copy. |
| C123 | Nil pointers to big numbers | BigNil.v: To for the sixteen types with pointers that may be nil, a method of math/big on nil (other than (*Int).String) being a panic; chains of conversions.  BigNilSpec.v: nil, what a pointer points to.  Proof: cases over the types, induction over the chain, agreement with Conv.v and ConvFloat.v, bounds on ten-digit texts for the numbers that become nil. |

## Trusted base

* Coq 8.16.1's kernel, including its bytecode reduction machine (`vm_compute` proves the concrete witnesses and examples and a
  few finite sweeps).  No plugin, no extraction, no native_compute.
* Axioms: none.  `Print Assumptions` answers "Closed under the global context" for every theorem named in MANIFEST.json.  (A
  census that lists the axioms of every *loaded library* also shows the seven `Coq.ssr.ssrunder.Under_rel.*` module-type fields
  of the standard library's ssreflect support, which std libraries load; no theorem here depends on them.)
* The reading of the Go source: nothing ties the definitions to the code except the line citations in their comments.
* The Go language and standard library facts written into the model, listed per module below.

## What is modelled and what is not

Everywhere: `int` and `uint` are 64 bits wide; `nat` is used for lengths and indexes (no theorem is about a slice of more than
2^63 elements); texts of error messages and `String` methods made of `fmt` calls are not modelled (errors are told apart by a
number); callbacks are total functions that do not panic, except in TryTo and SupplierCached, where panics are explicit.
Running out of fuel is an outcome of its own, and every statement says that for large enough fuel the call *does* return.

| package | modelled | simplifications, and what is left out |
|---------|----------|----------------------------------------|
| iter | IterImpl, OfIter, all of gen.go, SetError, Maybe | For OfCSV encoding/csv is an arbitrary machine of records and errors (C88), and for C103 a model of encoding/csv's Reader with default settings, written from knowledge of the library, whose source is not in the sandbox (trusted; ParseError positions and bufio are not modelled); the array its records share (ReuseRecord) is modelled.  An io.Reader is any machine `state -> requested -> bytes * error * state`; the iteration order of a map is an arbitrary permutation. |
| stream | all transforms, reducers, Generator, Parallel | `sort.Slice` is any function that returns a sorted permutation; Compose functions are ordinary composition; math.Sqrt in generateRanges is the correctly rounded square root; the transforms run by Parallel are machines that read an element, emit an element or end, and their steps interleave in every way over the shared slices. |
| math/math.go, range.go | integer Add/Sub/Mul/Div/Abs, big.Int Div, comparators, Min/Max, Range | type parameters are the base types; declared types (`type MyInt int`) are modelled for Abs and Div only (C90); float arithmetic is IEEE 754 on the floats of Float.v (NaN payloads are not distinguished); cmplx.Abs is a parameter; Abs/Sum/Avg/Div of big numbers work on a heap of objects (Big.v), where the exponent of a big.Float is unbounded. |
| math/decimal.go | everything | int64 arithmetic wraps; the regular expression and ParseInt work on digit lists; big.Int.Text is decimal notation. |
| conv | all of int.go, float.go, bigint.go, bigfloat.go, bigrat.go, string.go and conv.go | a float is NaN, an infinity or sign, mantissa and exponent; big.Float's precision and rounding mode are not part of the value; the bits of ceil(len * log2 10) are computed exactly; the grammars of big.ParseFloat and big.Rat.SetString and the renderings of floats are parameters; nil pointers are in BigNil.v (C123), which trusts that math/big's methods other than (*Int).String panic on nil and that big.ParseFloat fails for integers of 2^31 bits and more; which big numbers are one object or share words is in BigMem.v (C122), which trusts math/big's methods as of Go 1.18 to keep or make arrays as said in its header; conv.To's handling of defined types is in C69.; the texts of numbers are those of math/big's scanners and Text('g', 10) in Literal.v (C94, C95; elsewhere the grammar is a parameter); big.ParseFloat multiplies by a power of five computed with 64 extra bits, which the model takes as exact (C79's and C94's rounding to nearest is about numbers where it is); ConvFloat's BigFloatToBigRat is for exponents within a million, the rest is in C95. |
| funcs | slices (with backing arrays: memory + headers; `append` chooses any spare capacity), maps, maps of maps and slices, ordered tuple slices, function combinators, TryTo, suppliers, nil helpers, dynamic conversions, case conversions | an optional parameter `all ...bool` is one bool; the inner slices of ordered tuples are plain lists (no sharing); Ternary's arguments are values; SupplierCached under goroutines (C96) interleaves single reads and writes (sequentially consistent). |
| event | all | |
| union | all constructors, setters, accessors, Maybe, Result | Maybe's nil test is a parameter, tied to IsNilValue by C51_go_values. |
| reflect, union/reflect | the functions of C62, C68-C70, C100 | package reflect is GoVal.v: an environment of defined types, kinds, values with their types, a heap for pointers. For FieldsByName and GetFieldByName struct types are Fields.v: a table of struct types, with reflect.Type.FieldByName modelled. |
| io, io/writer | ErrorReader, ErrorWriter, all writers | the Go memory behind the buffers handed to io.Writer is not modelled. |
| encoding/json | lexer, parser, Parse, Iterate, Write, Value, search | a Go string is its list of bytes; a map is an association list in its iteration order; NumberString's regular expression is "contains a digit" (it is not anchored); floats and big numbers given to ToValue are abstract texts (AOther). |
| rest | ServeMux | handlers are abstract; regular expressions are abstract in C61, and in C97 a large part of their syntax is modelled (Regex.v lists what is not: flags, names, POSIX classes, Unicode classes, some escapes, unbounded repetition of something empty, limits on size); requests and registrations interleave step by step.  Of content.go the header tests are modelled, gzip is abstract. |
| code | statements.go, types.go, api.go | the file system is a parameter, path.Clean one in C87 and modelled in C99 (Path.v); permissions are modelled in C104 (UnixFs.v). generate.go and golang are commented out. |
| strukt, constraint, tuple | not modelled | strukt.MapToStruct's body is commented out (it returns nil); constraint is types only. |

## Findings: where the code does not do what its documentation says

Each is a theorem about the faithful model, with a concrete witness (`..._refuted`, `..._wrong`, `..._finding...`):

* C05 a map iterator over interface values panics on a nil value; C09 a reader that returns data together with an error, or
  (0, nil), breaks the byte reader; C10 short reads split a multi-byte rune; C11 overlong, surrogate and out-of-range encodings are
  accepted; C12 a CR-terminated line followed later by an LF-terminated line merges that line with the next one.
* C23/C30 Div rounds wrongly for a negative odd divisor, for a quotient of zero with operands of opposite signs, and for the
  minimum value divided by minus one; C28 SubInt with the minimum subtrahend is wrong.
* C26 Parallel with a transform that drops elements leaves stale data in the result.
* C32 OfRange does not check its initial value.  C40 Mul is ten times too small when the product of the
  unscaled values lies in [10^18, 2^63) and there are decimals; C46 inserting a new minimum key breaks the order, and removal
  overwrites the array other slices share; C54 ErrorReader panics when a
  later read asks for more bytes than remain.
* C55 the number lexer accepts -01; C56 a `\u0022` escape ends the string; C57 the writer does not escape; C58 trailing commas,
  stray separators and trailing text are accepted; C59 FromNumberString accepts any text that contains a digit, named string types
  panic, and Invalid does not survive.
* C61 two concurrent registrations may lose one of them, and a request can read a torn slice header.
* C70 SetMaybeValue of a value of the wrong type panics instead of returning an error.
* C72 IntToFloat relies on the out-of-range conversion of amd64; C74 FloatToInt keeps ten digits only; C76 failed conversions to
  floats overwrite the output, conv.To rounds silently to float32; C77 uint64 and rationals lose digits on the way to
  *big.Float; C79 ordinary decimal texts are rejected.  C80 lists exactly the pairs of types that lose numbers.
* C81 a big.Int quotient stored over its divisor is truncated; C82 AbsBigOps changes the caller's numbers; C83 SumBigOps of
  big.Floats keeps four bits (100 + 1 = 104) and panics on opposite infinities; C84 AvgBigOps of big.Floats divides by at most 16.
* C85 SnakeToCamelCase panics on the empty string and empty words, CamelCaseToSnakeCase drops digits; C87 SetBasePath can be called
  again and then wipes the other directory, Dir always panics, Src writes to the root directory.
* C89 NaN: compares equal to everything, makes stream.Max/Min forget what came before; C90 math.Abs and math.Div panic for declared types.
* C91 conv.To of a *big.Int and BigRatToBigInt share storage with the original; C92 AnyTo(nil) and ToBigOps of declared types panic,
  ReflectTo refuses equal types and declared source types.
* C93 a receiver that removes its own id during Send makes Send skip the next id and serve the last one twice.
* C94 FloatStringToBigRat returns a nil error with a nil pointer for Inf, inf, +inf, -inf and for exponents beyond a million (its comment says StringToBigRat cannot fail there).
* C95 BigFloatToBigRat returns a nil error with a nil pointer for very large or very small *big.Floats; BigRatToNormalizedString keeps ten digits.
* C96 SupplierCached is not safe for concurrent use: isCached is stored before cachedVal, so a concurrent call may return the zero value; the supplier may be called once per goroutine and the value may change.
* C97 patterns are not anchored by the mux: a pattern of plain text serves every path that contains it.
* C98 round trip refused: the text FloatToString writes for most float32 values and for float64 values whose text has sixteen characters or more is rejected by StringToFloat32 / StringToFloat64 (for instance 0.1 as a float32, pi as a float64), because these compare a longer-precision parse with the rounded value.
* C99 Dir with a name that starts with ../ creates a directory outside the base path; with an empty base path directories are created in the root directory.
* C100 with several blank fields GetFieldByName(typ, "_") gives the first and FieldsByName(typ)["_"] the last; promoted fields are not in FieldsByName.
* C101 content types with parameters ("application/json; charset=utf-8") or in other letter case are answered with nil; AcceptGzip looks at Accept-Encoding, not Content-Encoding, so a client that accepts gzip and sends a plain body makes it panic.
* C102 a reduction that panicked and was recovered answers EOI on the next call, as over an empty source, with the rest of the source unread.
* C11 OfStringAsRunes gives U+FFFD for each invalid byte where StringAsRunesIterGen answers InvalidUTF8EncodingError (C11_string_functions_refuted).
* C67: a nil element never converts, not even with T = any: ConvertToSlice[any] of a []any holding a nil is an error.
* C20: Distinct over floats yields every NaN, Duplicate yields none, however often NaN occurs.
* C103 CR LF within a quoted CSV cell is read as LF; a row whose only cell is empty and unquoted is skipped as an empty line.
* C104 BaseGenerator makes directories with mode 0: an unprivileged user cannot run it twice, nor use what it made; SetBasePath("..") as root wipes the parent directory and panics; SetBasePath(".") always panics; for an unprivileged user SetBasePath over a directory that holds something that cannot be removed deletes the rest and then panics.
* C105 adding zero to a decimal of scale 18 rounds it to an integer or panics; adding a larger summand may give a smaller sum (c + 0.41 < c + 0.4 for every c of 17 digits); Div yields scales up to 36.
* C107 Parallel panics for two different interface types as soon as there are two items; workers that share a Generator may all use the same transform.
* C108 NaN and infinities become number Values whose texts are no JSON; NumberToValue of a nil *big.Int has the text <nil>; ToValue refuses map[string]Value and []Value.
* C109 the direct conversions uint64 to *big.Float and *big.Int to float32 round silently where the way over the text is exact or refused; the text of an integral *big.Rat is refused by all other numeric types.
* C110 Reverse and the sorts drop the values read before an error, and read the source when applied, so that over an endless source they never return.
* C111 an array file that ends inside a number: Iterate delivers the truncated number as an element before it returns the error.
* C113 MapToValue(map[string]Value), SliceToValue([]Value), AsMap and AsSlice share the map or slice with the caller; a Value can contain itself, and ToAny then overflows the stack; ToValue of a map[string]Value or []Value always fails.
* C114 a torn last line of a log is delivered as a line without an error, and a line appended after it is merged with it; after a CR the first LF anywhere later is skipped (C12), and lines are right exactly on the texts where that does no harm.
* C115 ReduceIntoSlice into a slice that begins after its source in the same array, and in-place appending with a pipeline that delivers more than it reads, silently overwrite elements not yet read.
* C116 writing to the map that is iterated under new keys: whether the loop ever ends is up to the runtime.
* C117 reading in batches with ReduceToSlice(Limit(n)(it)): when the iterator fails, the values already read for the batch are lost.
* C118 decimal expressions: 0 + 0.000000000000000001 panics with an index out of range; an operand with decimals that do not fit beside a large one is rounded without any error (0.4 + b + 0.4 - b = 0 for b = 999999999999999990); amounts made with normalized = false of at most 17 decimals are safe.
* C25 A panic in a callback given to Parallel happens in a worker goroutine: the caller cannot recover from it (FirstPanics, TryTo and the like do not see it) and the program ends (C25_callback_panics); with a source of 0 or 1 values, where no worker is started, it can.
* C119 Parallel never gives fewer values than its input: Filter, Skip, Limit, Distinct or a reduction inside Parallel leave the old contents of the slice behind in the places of the dropped values (C119_dropped, C119_nonvacuous).
* C119 ExpandSlices and ExpandMaps inside Parallel panic (index out of range in a goroutine, which ends the program) as soon as a range expands to more values than it has; in place they also overwrite source values not yet read, and the worker then reads its own output (C119_fresh_panics, C119_panics, C119_ex_overwrites).
* C120 And, Or, Compose, In and Concat of a slice (f(s...)) see what is stored into the slice later, so the predicate or iterator is not fixed by its arguments; InfiniteIterGen sees changes of its literals but not of its seed; Output of ErrorWriter returns the slice it goes on to append to, so a byte appended to it by the caller is overwritten by the next Write (C120_rebound_refuted, C120_infinite_mixed_refuted, C120_output_append_refuted).
* C121 Map2SliceAdd panics when its first key is NaN (or has a NaN part): it stores the new second map under the key, looks it up again and writes into the nil map it gets (C121_map2_slice_add_panics). MapSliceAdd with a NaN key adds two entries, one of them an empty slice; Map2Set stores values where no look-up finds them; maps with NaN keys grow with every MapSet and MapUnset never shrinks them (C121_map_slice_add, C121_map2_set, C121_odd_grows).
* C122 conv.To between equal big types copies the structure and so shares the words: a later in-place store into either number changes the other (C122_copy_refuted, C122_rat_copy_refuted, C122_float_words_refuted); with one output variable all results are one object (C122_loop_refuted); the *big.Int got from a *big.Rat is the numerator itself, so `To(r, &i); To(x, &i)` makes r equal to x (C122_numerator_refuted, C122_second_conversion_refuted).
* C123 BigFloatToBigRat of a number whose text cannot be read back gives nil without an error (C123_huge_float_refuted); BigIntToBigFloat drops the error of the parse: a nil *big.Int and integers of 2^31 bits and more become a nil *big.Float, and converting those to float32 or float64 panics (C123_nil, C123_huge_int_refuted).
* C88 rows kept from OfCSV are overwritten by later rows (ReuseRecord without a copy); its bare generator goes on after an error.

Memory is taken to be unlimited: for instance make([]Decimal, o) in DivIntAdd never fails for lack of memory.

## Testing the theorems against wrong programs

`seeded/LOG.jsonl` lists the mutants: in a scratch copy a definition of the model is edited the way a bug would change the
program, the project is rebuilt with every lemma that no longer proves replaced by an axiom, and the property theorems that
then depend on that axiom count as failed.

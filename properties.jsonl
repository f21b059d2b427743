{"id": "C01", "title": "Unread/Next is a stack in front of the source", "statement": "For any iterator made by iter.OfIter, Next first returns values given to Unread, most recently unread first, without touching the underlying function; only when none are left does it call the underlying function. Hence after any sequence of Next and Unread calls, the outputs are exactly those of an abstract machine made of a stack of unread values in front of the source sequence.", "quantifier": "every source behaviour, every interleaving of Next and Unread calls of any length", "why_tests_cant": "Histories are unbounded; a test samples a few call sequences.", "anchors": ["iter/iter.go: IterImpl.Next", "iter/iter.go: IterImpl.Unread", "iter/iter.go: OfIter"]}
{"id": "C02", "title": "Iterator errors are sticky and final", "statement": "Once Next of an OfIter iterator returns a non-nil error, the underlying function is never called again, every error is accompanied by the zero value, and each later Next that has no unread value to return gives (zero value, the same error), for ever.", "quantifier": "every underlying function (even one that would return values again after an error, or a non-zero value with an error) and every later history", "why_tests_cant": "'For ever' and 'never called again' range over infinite futures and adversarial underlying functions.", "anchors": ["iter/iter.go: IterImpl.Next", "iter/iter.go: OfIter"]}
{"id": "C03", "title": "SetError replaces only the terminating error", "statement": "iter.SetError(it, err) returns exactly the values of it in the same order, pulled one for one, and ends with err in place of the first non-nil error of it (EOI included).", "quantifier": "every iterator behaviour, finite or infinite, and every replacement error", "why_tests_cant": "Quantifies over all iterators and all prefixes.", "anchors": ["iter/iter.go: SetError"]}
{"id": "C04", "title": "Of/OfSlice/OfEmpty/OfOne iterate exactly the given items", "statement": "Iterators over literal items, a slice, one value or no value return exactly those items in order, one per Next, and then (zero value, EOI) for ever.", "quantifier": "every element type, every slice of any length", "why_tests_cant": "Unbounded lengths and element values.", "anchors": ["iter/gen.go: SliceIterGen", "iter/gen.go: NoValueIterGen", "iter/gen.go: SingleValueIterGen"]}
{"id": "C05", "title": "Map iteration returns each entry once", "statement": "OfMap returns every key/value pair of the map exactly once in some order, then EOI for ever.  (It panics, instead of returning the pair, on a nil value in a map whose value type is an interface.)", "quantifier": "every map and every runtime iteration order", "why_tests_cant": "Go's map order is random: a test sees one order per run.", "anchors": ["iter/gen.go: MapIterGen", "iter/iter.go: OfMap"]}
{"id": "C06", "title": "Concat is sequence concatenation", "statement": "Concat(its...) returns all values of each non-nil iterator in argument order, skipping nil iterators, ends with EOI when the last is exhausted, and if one fails with a non-EOI error returns that error at that point and for ever and never pulls from later iterators.", "quantifier": "every number of iterators, each with any finite behaviour, nil iterators anywhere", "why_tests_cant": "Unbounded numbers of arbitrary iterators and failure positions.", "anchors": ["iter/gen.go: ConcatIterGen", "iter/iter.go: Concat"]}
{"id": "C07", "title": "InfiniteIterGen generates literals then f, f.f, ...", "statement": "With initial values v1..vn the generated sequence is v1..v(n-1), f(vn), f(f(vn)), ...; with no initial values the seed is the zero value; it never returns an error.", "quantifier": "every function, every list of initial values, every index of the infinite sequence", "why_tests_cant": "Infinite sequence; induction on the index is required.", "anchors": ["iter/gen.go: InfiniteIterGen"]}
{"id": "C08", "title": "Fibonacci generator", "statement": "The n-th value (from 0) of FibonnaciIterGen is the (n+1)-th Fibonacci number reduced to a 64-bit two's complement int; up to index 91 it is the exact Fibonacci number.", "quantifier": "every index n", "why_tests_cant": "Unbounded index; wrap-around only appears after 92 terms.", "anchors": ["iter/gen.go: FibonnaciIterGen"]}
{"id": "C09", "title": "Byte reader iterates the reader's bytes", "statement": "For every reader that returns one byte per one-byte read and then (0, EOF) or (0, error), OfReader yields exactly its bytes in order, then EOI (EOF translated), or the Close error if Close fails, or the read error unchanged; a Closer that ended with EOF is closed exactly once. Finding: the generating function called again after a non-EOF error returns EOI, not the same error; a reader that returns (0,nil) or (1,EOF), both allowed by io.Reader, makes it repeat or lose a byte.", "quantifier": "every byte sequence and every terminating error", "why_tests_cant": "Unbounded inputs; the deviations occur only for reader behaviours the tests never produce.", "anchors": ["iter/gen.go: ReaderIterGen"]}
{"id": "C10", "title": "UTF-8 rune reader decodes every valid encoding", "statement": "For every sequence of Unicode scalar values, iterating the runes of a reader holding their UTF-8 encoding yields exactly that sequence and then EOI. (Reader fills each request it has bytes for.)", "quantifier": "every list of the 1,112,064 scalar values, any length", "why_tests_cant": "The set of strings is infinite and the set of code points exceeds what table tests cover.", "anchors": ["iter/gen.go: ReaderAsRunesIterGen", "iter/gen.go: StringAsRunesIterGen"]}
{"id": "C11", "title": "UTF-8 rune reader's treatment of invalid input", "statement": "Any rune the reader returns is in 0..10FFFF; invalid lead bytes, truncated sequences, bad continuation bytes and values above 10FFFF give InvalidUTF8EncodingError, never a rune. Finding: overlong forms and encoded surrogates are accepted, so the accepted language is strictly larger than UTF-8; the exact accepted language is characterised. OfStringAsRunes, for any string, never fails and yields the encoded runes with U+FFFD for each byte at which no encoding starts (finding: StringAsRunesIterGen answers InvalidUTF8EncodingError for the same string). A nil reader is an empty source.", "quantifier": "every byte sequence", "why_tests_cant": "256^n inputs; the accepted language is an infinite set.", "anchors": ["iter/gen.go: ReaderAsRunesIterGen"]}
{"id": "C12", "title": "Line reader splits text at LF, CR and CRLF", "statement": "For every text in which each CR is immediately followed by LF, or which contains no CR before an LF, the line iterator yields the lines of the text split at LF / CR / CRLF, with no empty last line when the text ends in a terminator; then EOI. Finding: a CR-terminated line followed later by an LF-terminated line merges that line with the next one (\"a\\rb\\nc\" gives \"a\",\"bc\").", "quantifier": "every list of runes", "why_tests_cant": "Unbounded texts; state (lastCR) carries across lines so the bad case needs a particular history.", "anchors": ["iter/gen.go: readLines", "iter/gen.go: ReaderAsLinesIterGen", "iter/gen.go: StringAsLinesIterGen"]}
{"id": "C13", "title": "Map, MapError and Peek are element-wise, lazy and error-transparent", "statement": "stream.Map(f)(it) yields f of each value of it in order, pulling exactly one source value per value returned, and ends with the source's error; MapError additionally ends with f's error at the first value f rejects, without pulling further; Peek yields the same values as its source and calls its function once per value in order.", "quantifier": "every iterator behaviour (finite prefixes of infinite ones included) and every function", "why_tests_cant": "All iterators and functions; laziness is a property of every prefix.", "anchors": ["stream/stream.go: Map", "stream/stream.go: MapError", "stream/stream.go: Peek"]}
{"id": "C14", "title": "Filter keeps exactly the matching values in order", "statement": "stream.Filter(p)(it) yields exactly the values of it that satisfy p, in order, ends with the source's error, and when it returns a value it has pulled the source exactly up to that value.", "quantifier": "every iterator behaviour and predicate", "why_tests_cant": "Unbounded sequences and arbitrary predicates.", "anchors": ["stream/stream.go: Filter"]}
{"id": "C15", "title": "Reduce and ReduceTo are left folds", "statement": "Reduce(f) without identity yields EOI on an empty source, the value itself on a single-element source, and otherwise the left fold of f seeded with the first element; with an identity it folds from the identity and yields it (if so configured) on an empty source; ReduceTo is the left fold from the zero value or identity. Each yields exactly one value and then EOI, and a source error is returned in place of a value.", "quantifier": "every source and every combining function (not assumed associative)", "why_tests_cant": "Unbounded sources and arbitrary non-associative functions.", "anchors": ["stream/stream.go: Reduce", "stream/stream.go: ReduceTo"]}
{"id": "C16", "title": "ReduceToBool, AllMatch, AnyMatch, NoneMatch short-circuit correctly", "statement": "AllMatch/AnyMatch/NoneMatch yield forall/exists/not-exists of the predicate over the source (true/false/true on an empty one), and stop pulling at the first decisive element, so they terminate on infinite sources that contain one.", "quantifier": "every predicate and every source, including infinite ones with a decisive element", "why_tests_cant": "Short-circuiting on infinite sources and all predicates.", "anchors": ["stream/stream.go: ReduceToBool", "stream/stream.go: AllMatch", "stream/stream.go: AnyMatch", "stream/stream.go: NoneMatch"]}
{"id": "C17", "title": "ReduceToSlice and ExpandSlices are inverse", "statement": "ReduceToSlice yields one slice with all source values in order; ExpandSlices yields the concatenation of the slices of its source, skipping empty ones; hence expanding a reduced stream gives back the stream.", "quantifier": "every source; every list of slices including empty ones", "why_tests_cant": "Unbounded nesting of sizes, empties in arbitrary places.", "anchors": ["stream/stream.go: ReduceToSlice", "stream/stream.go: ExpandSlices"]}
{"id": "C18", "title": "ReduceIntoSlice writes a prefix and leaves the rest", "statement": "ReduceIntoSlice(slc) overwrites the first n elements of slc with the n source values, leaves elements n.. unchanged, yields that slice and then EOI; if the source fails, the failing error is returned and every element of slc (written or not) is set to the zero value; if the source has more values than the slice it panics.", "quantifier": "every slice, every source", "why_tests_cant": "All lengths, all error positions, including what must not change.", "anchors": ["stream/stream.go: ReduceIntoSlice"]}
{"id": "C19", "title": "Skip and Limit are drop and take", "statement": "Skip(n) yields all but the first n values; Limit(n) yields the first n values then EOI and never pulls more than n values from its source; source errors inside the skipped or taken part are passed through.", "quantifier": "every n, every source", "why_tests_cant": "Unbounded n and sources; no-over-read is a claim about every prefix.", "anchors": ["stream/stream.go: Skip", "stream/stream.go: Limit"]}
{"id": "C20", "title": "Distinct and Duplicate", "statement": "Distinct yields each different value once, in order of first occurrence; Duplicate yields each value that occurs at least twice once, in order of second occurrence. Finding: over floats, where equality means standing for the same number, Distinct lets every NaN through and Duplicate none.", "quantifier": "every source over a comparable type", "why_tests_cant": "All sequences with all repetition patterns.", "anchors": ["stream/stream.go: Distinct", "stream/stream.go: Duplicate"]}
{"id": "C21", "title": "Reverse and Sort", "statement": "Reverse yields the source in reverse order; SortOrdered/SortCmp/SortBy yield a sorted permutation of the source (Go's sort being a sorting function), never losing or inventing a value.", "quantifier": "every finite source, every strict weak order", "why_tests_cant": "All permutations and lengths.", "anchors": ["stream/stream.go: Reverse", "stream/stream.go: SortOrdered", "stream/stream.go: SortBy"]}
{"id": "C22", "title": "Count, Sum, Max, Min", "statement": "Count yields the number of source values, Sum their sum (wrapped to the type), Max/Min an upper/lower bound of the source that is an element of it, and EOI for an empty source (0 for Count).", "quantifier": "every finite source", "why_tests_cant": "Unbounded sources; wrap-around.", "anchors": ["stream/stream.go: Count", "stream/stream.go: Sum", "stream/stream.go: Max", "stream/stream.go: Min"]}
{"id": "C23", "title": "AvgInt and AvgUint round half away from zero or report overflow", "statement": "AvgInt yields the mean of the values rounded to nearest, halves away from zero, whenever the running sum never leaves the int64 range, and the overflow error otherwise; EOI on an empty source. Finding: means strictly between -1/2... and 0 that should round to -1 or 0 come out wrong where Div is wrong (quotient zero with a negative mean).", "quantifier": "every list of values", "why_tests_cant": "Unbounded lists; sign/rounding corner only at quotient zero.", "anchors": ["stream/stream.go: AvgInt", "stream/stream.go: AvgUint", "math/math.go: Div"]}
{"id": "C24", "title": "Parallel's ranges partition the input", "statement": "For every number of items and every PInfo (none, Threads n, Items n with n>0), the computed ranges are non-empty, contiguous, in order, cover every index exactly once; with Threads n there are min(n, items) ranges whose sizes differ by at most one; with Items n every range but the last has n items; without PInfo every range but the last has round(sqrt(items)) items, although the code computes this in floating point.", "quantifier": "every item count and thread/items parameter", "why_tests_cant": "All pairs of integers; off-by-one errors hide at particular remainders.", "anchors": ["stream/stream.go: generateRanges"]}
{"id": "C25", "title": "Parallel with element-wise transforms equals the sequential result under every schedule", "statement": "For any composition of element-wise (Map) transforms, Parallel yields the mapped slice in source order, the same for every interleaving of the worker goroutines, and workers never read or write outside their own range; when workers fail, the error returned is that of the lowest-numbered failing worker whatever the schedule. Whatever the transforms do, element-wise or not: two schedules that complete give the same result; if one schedule completes then none has a worker panic and every one that gives each worker enough turns completes with that result; if one has a worker panic, none completes. Transforms that return more values than their range has make a worker panic (index out of range). A callback that panics on a range makes the worker of that range panic: nothing recovers in the worker's goroutine, so Parallel never returns then, under no schedule.", "quantifier": "every input, every number of workers, every interleaving of their steps", "why_tests_cant": "The number of schedules is exponential and the runtime chooses them.", "anchors": ["stream/stream.go: Parallel", "stream/stream.go: generateRanges", "stream/stream.go: ReduceIntoSlice"]}
{"id": "C26", "title": "Parallel with non element-wise transforms keeps stale data", "statement": "When the transform drops elements (Filter, Limit, ...), the result of Parallel is not the concatenation of the per-range results: positions a worker did not fill keep the zero value, or the original input element when input and output types coincide. (Refutation of the natural reading that Parallel(filter) = filter.)", "quantifier": "existential witness plus exact characterisation for every per-range result", "why_tests_cant": "The library's tests use only mapping transforms.", "anchors": ["stream/stream.go: Parallel"]}
{"id": "C27", "title": "AddInt, AddUint, SubUint: exact result or error", "statement": "AddInt, AddUint and SubUint store the exact mathematical result when it is representable in the type and return an error exactly when it is not, at every width.", "quantifier": "every pair of operands of every integer width", "why_tests_cant": "2^128 operand pairs at 64 bits.", "anchors": ["math/math.go: AddInt", "math/math.go: AddUint", "math/math.go: SubUint"]}
{"id": "C28", "title": "SubInt: exact result or error, except for the minimum subtrahend", "statement": "For every subtrahend other than the type's minimum, SubInt stores the exact difference or returns an error exactly when it is not representable. Finding: when the minimum value is subtracted, the code errs: characterised exactly.", "quantifier": "every pair of operands of every width", "why_tests_cant": "Only one subtrahend in 2^64 misbehaves.", "anchors": ["math/math.go: SubInt"]}
{"id": "C29", "title": "Mul: exact product or error", "statement": "Mul stores the exact product when it fits in the type and returns an error exactly when it does not.", "quantifier": "every pair of operands of every width", "why_tests_cant": "2^128 operand pairs.", "anchors": ["math/math.go: Mul", "conv/conv.go: To"]}
{"id": "C30", "title": "Div rounds to nearest", "statement": "Unsigned Div yields the quotient rounded to nearest, halves up, and a division by zero error for zero divisors; signed Div yields the quotient rounded to nearest, halves away from zero, whenever the truncated quotient is non-zero or the operands have equal signs, and excluding MIN/-1. Findings: a negative quotient between -1 and -1/2 rounds to +1 instead of -1; MIN/-1 wraps to MIN with a nil error.", "quantifier": "every pair of operands of every width", "why_tests_cant": "Rounding errors appear only on particular sign/remainder combinations among 2^128 pairs.", "anchors": ["math/math.go: divSInt", "math/math.go: divUInt", "math/math.go: Div"]}
{"id": "C31", "title": "Abs", "statement": "Abs stores the absolute value for every value but the type's minimum, for which it returns an error.", "quantifier": "every value of every width", "why_tests_cant": "2^64 values; a single exceptional value.", "anchors": ["math/math.go: Abs"]}
{"id": "C32", "title": "Range never holds an out-of-range value after a successful SetValue", "statement": "SetValue accepts a value iff it lies within the bounds with the configured open/closed ends; on error the stored value is unchanged; so after any sequence of SetValue calls with at least one success the held value is in range and is the last accepted one. Finding: OfRange does not check the initial value.", "quantifier": "every bounds/mode, every history of SetValue calls", "why_tests_cant": "Unbounded histories.", "anchors": ["math/range.go: OfRange", "math/range.go: SetValue"]}
{"id": "C33", "title": "Comparators and Min/Max", "statement": "CmpOrdered returns -1/0/1 consistently with the order (antisymmetric, transitive), and MinOrdered/MaxOrdered return the smaller/larger argument; MinCmp/MaxCmp decide by the sign of Cmp and return the first argument on a tie.", "quantifier": "all pairs and triples of a totally ordered type (floats with NaN are in C89)", "why_tests_cant": "Laws over all triples.", "anchors": ["math/math.go: CmpOrdered", "math/math.go: MinOrdered", "math/math.go: MaxOrdered"]}
{"id": "C34", "title": "Decimal construction bounds", "statement": "OfDecimal succeeds iff scale is at most 18 and the value's magnitude is at most 10^18-1; the value denoted is value*10^-scale.", "quantifier": "all int64 values and uint scales", "why_tests_cant": "2^64 values times scales.", "anchors": ["math/decimal.go: OfDecimal"]}
{"id": "C35", "title": "Decimal String/parse round trip", "statement": "For every valid Decimal d, String writes an optional minus, at least one digit and exactly scale digits after the point, denoting d; StringToDecimal(d.String()) yields the same value and scale whenever the scale is at most 17. StringToDecimal accepts exactly an optional minus, digits, an optional point and digits, 18 digits in all, at the start of the string. Findings: at scale 18 the round trip always fails (\"0.\" plus 18 digits counts as 19); trailing garbage (\"1abc\" is 1) and the strings \"-\" and \".\" are accepted.", "quantifier": "every valid decimal", "why_tests_cant": "10^18 values times 19 scales.", "anchors": ["math/decimal.go: Decimal.String", "math/decimal.go: StringToDecimal"]}
{"id": "C36", "title": "Decimal Cmp is the numeric order", "statement": "Cmp returns the sign of the difference of the rationals the two decimals denote, for all decimals and scales; it is antisymmetric, transitive, and 0 exactly on equal values. Sign, Negate and MagnitudeLessThanOne agree with the denoted rational.", "quantifier": "all pairs of decimals", "why_tests_cant": "All pairs of 10^18*19 values.", "anchors": ["math/decimal.go: Decimal.Cmp", "math/decimal.go: AdjustDecimalScale"]}
{"id": "C37", "title": "AdjustDecimalScale aligns exactly or rounds half away from zero", "statement": "When the smaller-scaled operand has capacity for the extra zeros, both results have the larger of the two scales and denote unchanged rationals; otherwise the larger-scaled operand is rounded half away from zero to the smaller scale. Findings: an index-out-of-range panic when the operand to round has fewer digits than must be dropped (0.04 with 123456789012345678); a spurious error when the other operand exceeds 999999999999999994; zero with a scale-18 decimal rounds that decimal to an integer.", "quantifier": "all pairs of decimals", "why_tests_cant": "All pairs; digit-count corner cases.", "anchors": ["math/decimal.go: AdjustDecimalScale"]}
{"id": "C38", "title": "Decimal Add/Sub exactness and overflow", "statement": "When scales align without rounding, Add/Sub return the exact sum/difference, or an overflow/underflow error exactly when its magnitude at the common scale exceeds 10^18-1; when the larger-scaled operand has to be rounded, the result is the sum of the rounded operand and the other.", "quantifier": "all pairs of decimals", "why_tests_cant": "All pairs.", "anchors": ["math/decimal.go: Decimal.Add", "math/decimal.go: Decimal.Sub", "math/decimal.go: addDecimal"]}
{"id": "C39", "title": "Decimal Normalize preserves value and is canonical", "statement": "Normalize denotes the same rational, has the least scale possible, is idempotent, and two decimals with equal value normalise to the identical representation.", "quantifier": "all decimals and pairs of decimals", "why_tests_cant": "All values.", "anchors": ["math/decimal.go: Decimal.Normalize"]}
{"id": "C40", "title": "Decimal Mul", "statement": "Mul returns the exact product whenever the product is representable with 18 digits and scale at most 18, except when the product of the unscaled values lies in [10^18, 2^63); a product of magnitude 10^18 or more is an overflow or underflow error; otherwise the result is within one unit in the last place (5/9 of one when only decimals beyond the 18th are dropped, 3/5 when the magnitude is below 0.1). Findings: in [10^18, 2^63) with decimals the result is ten times too small; the same when rounding carries out of eighteen nines; the last digit is not rounded to nearest.", "quantifier": "all pairs in the guarded domain", "why_tests_cant": "All pairs.", "anchors": ["math/decimal.go: Decimal.Mul"]}
{"id": "C41", "title": "Decimal integer division", "statement": "For divisors below 2^63, DivIntQuoRem returns an error iff the divisor exceeds the integer part of the dividend's magnitude, and otherwise quotient and remainder with quotient*divisor + remainder equal to the dividend exactly; DivIntAdd splits a non-negative decimal into n parts, each the quotient or one unit in the last place more, larger first, that sum exactly to it whenever the remainder does not end in 0 or normalisation is off. Findings: in the other cases, and for negative decimals with a remainder, the parts do not add up; a divisor of 2^63 or more is taken as negative.", "quantifier": "all decimals, all divisors", "why_tests_cant": "All pairs; sums over unbounded n.", "anchors": ["math/decimal.go: Decimal.DivIntQuoRem", "math/decimal.go: Decimal.DivIntAdd"]}
{"id": "C42", "title": "Integer conversions succeed iff the value is representable", "statement": "IntToInt, IntToUint, UintToInt, UintToUint store the same mathematical value when the target type can represent it and return an error otherwise, for every pair of widths.", "quantifier": "every value and every pair of widths/signs", "why_tests_cant": "2^64 values times 100 type pairs.", "anchors": ["conv/int.go: IntToInt", "conv/int.go: IntToUint", "conv/int.go: UintToInt", "conv/int.go: UintToUint"]}
{"id": "C43", "title": "Slice helpers meet their list specifications", "statement": "SliceIndex returns the indexed element or zero/default when out of range; SliceRemove removes the first (or all) occurrences and keeps the order of the rest; SliceReverse reverses and is an involution; SliceAdd appends; SliceCopy is a distinct equal slice; SliceFlatten concatenates; SliceUniqueValues keeps one of each.", "quantifier": "every slice and value", "why_tests_cant": "Unbounded slices.", "anchors": ["funcs/funcs.go: SliceIndex", "funcs/funcs.go: SliceRemove", "funcs/funcs.go: SliceReverse", "funcs/funcs.go: SliceFlatten"]}
{"id": "C44", "title": "Map, map-of-map and map-of-slice helpers meet their finite-map specifications", "statement": "MapSet/MapUnset/MapIndex/MapTest, the Map2 and the MapSlice variants behave as get/put/delete on the corresponding (nested) finite map: a write is read back, other keys are unaffected, deleting the last inner entry leaves the documented shape.", "quantifier": "every history of operations and every key", "why_tests_cant": "Unbounded histories.", "anchors": ["funcs/funcs.go: MapSet", "funcs/funcs.go: Map2Set", "funcs/funcs.go: MapSliceAdd", "funcs/funcs.go: Map2SliceRemove"]}
{"id": "C45", "title": "Ordered tuple slices: binary search", "statement": "On any key-sorted tuple slice, OrderedTuple2Search reports found iff the key is present and then returns its index; otherwise it returns the index of the greatest smaller key (0 when there is none).", "quantifier": "every sorted slice and key", "why_tests_cant": "All lengths and positions; binary search off-by-ones.", "anchors": ["funcs/funcs.go: OrderedTuple2Search"]}
{"id": "C46", "title": "Ordered tuple slices stay sorted under insertions not below the minimum", "statement": "OrderedTuple2SliceAdd into a sorted slice keeps it sorted with unique keys and behaves as multimap insertion whenever the new key is not smaller than all keys present. Finding: inserting a new minimum puts it second, breaking order and later lookups.", "quantifier": "every history of insertions and removals", "why_tests_cant": "Histories; the failing order needs a descending insertion.", "anchors": ["funcs/funcs.go: OrderedTuple2SliceAdd", "funcs/funcs.go: OrderedTuple2SliceRemoveKey", "funcs/funcs.go: OrderedTuple2SliceRemoveValue"]}
{"id": "C47", "title": "Predicate combinators", "statement": "And is conjunction (true for no filters), Or is disjunction (true for no filters), Not negation, comparators (LessThan, GreaterThanEquals, ...) decide the order; they satisfy De Morgan for non-empty lists.", "quantifier": "every list of filters and every value", "why_tests_cant": "Arbitrary functions.", "anchors": ["funcs/funcs.go: And", "funcs/funcs.go: Or", "funcs/funcs.go: Not"]}
{"id": "C48", "title": "TryTo runs closers exactly once, in order, whatever happens", "statement": "TryTo runs the function, then all closers exactly once in the documented order, then the panic handler with the panic value iff the function panicked; no panic of the function escapes.", "quantifier": "every function outcome and every list of closers", "why_tests_cant": "All closer lists and panic positions.", "anchors": ["funcs/funcs.go: TryTo"]}
{"id": "C49", "title": "SupplierCached calls its supplier at most once", "statement": "However often it is called, a cached supplier calls the underlying supplier exactly once (on the first call) and returns the same value each time.", "quantifier": "every supplier (even a stateful one) and number of calls", "why_tests_cant": "Unbounded number of calls.", "anchors": ["funcs/funcs.go: SupplierCached"]}
{"id": "C50", "title": "Event registry delivers in id order and folds results", "statement": "Send passes the data through every registered receiver exactly once, each receiving the previous one's output, in the order of the slice kept by the registry; if ids are registered in non-descending order this is id order, then registration order. Finding: registering a smaller id first breaks the id order. Removal of a receiver removes only it.", "quantifier": "every history of Register/Remove/Send", "why_tests_cant": "Unbounded histories.", "anchors": ["event/event.go: Registry.Register", "event/event.go: Registry.Send", "event/event.go: Registry.RemoveId"]}
{"id": "C51", "title": "Unions and Maybe are tagged sums", "statement": "A Two/Three/Four value reports exactly the alternative last set, returns that value from the matching accessor and panics from the others; Maybe: Present iff a non-nil value was last set, Get panics iff empty, OrElse gives the value or the default; Result carries exactly one of value or error.", "quantifier": "every history of setters", "why_tests_cant": "Unbounded histories.", "anchors": ["union/union.go: Two", "union/union.go: Maybe", "union/union.go: Result"]}
{"id": "C52", "title": "Writer stops at the first error", "statement": "Write(vals...) passes the values in order to the underlying function and stops at the first error, which it returns; values before it are all written and none after; SliceWriter collects exactly the written values in order.", "quantifier": "every list of values and every failure point", "why_tests_cant": "All failure positions.", "anchors": ["io/writer/writer.go: WriterImpl.Write", "io/writer/gen.go: SliceWriterGen"]}
{"id": "C53", "title": "Rune writer and rune reader are inverse", "statement": "Writing any sequence of Unicode scalar values with OfIOWriterAsRunes and reading the bytes with OfReaderAsRunes gives back the sequence.", "quantifier": "every list of scalar values", "why_tests_cant": "Infinite set of strings.", "anchors": ["io/writer/gen.go: IOWriterAsRunesGen", "iter/gen.go: ReaderAsRunesIterGen"]}
{"id": "C54", "title": "ErrorReader and ErrorWriter fault injection", "statement": "ErrorWriter accepts exactly its capacity of bytes over any sequence of writes and then returns its error; ErrorReader delivers its input and then its error. Finding: ErrorReader slices past its input when a read does not divide the input, and panics.", "quantifier": "every input, every sequence of read/write sizes", "why_tests_cant": "All chunkings.", "anchors": ["io/io.go: ErrorReader.Read", "io/io.go: ErrorWriter.Write"]}
{"id": "C55", "title": "JSON numbers: lexer accepts exactly the number grammar", "statement": "lexNumber consumes the longest prefix that is a JSON number and returns its text, leaving the next rune unread; leading zeros are rejected. Finding: \"-01\" is accepted.", "quantifier": "every rune sequence", "why_tests_cant": "Infinite language.", "anchors": ["encoding/json/parse/lex.go: lexNumber"]}
{"id": "C56", "title": "JSON strings: escapes decode to the right characters", "statement": "For every string whose characters are written literally or with any legal escape, other than an escaped-as-\\u0022 quote, lexString returns the denoted characters and consumes exactly the literal. Finding: \\u0022 ends the string early.", "quantifier": "every string and every choice of escapes", "why_tests_cant": "Infinite language times all spellings.", "anchors": ["encoding/json/parse/lex.go: lexString"]}
{"id": "C57", "title": "JSON write/parse round trip", "statement": "For every JSON value whose strings need no escaping and whose objects have distinct keys, Parse(Write(v)) = v. Finding: strings that need escaping are written raw, so the output is not JSON.", "quantifier": "every value of any depth and any object key order", "why_tests_cant": "Unbounded depth; random map order.", "anchors": ["encoding/json/write/write.go: Write", "encoding/json/parse/parse.go: Parse"]}
{"id": "C58", "title": "JSON parser accepts documents and rejects malformed structure", "statement": "Parse accepts every RFC 8259 object or array with distinct keys, with the value it denotes, and always returns without a panic. Duplicate keys, missing colons, missing commas, unterminated arrays/objects and non-container top-level values are rejected, at any depth. Findings: trailing commas in objects, stray tokens in value position, and trailing text after the document are accepted.", "quantifier": "every token sequence", "why_tests_cant": "Infinite set of malformed documents.", "anchors": ["encoding/json/parse/parse.go: parseObject", "encoding/json/parse/parse.go: parseArray"]}
{"id": "C59", "title": "JSON Value conversion round trip", "statement": "MapToValue/SliceToValue followed by ToMap/ToSlice returns an equal tree for every tree of maps, slices, strings, bools, nulls and number strings.", "quantifier": "every tree", "why_tests_cant": "Unbounded depth.", "anchors": ["encoding/json/value.go: MapToValue", "encoding/json/value.go: SliceToValue", "encoding/json/value.go: Value.ToMap"]}
{"id": "C60", "title": "JSON path search", "statement": "A parsed path looks up exactly the addressed sub-value: object keys and array indexes are followed in order; a missing key, an index out of range or a wrong container type gives an error rather than a wrong value.", "quantifier": "every path and every value", "why_tests_cant": "Unbounded paths and values.", "anchors": ["encoding/json/search.go: parsePath", "encoding/json/search.go: lookupsToFunc"]}
{"id": "C61", "title": "REST mux dispatch", "statement": "A request is served by the first registered entry whose pattern matches the path and whose method equals the request's; 405 if a pattern matches but no method does; 404 otherwise; the handler receives the pattern's captured groups; exactly one response per request.", "quantifier": "every registration list and request", "why_tests_cant": "All registration orders.", "anchors": ["rest/rest.go: ServeMux.Handle", "rest/rest.go: ServeMux.ServeHTTP"]}
{"id": "C62", "title": "Pointer helpers", "statement": "NumPointers counts the pointers in front of a type; DerefType strips all of them; DerefTypeMaxOnePtr leaves at most one; DerefValue never dereferences nil.", "quantifier": "every type and value with any pointer depth", "why_tests_cant": "Unbounded pointer depth.", "anchors": ["reflect/reflect.go: NumPointers", "reflect/reflect.go: DerefType", "reflect/reflect.go: DerefTypeMaxOnePtr"]}
{"id": "C63", "title": "Line writer and line reader are inverse", "statement": "Writing any list of strings without CR or LF with OfIOWriterAsLines (LF, or CRLF on Windows) and reading the result with OfReaderAsLines gives back exactly the list, empty strings included.", "quantifier": "every list of strings of scalar values without line terminators", "why_tests_cant": "Infinite set of texts.", "anchors": ["io/writer/gen.go: IOWriterAsLinesGen", "iter/gen.go: readLines"]}
{"id": "C64", "title": "ReduceToMap and ExpandMaps", "statement": "ReduceToMap yields one map in which each key has the value of the last pair with that key and no other keys occur, and then EOI; a source error is returned instead. ExpandMaps yields the entries of each source map in turn (in the runtime's iteration order), skipping empty and nil maps, and ends with the source's error.", "quantifier": "every source of pairs or maps whose keys and values are not nil interfaces", "why_tests_cant": "the number of pairs, the collisions and the iteration order are unbounded", "anchors": ["stream/stream.go:ReduceToMap", "stream/stream.go:ExpandMaps"]}
{"id": "C65", "title": "Generator asks for a new transform at every application", "statement": "A transform built by stream.Generator(gen) calls gen each time it is applied to a non-nil iterator, even to one it was applied to before, and uses the transform gen returned for that application, so transforms with internal state are not shared between iterators.", "quantifier": "every generator and every number of applications", "why_tests_cant": "a test sees a few applications, the property is about every history of them", "anchors": ["stream/stream.go:Generator"]}
{"id": "C66", "title": "Decimal Div", "statement": "On inputs where its 64-bit arithmetic does not wrap (divisor's unscaled value at most 10^17, dividend keeping 18 digits, no 18-digit prefix of the quotient at or above 2^63/10), Div terminates and returns the exact quotient or an 18-digit one within one unit in the last place. Division by zero panics. Findings: outside that domain 20/21 gives garbage, 950000000000000000/0.1 gives a negative number, 70368744177664/0.100000000000000000 gives 0, and 864691128455135232/9000000000000000.00 never returns.", "quantifier": "all pairs of decimals in the guarded domain; every fuel for the non-termination finding", "why_tests_cant": "All pairs; termination of the digit loop.", "anchors": ["math/decimal.go: Decimal.Div"]}
{"id": "C67", "title": "Conversion of dynamically typed values", "statement": "AssertType, ConvertToSlice, ConvertToSlice2 and ConvertToMap succeed exactly when the argument has the expected outer type and every element, at every position or under every key, has the requested type; then the result has the same shape and elements. Otherwise an error is reported and the result is the zero value or nil, never a partial conversion. Finding: nil has no type, not even any, so a slice or map holding a nil never converts.", "quantifier": "every dynamic value, requested type and map iteration order", "why_tests_cant": "Unbounded sizes and positions of the first offending element; all iteration orders.", "anchors": ["funcs/funcs.go: AssertType", "funcs/funcs.go: ConvertToSlice", "funcs/funcs.go: ConvertToSlice2", "funcs/funcs.go: ConvertToMap"]}
{"id": "C68", "title": "Nil and zero helpers", "statement": "IsNilValue and reflect.IsNil never panic and are true exactly for a nil interface (or invalid Value) and for a nil chan, func, map, pointer or slice, also inside an interface; the filters IsNil and IsNonNil are complementary and can be built exactly for the nillable types; MustNonNilValue and MustNonZero return their argument or panic accordingly.", "quantifier": "every type and value", "why_tests_cant": "All types, including defined and recursive ones, and all values.", "anchors": ["funcs/funcs.go: IsNilValue", "funcs/funcs.go: IsNil", "funcs/funcs.go: IsNonNil", "funcs/funcs.go: MustNonNilValue", "funcs/funcs.go: MustNonZero", "reflect/reflect.go: IsNil", "reflect/reflect.go: IsNillable"]}
{"id": "C69", "title": "Type classes and base types", "statement": "IsSignedInteger, IsUnsignedInteger, IsNumeric and IsPrimitive hold exactly for the documented kinds; TypeToBaseType and ValueToBaseType map a defined type of a primitive kind to its predeclared type, keeping the value, and leave everything else alone; TypeAssert accepts exactly the dynamic type. Findings: ValueToBaseType panics on a defined pointer type; TypeAssert panics on nil interfaces.", "quantifier": "every type and value", "why_tests_cant": "All types, including user-defined ones.", "anchors": ["reflect/reflect.go: IsNumeric", "reflect/reflect.go: TypeToBaseType", "reflect/reflect.go: ValueToBaseType", "reflect/reflect.go: TypeAssert", "reflect/reflect.go: ValueMaxOnePtrType"]}
{"id": "C70", "title": "Maybe by reflection agrees with Maybe's methods", "statement": "Through any number of non-nil pointers, MaybeValueIsPresent, GetMaybeValue, SetMaybeValue and SetMaybeValueEmpty do what Present, Get, Set and SetEmpty do, and change nothing else; SetMaybeValue accepts exactly the values Go's assignment would, converted as it would; on values that are not Maybes, on nil pointers and on unaddressable Maybes they answer false, the invalid Value or an error without a change. Finding: a nil pointer behind a non-nil one makes them panic, and so does a value of the wrong type.", "quantifier": "every pointer depth, Maybe type and content", "why_tests_cant": "Unbounded pointer depth.", "anchors": ["union/reflect/reflect.go: GetMaybeType", "union/reflect/reflect.go: MaybeValueIsPresent", "union/reflect/reflect.go: GetMaybeValue", "union/reflect/reflect.go: SetMaybeValue", "union/reflect/reflect.go: SetMaybeValueEmpty"]}
{"id": "C71", "title": "JSON Iterate agrees with Parse", "statement": "For every input, the iterator returned by Iterate yields the object Parse returns, or the elements of the array Parse returns, and then EOI; when Parse returns an error, the iterator yields the elements before the fault and then that error. Iterate and the iterator always return, without a panic.", "quantifier": "every io.Reader and text, valid or not", "why_tests_cant": "All documents and all ways to break them.", "anchors": ["encoding/json/parse/parse.go: Iterate", "encoding/json/parse/parse.go: Parse"]}
{"id": "C72", "title": "IntToFloat", "statement": "IntToFloat stores an integer the float type can represent exactly, whatever the machine; on a machine whose out-of-range float-to-integer conversions yield values of the float type (amd64), every other integer is an error and the output stays as it was. Finding: on a saturating machine (arm64) MaxInt64 and MaxUint64 are silently converted to 2^63 and 2^64.", "quantifier": "every integer of every integer type, both float types", "why_tests_cant": "2^64 inputs, and every machine behaviour the Go specification allows.", "anchors": ["conv/float.go: IntToFloat"]}
{"id": "C73", "title": "Floats to *big.Int, *big.Float and other floats", "statement": "FloatToBigInt is exact for floats that are integers and an error that leaves the output alone for all others, NaN and infinities included; FloatToBigFloat keeps every number and infinity and rejects NaN; FloatToFloat to float32 returns the nearest float32 for zero and for magnitudes between the smallest and largest positive float32, an error for other finite numbers, and keeps NaN and infinities; float32 to float64 is exact.", "quantifier": "every float32 and float64", "why_tests_cant": "2^64 inputs.", "anchors": ["conv/bigint.go: FloatToBigInt", "conv/bigfloat.go: FloatToBigFloat", "conv/float.go: FloatToFloat"]}
{"id": "C74", "title": "Floats to rationals and integers go through ten decimal digits", "statement": "BigFloatToBigRat and FloatToBigRat return the number rounded to ten significant decimal digits, so FloatToInt and FloatToUint convert that rounded number: they are exact-or-error for floats with at most ten significant digits. Finding (against the documentation): 12345678901.0 converts to 12345678900, 1+2^-52 converts to 1, and the int64 value 2^63-1024 is rejected.", "quantifier": "every finite float64 or *big.Float, every integer type", "why_tests_cant": "2^64 floats, unbounded big floats.", "anchors": ["conv/bigrat.go: BigFloatToBigRat", "conv/bigrat.go: FloatToBigRat", "conv/int.go: FloatToInt", "conv/int.go: FloatToUint"]}
{"id": "C75", "title": "Big numbers to integers are exact or fail", "statement": "BigIntToInt64/Uint64, BigFloatToInt64/Uint64, BigRatToInt64/Uint64, BigFloatToBigInt and BigRatToBigInt store the number when the target type has it and otherwise return an error without touching the output; infinities are errors.", "quantifier": "every big integer, big float and rational", "why_tests_cant": "Unbounded sizes.", "anchors": ["conv/int.go: BigIntToInt64", "conv/int.go: BigFloatToInt64", "conv/int.go: BigRatToInt64", "conv/int.go: BigRatToUint64", "conv/bigint.go: BigFloatToBigInt", "conv/bigint.go: BigRatToBigInt"]}
{"id": "C76", "title": "Big numbers to floats", "statement": "BigIntToFloat32/64, BigFloatToFloat32/64 and BigRatToFloat32/64 succeed exactly when the float type has the number and then store it. Findings: on failure the output is overwritten with the nearest float; conv.To from the big types to float32 goes through float64 and rounds silently instead of failing.", "quantifier": "every big integer, big float and rational, both float types", "why_tests_cant": "Unbounded sizes; the boundary between representable and not.", "anchors": ["conv/float.go: BigIntToFloat32", "conv/float.go: BigFloatToFloat64", "conv/float.go: BigRatToFloat64", "conv/conv.go: To"]}
{"id": "C77", "title": "Conversions to *big.Float", "statement": "IntToBigFloat and BigIntToBigFloat are exact for every integer, however large; UintToBigFloat returns the nearest number of 53 bits; BigRatToBigFloat is exact for integers and for multiples of 2^-53 of at most 53 bits, and otherwise off by at most the 2^52nd part of the number and 10^-53. Findings: the uint64 2^53+1 becomes 2^53, and the rational 2^-200 becomes 0.", "quantifier": "every integer of any size, every rational", "why_tests_cant": "Unbounded sizes.", "anchors": ["conv/bigfloat.go: IntToBigFloat", "conv/bigfloat.go: UintToBigFloat", "conv/bigfloat.go: BigIntToBigFloat", "conv/bigfloat.go: BigRatToBigFloat"]}
{"id": "C78", "title": "Integers and strings", "statement": "StringToInt64 and StringToBigInt accept exactly an optional sign followed by decimal digits (and, for int64, a value in range), StringToUint64 exactly decimal digits in range; the integers survive IntToString, UintToString or BigIntToString and back. On errors StringToInt64 and StringToUint64 overwrite the output with the nearest bound or 0. Finding: '+5' is accepted by the signed and rejected by the unsigned conversion.", "quantifier": "every string of bytes, every integer", "why_tests_cant": "All strings.", "anchors": ["conv/int.go: StringToInt64", "conv/int.go: StringToUint64", "conv/bigint.go: StringToBigInt", "conv/string.go: IntToString", "conv/string.go: BigIntToString"]}
{"id": "C79", "title": "Strings to floats", "statement": "StringToFloat32/64 of a text that stands for a number rounds it to 53 bits, or to as many bits as the length of the text in decimal digits needs, and succeeds exactly when the float type has the rounded number; texts of numbers the type has are therefore read exactly, NaN and infinities too. Finding: '0.1' is no valid float32 and '3.141592653589793' no valid float64.", "quantifier": "every text and every meaning big.ParseFloat may give it", "why_tests_cant": "All texts.", "anchors": ["conv/float.go: StringToFloat32", "conv/float.go: StringToFloat64", "conv/bigfloat.go: StringToBigFloat"]}
{"id": "C80", "title": "conv.To preserves numbers", "statement": "Between any two of the sixteen types conv.To returns without a panic; between the numeric ones, except for an explicit list of pairs, it succeeds exactly when the target type has the number, and then the output is the same number, infinity or NaN; a value of the target type itself is copied. Every pair of the exception list (float64 to integers and float32, float32 to 64-bit integers, floats to *big.Rat, big types to float32, uint64 to *big.Float, *big.Rat to *big.Float) does change some number silently.", "quantifier": "all 256 pairs of types, all values", "why_tests_cant": "All values of all pairs of types.", "anchors": ["conv/conv.go: To", "conv/conv.go: convertFromTo"]}
{"id": "C81", "title": "Div and DivBigOps through pointers", "statement": "Div of two *big.Int stores the rounded quotient through the given pointer (allocating it when nil), also when it is the dividend's own object; *big.Rat division is exact whatever objects coincide; *big.Float division never panics, returns the error exactly for 0/0 and Inf/Inf and otherwise the nearest number of the quotient's precision. Dividing an integer or fraction by zero is an error that changes nothing. Finding: a *big.Int quotient that overwrites the divisor is truncated instead of rounded.", "quantifier": "every heap, every aliasing of the three pointers, all numbers", "why_tests_cant": "Unbounded numbers and all aliasings of the pointers.", "anchors": ["math/math.go: DivBigOps", "math/math.go: Div", "math/math.go: toDiv"]}
{"id": "C82", "title": "AbsBigOps", "statement": "AbsBigOps hands on the pointers it receives, in order, and overwrites the objects they lead to with their absolute values; no other object changes. (The caller's numbers are changed.)", "quantifier": "every stream of pointers, with repetitions, and every heap", "why_tests_cant": "Unbounded streams and all aliasings.", "anchors": ["stream/stream.go: AbsBigOps", "math/math.go: AbsBigOps"]}
{"id": "C83", "title": "SumBigOps", "statement": "SumBigOps of an empty stream is empty, of one pointer that very pointer, of more a pointer to a new object that holds the exact sum (for *big.Int and *big.Rat); the caller's objects do not change; an error of the source replaces the sum. Findings: *big.Float sums are rounded to four bits after every addition (100 + 1 = 104); infinities of opposite signs panic.", "quantifier": "every stream of pointers and every heap", "why_tests_cant": "Unbounded streams; the rounding error depends on the whole history.", "anchors": ["stream/stream.go: SumBigOps"]}
{"id": "C84", "title": "AvgBigOps", "statement": "AvgBigOps of an empty stream is empty; otherwise it is a pointer to a new object that holds the exact mean for *big.Rat and the mean rounded as by Div for *big.Int; the caller's objects do not change; an error of the source replaces the mean. Finding: for *big.Float the sum is rounded to four bits after every addition and the number of elements is taken to be at most 16.", "quantifier": "every stream of pointers and every heap", "why_tests_cant": "Unbounded streams; the count error only shows from 17 elements on.", "anchors": ["stream/stream.go: AvgBigOps"]}
{"id": "C85", "title": "Snake case and camel case", "statement": "SnakeToCamelCase joins the words between the underscores with their first letters capitalised; CamelCaseToSnakeCase gives the words that start at capitals, in small letters, with single underscores between them; each undoes the other on names made of ASCII words. Findings: SnakeToCamelCase panics for the empty string (documented: empty result) and for leading, trailing or double underscores, and garbles words that begin with a multi-byte character; CamelCaseToSnakeCase panics for the empty string and silently drops digits and everything else that is not an ASCII letter.", "quantifier": "every string of bytes, every Unicode case table", "why_tests_cant": "All strings.", "anchors": ["funcs/funcs.go: SnakeToCamelCase", "funcs/funcs.go: CamelCaseToSnakeCase"]}
{"id": "C86", "title": "Operators, expressions and types of package code", "statement": "Every operator is unary, binary or boolean and only one of them, every type scalar or aggregate; OfUnaryExpr, OfBinaryExpr and OfBooleanExpr give an expression with exactly the operands its operator takes and panic when one is missing or nil; the type constructors build complete definitions from complete parts and panic when a part is missing.", "quantifier": "every operator number, operand list and nested type", "why_tests_cant": "Unbounded operator numbers, variadic lists and nesting.", "anchors": ["code/statements.go: Operator", "code/statements.go: OfBooleanExpr", "code/types.go: TypeDef", "code/types.go: OfEnumType"]}
{"id": "C87", "title": "BaseGenerator", "statement": "After any history of calls GetBasePath answers the first path given to SetBasePath; a SetBasePath that returns leaves an existing empty directory and touches nothing outside it; a source name is created at most once. Findings: setting the base path again is not refused and wipes the other directory; Dir always panics, even after it has created the directory; Src creates its files in the root directory.", "quantifier": "every history of calls (with recovered panics) on every file system", "why_tests_cant": "Unbounded histories, all file system answers.", "anchors": ["code/api.go: BaseGenerator", "code/api.go: SetBasePath", "code/api.go: Dir", "code/api.go: Src"]}
{"id": "C88", "title": "OfCSV and the content types", "statement": "OfCSV returns the rows of the reader in order and then no more; any other error comes after the rows before it and ends the iterator; a nil reader is an empty iterator. NegotiateCSVContent and NegotiateJSONContent accept exactly one content type and AcceptGzip unzips exactly for one encoding. Findings: because ReuseRecord is set, rows that are kept are overwritten by later rows of the same number of fields, so ReduceToSlice gives the last row again and again; the bare generator goes on with rows after an error.", "quantifier": "every csv parser (rows and errors), any number and length of rows", "why_tests_cant": "Unbounded inputs; the overwriting depends on the later rows.", "anchors": ["iter/gen.go: CSVIterGen", "iter/iter.go: OfCSV", "rest/content.go: NegotiateCSVContent", "rest/content.go: NegotiateJSONContent", "rest/content.go: AcceptGzip"]}
{"id": "C89", "title": "Floats: Abs, Div, comparisons, Max, Min, Sum", "statement": "On float32 and float64 Abs stores the absolute value and Div the IEEE quotient (nearest number, infinities and NaN as the standard says), neither ever returns an error; CmpOrdered, MinOrdered and MaxOrdered and the streams' Max and Min follow the numerical order of numbers and infinities; Sum adds in order and rounds to nearest after every addition, so it is exact when the partial sums are numbers of the type, and NaN if any element is; the complex functions compare moduli. Findings: NaN compares equal to everything; a NaN makes Max and Min forget all elements before it; the sum depends on the order; a Range with a NaN bound is accepted but refuses every value.", "quantifier": "all floats of both sizes, all streams of them", "why_tests_cant": "2^64 values and unbounded streams; NaN, signed zeros and overflow thresholds.", "anchors": ["math/math.go: Abs", "math/math.go: Div", "math/math.go: CmpOrdered", "math/math.go: CmpComplex", "math/math.go: MinOrdered", "math/range.go: SetValue", "stream/stream.go: Max", "stream/stream.go: Min", "stream/stream.go: Sum"]}
{"id": "C90", "title": "Abs and Div of declared types", "statement": "Abs and Div work for every predeclared numeric type. Finding: for types declared by a user, which constraint.Numeric admits, Div always panics, and Abs panics unless the package name begins with 'uint', in which case it silently leaves every number as it is, negative ones too.", "quantifier": "every type name and package name, all values", "why_tests_cant": "All names.", "anchors": ["math/math.go: Abs", "math/math.go: Div", "math/math.go: toAbs", "math/math.go: toDiv", "constraint/constraint.go: Numeric"]}
{"id": "C91", "title": "Copies of big numbers", "statement": "To and ToBigOps of a *big.Int to a *big.Int give a different object that holds the same number and change no other object; two objects without a common array never influence each other. Findings: the copy shares its words with the original although the documentation promises an independent copy, so that a later store into the original changes the copy; BigRatToBigInt hands out the numerator that lives inside the *big.Rat.", "quantifier": "every memory state (objects, their word arrays and sharing), every number", "why_tests_cant": "Sharing shows only after later writes, in every state.", "anchors": ["conv/conv.go: To", "conv/conv.go: ToBigOps", "conv/bigint.go: BigRatToBigInt"]}
{"id": "C92", "title": "Choice of the conversion", "statement": "The table of conversions has one unambiguous key for every ordered pair of different types; To, AnyTo, ToBigOps and ReflectTo perform the conversion their types call for, declared types being converted as their underlying types by To and AnyTo; the checked misuses return errors and leave the target alone. Findings: AnyTo(nil) panics; ToBigOps panics for every declared type; ReflectTo returns an error for a source of the target's own type and for every declared source type.", "quantifier": "all pairs of types, all names of declared types, all values", "why_tests_cant": "All pairs and all names.", "anchors": ["conv/conv.go: To", "conv/conv.go: AnyTo", "conv/conv.go: ToBigOps", "conv/conv.go: ReflectTo", "conv/conv.go: convertFromTo", "reflect/reflect.go: ValueToBaseType"]}
{"id": "C93", "title": "Send while receivers use the registry", "statement": "While Send runs, its receivers may register and remove receivers and send again. Send never panics, hands the value from call to call, and calls the receivers that were present when it began, in order and once each, except that receivers being registered meanwhile may be called too and receivers being removed meanwhile may be left out; a Remove for an id not yet reached takes effect. Findings: a receiver that calls RemoveId for its own id makes Send skip the next id and serve the last id twice; after the registration of a new id a later Remove no longer takes effect in the running Send.", "quantifier": "every registry, every behaviour of the receivers (any operations, nested Sends of any depth), every growth of the slices", "why_tests_cant": "Re-entrant histories and slice aliasing.", "anchors": ["event/event.go: Send", "event/event.go: Register", "event/event.go: Remove", "event/event.go: RemoveId", "funcs/funcs.go: OrderedTuple2SliceRemoveKey"]}
{"id": "C94", "title": "Texts of numbers", "statement": "FloatStringToBigRat turns a decimal text (optional sign, digits with at most one point, optional power of ten or two) into exactly the number it stands for, and refuses every other text, ratios and the names +Inf, -Inf and NaN among them, leaving the output alone; StringToBigRat accepts exactly the numbers and ratios of integers in Go syntax (decimal, or with the prefixes 0b, 0o, 0x; single underscores between digits; point and power of ten or two; within the ranges of exponents), each of which stands for one number, and returns that number, and refuses every other text; StringToBigFloat accepts the numbers among these texts, rounded to nearest (where the power of five in them is exact at the precision it is computed with), and the names of the infinities, and refuses every text that is neither. Findings: FloatStringToBigRat accepts Inf, inf, +inf, -inf and powers of ten beyond a million with a nil error and a nil pointer; StringToBigRat reads 010/1 as 8 though 010 as 10.", "quantifier": "every text", "why_tests_cant": "All strings of any length.", "anchors": ["conv/bigrat.go: FloatStringToBigRat", "conv/bigrat.go: StringToBigRat", "conv/bigfloat.go: StringToBigFloat"]}
{"id": "C95", "title": "Written numbers are read back", "statement": "StringToBigRat reads back exactly what BigRatToString and the integer functions write, for every number; the text BigFloatToString writes for a float32 or float64 is read back as the number rounded to ten significant digits, which is what BigFloatToBigRat returns; BigRatToNormalizedString writes integers exactly. Findings: for a *big.Float whose last digit is worth more than 10^1000000 or less than 10^-1000000 BigFloatToBigRat returns a nil error and a nil pointer; BigRatToNormalizedString keeps only ten digits of a number that is not an integer, so that different numbers get the same text, and writes large ones with an exponent.", "quantifier": "all rationals, integers, floats and big floats", "why_tests_cant": "Unbounded numbers.", "anchors": ["conv/bigrat.go: BigFloatToBigRat", "conv/bigrat.go: StringToBigRat", "conv/string.go: BigRatToString", "conv/string.go: BigFloatToString", "conv/string.go: BigRatToNormalizedString"]}
{"id": "C96", "title": "A cached supplier shared by goroutines", "statement": "Under every interleaving of goroutines that call the function SupplierCached returned, every goroutine makes the underlying supplier be called at most once, and every result is a value the supplier returned or the zero value; once a call has returned while no other is in progress the supplier is never called again and all later calls return the same value, one the supplier returned; so one call before sharing makes it behave as documented. Findings: with n goroutines the supplier may be called n times, a concurrent call may return the zero value, and the value a goroutine sees may change.", "quantifier": "all schedules of any number of goroutines and calls, all suppliers", "why_tests_cant": "All interleavings.", "anchors": ["funcs/funcs.go: SupplierCached"]}
{"id": "C97", "title": "Patterns of a REST mux", "statement": "A path pattern is found in a path exactly if the expression matches somewhere, at the leftmost place, and the parts are the text matched and one text per group. A route made of plain text, UUIDGroup and ([^/]+) groups, possibly ending in (.*), anchored with ^ and $, is accepted by Handle and matches exactly the paths of that form; the handler gets the path followed by the values of the identifiers, segments and the rest of the path, in order, which the path determines; a mux of such routes answers with the first registration of the request's method whose form the path has, 405 if only other methods have it, and 404 otherwise. Findings: a pattern without anchors serves every path that contains a match, and in ^/a|/b$ each anchor applies to one alternative only.", "quantifier": "every route, every path (any bytes), every list of registrations", "why_tests_cant": "All patterns and paths.", "anchors": ["rest/rest.go: UUIDGroup", "rest/rest.go: Handle", "rest/rest.go: ServeHTTP"]}
{"id": "C98", "title": "FloatToString writes the shortest decimal that identifies the float", "statement": "FloatToString of a float32 or float64 other than zero is a plain decimal numeral (optional minus sign, no exponent, no needless zero or point) that rounds back to the float (nearest, ties to even); it has at most 9 or 17 significant digits, no decimal with fewer digits rounds to the float, and of those with as many digits that do none is nearer. Zeros are 0 and -0, the others NaN, +Inf and -Inf. Two floats have the same text exactly when they are the same float. Integers below 2^24 or 2^53 are written as IntToString writes them. StringToFloat64 reads back texts of at most 15 characters, and both readers any text that stands exactly for the float's number; other texts they may refuse.", "quantifier": "every float32 and float64 value, every decimal", "why_tests_cant": "2^64 values, and minimality quantifies over all decimals", "anchors": ["conv/string.go:FloatToString", "conv/float.go:StringToFloat32", "conv/float.go:StringToFloat64"]}
{"id": "C99", "title": "Directories of generated code: cleaned path names", "statement": "The path names BaseGenerator hands to the file system are cleaned with path.Clean. A cleaned path leads to the same place as the original from every current directory; two paths have the same cleaned form exactly when they lead to the same place from every current directory; cleaning twice changes nothing, no equivalent path is shorter, and the result has no empty parts or dots, and double dots only at the start of a relative path. So Dir(name) creates the directory that name leads to from the base path, and for a name without double dots that is the base directory or one below it. Findings: a name with double dots leaves the base directory, and with an empty base path Dir works in the root directory, though SetBasePath has taken the current one.", "quantifier": "every path of any length, every current directory, base path, name and history of calls", "why_tests_cant": "All strings; equivalence quantifies over all current directories.", "anchors": ["code/api.go: SetBasePath", "code/api.go: Dir"]}
{"id": "C100", "title": "Fields of a struct by name", "statement": "For every struct type, reflect.GetFieldByName(typ, name) gives the field that the Go specification lets the selector x.name denote - the only one at the shallowest depth, through embedded structs and pointers to structs - with the indexes that lead to it, and panics exactly when there is none (not found, or more than one at that depth), for the empty name, and for a type that is not a struct. FieldsByName(typ) is nil exactly for what is not a struct or has no fields; otherwise it has each field name of the struct itself once. The two agree on the names in the struct itself; a promoted field is found by GetFieldByName only. Finding: for the blank name GetFieldByName gives the first field and FieldsByName the last one.", "quantifier": "every set of struct types, also recursive and mutually embedded ones, every name", "why_tests_cant": "Embedding graphs of any depth and shape, with shared and recursive embedded types.", "anchors": ["reflect/reflect.go: FieldsByName", "reflect/reflect.go: GetFieldByName"]}
{"id": "C101", "title": "Content negotiation follows the request's headers", "statement": "For every list of header lines of a request, in any order, number and letter case: NegotiateJSONContent gives an iterator exactly when the first Content-Type line is application/json, to the letter, and that iterator delivers the document of the body as Parse does; NegotiateCSVContent likewise for text/csv and the rows of the body; otherwise both give nil. AcceptGzip gives the body itself unless the first Accept-Encoding line is gzip, to the letter; then it gives a decompressor when the body starts with a gzip header and panics for every other body. Findings: a content type with parameters or in other letter case is not recognised; a client that only says it accepts gzip responses makes AcceptGzip panic unless its body is compressed.", "quantifier": "every list of header lines, every body, every reader", "why_tests_cant": "Header lines and bodies are unbounded; names are compared up to letter case.", "anchors": ["rest/content.go: NegotiateJSONContent", "rest/content.go: NegotiateCSVContent", "rest/content.go: AcceptGzip"]}
{"id": "C102", "title": "A panic in a source or callback that the caller recovers", "statement": "When a source's Next, a mapper, predicate, peek function or reducer panics and the caller recovers and keeps calling Next: Map, MapError and Peek answer each element of the source in turn, a panic of either side taking the place of exactly one element; Filter passes over rejected elements and goes on behind a panicking one; Skip(n) skips n values and Limit(n) delivers n values, panics not counted. Reduce, ReduceTo, ReduceToBool, ReduceToSlice and ReduceIntoSlice panic once and from then on answer EOI, leaving the rest of the source unread (finding: a caller that recovers sees the answer of an empty source); ReduceIntoSlice leaves the elements before the panic in the caller's slice, also when it panics because the slice is too short; ReduceToBool stops at the deciding element, so a panic behind it never happens.", "quantifier": "every source that panics at any of its calls, every callback that panics on any argument, every number of later calls", "why_tests_cant": "The calls at which panics happen, and the calls after them, are unbounded.", "anchors": ["iter/iter.go: Next", "stream/stream.go: Map", "stream/stream.go: MapError", "stream/stream.go: Filter", "stream/stream.go: Peek", "stream/stream.go: Skip", "stream/stream.go: Limit", "stream/stream.go: Reduce", "stream/stream.go: ReduceTo", "stream/stream.go: ReduceToBool", "stream/stream.go: ReduceToSlice", "stream/stream.go: ReduceIntoSlice"]}
{"id": "C103", "title": "What OfCSV reads from a text", "statement": "Iterating OfCSV over a source of bytes gives the rows of the document in order and then EOI exactly when the text is a CSV document with equally many cells in each row: cells separated by commas, each written plainly (no comma, quote or line feed) or between quotes with quotes doubled, lines ended by LF or CR LF (the last end optional), empty lines skipped. Every other text gives the rows of its complete lines before the fault and then one error for ever: ErrFieldCount for a row of another length, ErrBareQuote for a quote within a plain cell, ErrQuote for text after a closing quote or a quote that is never closed. All rows of any text have the same number of fields. An error of the source is never reported as the end, and only rows of complete lines come before it. Every table of at least one column, written with all cells quoted, is read back; CR LF within quotes becomes LF (finding), and a row whose only cell is empty and plain is lost (finding).", "quantifier": "every byte sequence, every error of the source at every cut point, every table", "why_tests_cant": "The texts are unbounded; the converse (nothing else is accepted) ranges over all texts.", "anchors": ["iter/gen.go: CSVIterGen", "iter/iter.go: OfCSV", "rest/content.go: NegotiateCSVContent"]}
{"id": "C104", "title": "Generated directories and their permissions", "statement": "On a Unix file system, for a privileged process: SetBasePath of a path of names returns exactly when no file is on the way; then the directory exists and is empty, everything outside it is as it was, and the only other new things are directories above it; otherwise nothing changes. For an unprivileged process SetBasePath makes a missing directory if the one above is there, reachable and writable; over an existing directory that can be listed everything that can be removed is removed and nothing outside changes, and the call returns exactly when that was everything. Findings: the directories are made with no permissions, so that for an unprivileged process a second run (SetBasePath of the same path) panics, Dir makes nothing below the base path, and a base path with two missing parts panics and leaves an unusable directory behind; SetBasePath of the current directory always panics; a directory with one thing that cannot be removed loses the rest before the panic; a path of double dots deletes everything in the directory it leads to and then panics; Src panics where the root directory cannot be written.", "quantifier": "every tree of files and permissions, current directory, base path and history of calls", "why_tests_cant": "The trees, paths and histories are unbounded, and tests run with one set of permissions.", "anchors": ["code/api.go: BaseGenerator.SetBasePath, Dir, Src"]}
{"id": "C105", "title": "Laws of decimal arithmetic", "statement": "For decimals of at most 18 digits and scale at most 18: Add and Mul commute (same number, same error or same panic; the same struct if the normalization flags agree); Sub of swapped operands is the opposite number or the error of the opposite sign; d - d is zero; d * 1 is d and d * 0 is zero; d + 0 is d for scales up to 17; a sum is at most half a unit in the coarser operand's last place off; sums whose operands can be brought to the larger scale are associative, keep the order of their summands and are undone by Sub. Every result without error of an operation other than Div is again such a decimal. Findings: d + 0 for scale 18 is rounded to an integer or panics; without the alignment condition addition is neither associative, nor order preserving, nor undone by Sub; Mul does not keep the order of positive numbers; a quotient may have scale 36, and then MagnitudeLessThanOne panics.", "quantifier": "all pairs and triples of decimals and all finite chains of operations", "why_tests_cant": "There are 10^37 decimals; the laws break only where rounding sets in, at the limits of 18 digits.", "anchors": ["math/decimal.go: Decimal.Add, Sub, Mul, Div, DivIntQuoRem, DivIntAdd, Cmp, Negate, Normalize, AdjustDecimalScale, OfDecimal, StringToDecimal"]}
{"id": "C106", "title": "Pipelines", "statement": "Any number of Map, MapError, Filter (Distinct, Duplicate), Peek, Skip, Limit, ReduceTo (Count), Reduce (Max, Min, Sum), ReduceToBool (AllMatch, AnyMatch, NoneMatch), ReduceToSlice, ExpandSlices, ReduceToMap and ExpandMaps stages applied one after the other to any iterator return, in order, the values of the composition of the corresponding list operations, then its end or the first error for ever; building the pipeline calls nothing; the first k calls of Next on it make exactly the composed number of calls of the source function, no matter what the source would return later (it may be infinite), and after the end none. Two pipelines with the same list meaning cannot be told apart: Map after Map, Filter after Filter, Limit before or after Map, Skip after Skip, Limit after Limit, Skip and Limit exchanged, ExpandSlices after ReduceToSlice; all but the last also with the same number of calls of the source. ReduceToMap gives each key its last value; ExpandMaps gives the entries of the maps in the order the runtime picks for each map, and what it reads does not depend on the orders; after ReduceToMap it gives each key once.", "quantifier": "all pipelines of any length over any types, all callbacks with captured variables, all sources (finite, failing or infinite) and all numbers of calls", "why_tests_cant": "Tests run a few pipelines over short slices; reading one value too many is only seen with sources that block or have side effects.", "anchors": ["stream/stream.go: Map, MapError, Filter, Peek, Skip, Limit, ReduceTo, ReduceToBool, ReduceToSlice, ExpandSlices, ReduceToMap, ExpandMaps, Distinct, Duplicate, Count, AllMatch, AnyMatch, NoneMatch", "iter/iter.go: OfIter, IterImpl.Next"]}
{"id": "C107", "title": "How Parallel starts its workers", "statement": "With two or more items the workers of Parallel write into the slice they read from exactly if its two type arguments are the same type, and into a new slice otherwise; finding: if the type arguments are different interface types, Parallel panics, although it works for sources of at most one item. When the transforms come from one Generator, then whatever the schedule no worker calls a nil function, the generator is called at most once per worker, and every worker applies one of the transforms generated for this call; workers that do not overlap apply their own; finding: for any number of workers there is a schedule in which all of them apply, and share the variables of, the one generated last.", "quantifier": "all pairs of type arguments, all numbers of items and workers, all generators and all schedules", "why_tests_cant": "The tests never use interface types with Parallel, and a race of two goroutines between an assignment and a call is not met by running them.", "anchors": ["stream/stream.go: Parallel, Generator"]}
{"id": "C108", "title": "Go numbers as JSON", "statement": "NumberToValue, and ToValue, MapToValue and SliceToValue for the numbers inside, make a JSON number of every finite number of every numeric type and of types declared from them: its text is a number by RFC 8259; it stands for exactly the number for all integer types, *big.Int and integral *big.Rat; it rounds back to the float for float32 and float64, so different floats have different texts; it is the number rounded to ten digits for *big.Float; for other *big.Rat it is off by at most a part in 10^9 and 10^-52. A tree of Go maps, slices, strings (that need no escapes), bools, nils and such numbers is written by Write as JSON that Parse reads as the same Value. Findings: NaN and the infinities become number Values with texts that are no JSON numbers; different *big.Float or *big.Rat get equal Values and small *big.Rat become 0; NumberToValue of a nil *big.Int is a number with the text <nil>, and it panics for the other nil pointers; ToValue refuses map[string]Value and []Value, which its signature admits.", "quantifier": "all values of the numeric types, all trees of them of any depth", "why_tests_cant": "The tests convert a few small numbers of each type.", "anchors": ["encoding/json/value.go: numberToValue, NumberToValue, toValue, ToValue, MapToValue, SliceToValue", "conv/conv.go: AnyTo", "conv/string.go: IntToString, UintToString, FloatToString, BigIntToString, BigFloatToString, BigRatToNormalizedString", "encoding/json/write/write.go: Write", "encoding/json/parse/parse.go: Parse"]}
{"id": "C109", "title": "Numbers through their texts with conv.To", "statement": "conv.To from string to a numeric type, given the decimal text of an integer (any leading zeros, a sign except for the unsigned types), succeeds exactly when the type has the number and then stores it; a text that an integer type accepts is such a text. So an integer of any type written as a string and read as any numeric type is the same number or an error, exactly as with the direct conversion when that is not a lossy one; a *big.Rat is read back from its text. Findings: from uint64 to *big.Float and *big.Int to float32 the direct conversion changes the number silently and the way over the text does not; the text of a *big.Rat is refused by every other numeric type even for integers (5/1); 1e2 and 100.0 are read as a hundred by the float types, *big.Float and *big.Rat but refused by the integer types.", "quantifier": "all integers of all types, all numeric target types, all texts", "why_tests_cant": "The tests convert a handful of strings per pair of types.", "anchors": ["conv/conv.go: To", "conv/string.go: IntToString, UintToString, BigIntToString, BigRatToString", "conv/int.go: StringToInt64", "conv/int.go: StringToUint64", "conv/float.go: StringToFloat32, StringToFloat64", "conv/bigint.go: StringToBigInt", "conv/bigfloat.go: StringToBigFloat", "conv/bigrat.go: StringToBigRat"]}
{"id": "C110", "title": "Pipelines with Reverse, Sort and Parallel stages", "statement": "Pipelines of any length in which lazy stages (those of C106) and Reverse, SortOrdered, SortComplex, SortCmp, SortBy, Parallel are mixed return the values of the composed list operations, then the end or the first error for ever; the eager stages read their whole source when they are applied, so building the pipeline makes the composed number of calls of the source function (no more than the last lazy Limit before them asks for), and calling Next on it makes none for what is before them. Over a source that ends every pipeline can be built; over one that never ends a pipeline whose eager stage is not behind a MapError, Limit or ReduceToBool stage is never built. Reverse twice, sorting twice, sorting after Reverse, Map and Filter before or after Reverse, Filter and order-preserving Map before or after sorting give the same; Limit n after sorting gives the n least values in order, Limit 1 what Min gives. Parallel(Map f), with any PInfo and under any schedule of its workers, may stand wherever Map f stands and gives the same values; Parallel(MapError f) gives the same values when f rejects none, and else only the error of the first rejected value; when its source fails no worker is started. Findings: when the source fails an eager stage returns none of the values read before the error; a Limit after Parallel does not keep Parallel from reading (and mapping) its whole source.", "quantifier": "all pipelines of any length over any types, all callbacks, all sources (finite, failing or infinite), all numbers of calls, all total orders", "why_tests_cant": "Tests apply one sort to one short list; they cannot show that building never ends, nor how many calls every composition makes.", "anchors": ["stream/stream.go: Reverse, SortOrdered, SortComplex, SortCmp, SortBy, Reduce, Min, Limit, Filter, Map, MapError, Parallel", "iter/iter.go: OfIter, SetError, OfSlice, OfEmpty, OfOne"]}
{"id": "C111", "title": "Torn JSON documents", "statement": "If the reader fails after some characters, Parse returns the reader's error, or a result that every continuation of those characters would also have given. Of a document (an object or array, white space not counted after it) cut short at any character or at any byte, also inside a UTF-8 character, Parse makes an error and never a value; if the reader failed there, that error (or InvalidUTF8 when a character was torn). Iterate over an array cut short ends with an error after some of the first elements, each unchanged if the reader failed. Write to a destination that keeps only the first bytes of what it is given and may fail at any call leaves the beginning of the document there, the whole document if it returns nil; Parse of what is left gives the value if it is whole and an error otherwise. With NewErrorWriter exactly the first count bytes are left, and the error is nil iff the document fits. Finding: when the file just ends inside a number, Iterate delivers the number made of its first digits before it returns the error.", "quantifier": "all documents at any depth, all cut points, all readers and destinations, all points of failure", "why_tests_cant": "Tests try a few broken inputs; a crash can cut a file at any byte of any document and a disk can fill up at any write.", "anchors": ["encoding/json/parse/parse.go: Parse, Iterate", "encoding/json/parse/lex.go: lexNumber, lexString", "encoding/json/write/write.go: Write", "io/io.go: ErrorReader.Read, ErrorWriter.Write", "io/writer/gen.go: IOWriterAsRunesGen", "iter/gen.go: ReaderAsRunesIterGen"]}
{"id": "C112", "title": "Documents one after the other in one io.Reader", "statement": "Parse reads a document (an object or array and the white space before it) and not one byte more: what the reader holds after the document, valid UTF-8 or not, it still holds when Parse returns. So calling Parse again and again on one reader returns the documents of a stream in order; when only white space is left it returns errEmptyDocument, or the reader's own error. Iterate over an array, once its elements and EOI have been delivered, leaves the reader just after the closing bracket. A log of documents written with Write one after the other and cut at any byte gives back exactly the whole documents, in order, and then an error, never a value for the torn one; if the destination fails at some call, every document whose Write returned nil is recovered.", "quantifier": "all streams of documents at any depth, all readers, all bytes after a document, all cut points, all destinations and points of failure", "why_tests_cant": "Tests parse one document per reader; a read-ahead of one character would only show with something after the document.", "anchors": ["encoding/json/parse/parse.go: Parse, Iterate", "encoding/json/parse/lex.go: lexer", "iter/iter.go: Iter.Next, Iter.Unread", "iter/gen.go: ReaderAsRunesIterGen", "encoding/json/write/write.go: Write"]}
{"id": "C113", "title": "JSON Values and the maps and slices they are made of", "statement": "In memory, with maps and backing arrays, ToValue, MapToValue of a map[string]any and SliceToValue of a []any return a Value that uses only newly allocated memory and change nothing that existed, so later changes to the maps and slices they were made from leave the Value alone; ToAny, ToMap and ToSlice return copies that share nothing with the Value, at any depth: changes to one never show in the other. Findings: MapToValue of a map[string]Value and SliceToValue of a []Value keep the caller's map and slice, and AsMap and AsSlice hand them out, so that storing into them changes the Value; with m[k] = MapToValue(m) a Value contains itself and ToAny never returns, nor does the conversion of a map[string]any that contains itself succeed; ToValue of a non-nil map[string]Value or []Value, which its constraint admits, always returns an error.", "quantifier": "every memory state, every value of type any at any depth, every later change of memory, every growth of slices", "why_tests_cant": "Tests compare results once; sharing shows only when something is changed afterwards.", "anchors": ["encoding/json/value.go: toValue, ToValue, MapToValue, SliceToValue, AsMap, AsSlice, ToAny, ToMap, ToSlice"]}
{"id": "C114", "title": "Lines of every text, whole or cut short, and logs of lines", "statement": "For every text, valid or not, OfReaderAsLines delivers the text cut at every CR and LF, except that after a CR the first LF is skipped wherever it stands; no other character is lost, added or moved. The lines are the right ones (LF, CR and CR LF each ending one) exactly when no CR that ends a line alone is followed later by an LF that ends one alone; otherwise there are too few. A text cut anywhere, even between CR and LF, gives the first lines of the whole text and then the beginning of the next line; a reader that fails gives only complete lines of the whole text and then its error. Lines appended with OfIOWriterAsLines to a log on a destination that may fail and keep only parts come back: all old lines and all whose write returned nil, then at most a part of the failing one, then the end or InvalidUTF8. Findings: a torn last line is delivered as a line without an error, and the next line appended to such a log is read as a part of it.", "quantifier": "every text and byte sequence, every point of cutting, every reader error, every destination that keeps a part of each write", "why_tests_cant": "Tests read a few well-formed texts; the guarantee is about every mixture of line ends, every cut and every failing write.", "anchors": ["iter/gen.go: readLines", "iter/gen.go: ReaderAsLinesIterGen", "io/writer/gen.go: IOWriterAsLinesGen"]}
{"id": "C115", "title": "Slices that change while they are iterated, and pipelines that write to the memory they read", "statement": "An iterator made by OfSlice reads element k when its function is called for the (k+1)-th time: whatever other code writes to the slice between calls, every pipeline delivers exactly what it would deliver for the list of the elements as they were at those moments, of the length the slice had when the iterator was made. ReduceIntoSlice may be given the slice its source iterates over, or one that begins further left in the same array: with a pipeline of Map, MapError, Filter, Distinct, Duplicate, Peek, Skip and Limit, or one that collects everything first, it stores exactly what the pipeline delivers for the original contents, leaves the elements behind the results and all other memory alone, zeroes the destination on an error and panics when it is too short. Values written to OfSliceWriter(&v) with v := src[:0], or v := src, or any slice whose spare capacity does not meet the source, end up in v behind its old values as if nothing were shared, whether or not append needs a new array. Findings: a destination that begins d > 0 elements after its source gets f applied i/d + 1 times to element i mod d with Map(f), and a pipeline that delivers more than it has read overwrites elements it has not read.", "quantifier": "every memory and every change of it between calls, every pipeline, every position of source and destination, every growth of append", "why_tests_cant": "Aliasing and interleaved writes are unlimited in number; tests use separate slices that nobody writes to.", "anchors": ["iter/gen.go: SliceIterGen", "iter/iter.go: OfSlice", "stream/stream.go: ReduceIntoSlice", "io/writer/gen.go: SliceWriterGen", "io/writer/writer.go: OfSliceWriter"]}
{"id": "C116", "title": "Iterating over a map while it changes", "statement": "Whatever is written to a map between the calls of an iterator made by OfMap, and whatever order the runtime chooses: every pair delivered is in the map at that moment with its current value; no key is delivered twice unless it was absent in between; when the end comes, every key present from the first call on has been delivered; the end is EOI and stays; there are no more values than entries at the first call plus entries created since. Writing changed values back under the same keys (OfMapWriter of the same map), or deleting the entry just delivered, touches every original entry exactly once. Finding: writing back under new keys may end after the original entries or never, from the same map.", "quantifier": "every map, every sequence of writes and deletions between the calls, every choice the Go language leaves to the runtime", "why_tests_cant": "The runtime's order and its treatment of new entries are random and cannot be enumerated by tests.", "anchors": ["iter/gen.go: MapIterGen", "iter/iter.go: OfMap", "io/writer/gen.go: MapWriterGen", "io/writer/writer.go: OfMapWriter"]}
{"id": "C117", "title": "Several pipelines on one iterator", "statement": "If two pipelines are made from the same iterator and their Next methods are called in any order, every value of the iterator goes to exactly one of them, in the order of the calls, and each gives the answers it would give alone on its share, ended as the iterator ends; what neither took is still in the iterator. Looking at the next value of the iterator in between (Next, then Unread), as often as one likes, changes no answer. This holds for any iterator, also one that fails or never ends. A pipeline made after another has been used goes on where that one stopped reading. ReduceToSlice(Limit(n)(it)), made again and again on the same iterator, gives its values in batches of n, each once, and reads none too many; if the iterator fails, the values read for the unfinished batch are lost.", "quantifier": "every pair of pipelines, every iterator, every interleaving of the calls and peeks, every batch size and number of batches", "why_tests_cant": "The interleavings, pipelines and iterators are unbounded; tests run a few pipelines, each on an iterator of its own.", "anchors": ["iter/iter.go: IterImpl.Next, IterImpl.Unread, OfIter", "stream/stream.go: Map, Filter, Limit, Skip, ReduceToSlice, ExpandSlices, Reduce"]}
{"id": "C118", "title": "Must functions under TryTo; expressions of decimals", "statement": "Every Must function returns the values of the wrapped function when its error is nil and panics with that very error otherwise. A TryTo body of Must calls runs the calls exactly up to the first one that fails; then the closers (which do not panic themselves) run in reverse order, and the handler gets that error; if none fails the handler does not run. A body that assigns the value of an expression stores it or, if the evaluation panics, stores nothing and the handler gets the panic value. A decimal expression of MustAdd, MustSub and MustMul of any depth whose subexpressions have at most 18 digits at a number of decimals of at most 17 that suffices for all of them is evaluated exactly. For amounts of one fixed scale made with normalized = false, sums and differences of any depth are exact or panic with the overflow or underflow error of the first operation that needs more than 18 digits. MustTo between numeric types, except the pairs for which C80 refutes this for To, returns with the same number when the target type has it and panics otherwise. MustParse of what MustWrite wrote is the value written.", "quantifier": "every list of fallible calls, handlers and closers that do not panic; every expression tree; every pair of numeric types but those C80 lists, and value; every writable value", "why_tests_cant": "Expression trees and call lists are unbounded; the tests of the Must functions check one success and one panic each.", "anchors": ["funcs/funcs.go: Must, MustValue, MustValue2, MustValue3, TryTo", "math/decimal.go: MustDecimal, MustStringToDecimal, MustAdd, MustSub, MustMul", "conv/conv.go: MustTo", "encoding/json/write/write.go: MustWrite", "encoding/json/parse/parse.go: MustParse"]}
{"id": "C119", "title": "Parallel whose transforms are any pipeline", "statement": "With transforms that are any pipeline of stages which, whenever it returns a value, has read at least as many values of its range, and which returns no more values than its range has: no schedule makes a worker panic; every schedule that runs each worker long enough completes; and the result is then, under every schedule, the error of the first range on which the pipeline fails, and otherwise for each range the values the pipeline makes of it, followed by what the output held there before. When the output is a slice of its own (T and U are different types), the same holds however early the pipeline returns its values, and if it returns more values than some range has (ExpandSlices, ExpandMaps), a worker panics and no schedule completes; so it does in place for one that has read as many values as it has returned. Every pipeline of Map, MapError, Filter, Distinct, Duplicate, Peek, Skip and Limit is such, whatever its order and length, and so is one that collects its range first (Reduce, ReduceToSlice, ReduceToMap, then expands) when it does not return more than its range has. For Maps and Peeks of any number and order the result is that of the same stages without Parallel, value for value, also when other pipelines, with Reverse, Sort or Parallel, stand before and after it. When there is no error there are always as many values as the input had, however many the pipeline drops.", "quantifier": "every pipeline, input of two or more values, thread or range count, schedule of the steps of the workers (interleaved at every read and write of the slices), in place or not", "why_tests_cant": "The transforms, the input and the interleavings are all unbounded; tests run one pipeline under the schedule the machine happens to choose.", "anchors": ["stream/stream.go: Parallel, ReduceIntoSlice, Map, MapError, Filter, Distinct, Duplicate, Peek, Skip, Limit, Reduce, ReduceToSlice, ExpandSlices, ExpandMaps", "iter/iter.go: OfSlice"]}
{"id": "C120", "title": "Slices of arguments that functions keep", "statement": "And(s...), Or(s...) and Compose(f0, s...) read the slice s when the function they return is called: a call does what the same function made of a fixed list would do, function i of that list being what element i of s holds when the functions before it have returned (there is exactly one such list), also when the functions change s; if they leave s alone, it is the list of its present elements. In(s...) answers whether the value is in s as it is at the call. InfiniteIterGen(f, s...) delivers literal i as it is in s at call i of Next, but its seed, the last element, as it was at the call of InfiniteIterGen; then f(seed), f(f(seed)), ... for ever. Concat takes each iterator from its slice when the one before it has ended: it delivers the values of the iterators so found one after the other up to the first error other than EOI, or EOI at the end; what is stored at or before the iterator being read has no effect. ErrorReader delivers the bytes its input holds at the time of Read, into p and nowhere else. After any history of writes, with other code changing the memory in between (also the slices that were written, anything but the bytes accepted), an ErrorWriter holds the first count bytes of what the slices contained when they were written, and each result of Output keeps its contents. Finding: a predicate made of a slice is not fixed by the functions given (storing into s changes its answers); the literals of InfiniteIterGen can be changed and its seed cannot; a byte the caller appends to the result of Output is overwritten by the next Write.", "quantifier": "every slice of functions, values or iterators of any length, every function and iterator (which may change the slice and the world), every change made between the calls, every history of writes and every growth of append", "why_tests_cant": "What a slice holds at each call depends on all code that shares it; tests pass literal arguments, which nobody else can reach.", "anchors": ["funcs/funcs.go: And, Or, Compose, In", "iter/gen.go: InfiniteIterGen, ConcatIterGen", "io/io.go: ErrorReader, ErrorWriter"]}
{"id": "C121", "title": "Maps whose keys are floats", "statement": "With a key type whose == is symmetric and transitive but not always reflexive (floats: exactly NaN is not equal to itself; complex numbers, structs and arrays: those with such a part): after any history of MapSet and MapUnset the map has, of keys equal to each other (0 and -0 too), one entry with the value put last unless it was deleted since, and of the keys not equal to themselves one entry for every single MapSet ever made, which MapTest and MapIndex never find and MapUnset never removes; its length is the number of those and of the different other keys. SliceToMap, SliceToMapBy and SliceUniqueValues keep one of each value equal to itself and every occurrence of the others; ReduceToMap keeps the last pair of each such key and every pair of the others. Map2SliceAdd, which looks its keys up again several times, does with a first key equal to itself what looking it up once would do. Findings: Map2SliceAdd with a NaN as first key panics (assignment to entry in nil map); MapSliceAdd with a NaN key adds two entries, an empty slice and one with the value, that no look-up finds; Map2Set with a NaN as first key stores the value in a map that no look-up finds; nothing else changes.", "quantifier": "every key type with such an equality, every history of operations, every slice and source", "why_tests_cant": "Only float and complex keys show it, after histories a test would not think of; and the entries are invisible to look-ups.", "anchors": ["funcs/funcs.go: MapSet, MapUnset, MapTest, MapIndex, Map2Set, Map2Test, Map2Unset, MapSliceAdd, MapSliceRemove, Map2SliceAdd, SliceToMap, SliceToMapBy, SliceUniqueValues, MapKeysToSlice", "stream/stream.go: ReduceToMap"]}
{"id": "C122", "title": "Big numbers that share memory after a conversion", "statement": "conv.To between equal big types (*big.Int, *big.Rat, *big.Float): the output variable then points to an object other than the input holding the same number, and no other number changes; an object it pointed to before (other than the input) is overwritten, otherwise the object is new; nil gives nil. From *big.Rat to *big.Int the result is a pointer to the numerator of the input itself, or an error and an unchanged variable if the number is no integer. After an error in a text the output variable is nil or (*big.Int) a new object; after any other error it is unchanged. Every other conversion to a big type gives a new object with new words, and every object and array there was stays as it was, so that storing into one never shows in the other. Findings: after a conversion between equal big types the result shares its words with the input, so that storing a number in place into one (SetInt64) replaces the lowest word of the other (new(big.Int).Set(x) would not); conversions with one output variable give one object each time, holding the last number; storing, or converting again, into the result of a *big.Rat to *big.Int conversion changes the rational (after To(r, &i); To(x, &i) the rational r equals x).", "quantifier": "every memory of big numbers of any size, every input, output variable and pair of types, every number stored afterwards", "why_tests_cant": "A test compares the number it gets; that two numbers are one memory shows only after a later store, in whichever program does it.", "anchors": ["conv/conv.go: To", "conv/bigint.go: BigRatToBigInt, FloatToBigInt, BigFloatToBigInt, StringToBigInt, IntToBigInt, UintToBigInt", "conv/bigfloat.go", "conv/bigrat.go"]}
{"id": "C123", "title": "Nil pointers to big numbers", "statement": "conv.To with nil pointers: nil converted to its own type gives nil. A nil *big.Int becomes the text <nil> or, without an error, a nil *big.Float; every other conversion of a nil pointer panics whatever the output variable holds; the text <nil> is an error for every other type. So no chain of conversions that starts from nil ever gives a number: it panics, returns an error, or ends with nil or the text <nil>. What is not nil is converted as in the other properties and without a panic (for *big.Int of fewer than 2^31 bits). Findings: the numbers that become nil without an error are exactly the *big.Float whose text BigFloatToBigRat cannot read back (all those of 10^1000011 and more are among them; the next conversion of the result panics) and the *big.Int of 2^31 bits and more converted to *big.Float (float32 and float64 panic for these).", "quantifier": "every pair of the sixteen types, every value and nil pointer, every value of the output variable, every chain of conversions of any length", "why_tests_cant": "Tests pass pointers that are not nil and one conversion at a time; that no chain makes a number of nil, and which numbers become nil, is about all chains and all numbers.", "anchors": ["conv/conv.go: To, convertFromTo", "conv/bigfloat.go: BigIntToBigFloat, StringToBigFloat", "conv/bigrat.go: BigFloatToBigRat", "conv/float.go: BigIntToFloat32, BigIntToFloat64", "conv/string.go: BigIntToString"]}

{"id": "C01", "title": "CheckedAdd is exact", "statement": "For each of the ten fixed-width integer types, a.CheckedAdd(b) is Some(a+b) when the mathematical sum is representable in the type and None otherwise; it never panics.", "quantifier": "all ten integer types and all operand pairs", "why_tests_cant": "Every pair of 64-bit operands matters (2^128 combinations per method); boundary cases sit where a finite table is most likely to miss them.", "anchors": ["ops.go:CheckedAdd", "ops.go:_HasOverflow_Add"]}
{"id": "C02", "title": "SaturatingAdd clamps", "statement": "a.SaturatingAdd(b) is the mathematical sum clamped to [MIN,MAX] of the type.", "quantifier": "all ten integer types and all operand pairs", "why_tests_cant": "Every pair of 64-bit operands matters (2^128 combinations per method); boundary cases sit where a finite table is most likely to miss them.", "anchors": ["ops.go:SaturatingAdd", "ops.go:_HasOverflow_Add"]}
{"id": "C03", "title": "Add, Sub, WrappingAdd and WrappingSub are arithmetic modulo 2^w", "statement": "The result is the unique representable integer congruent to the mathematical result modulo 2^width.", "quantifier": "all ten integer types and all operand pairs", "why_tests_cant": "Every pair of 64-bit operands matters (2^128 combinations per method); boundary cases sit where a finite table is most likely to miss them.", "anchors": ["ops.go:Add", "ops.go:Sub", "ops.go:WrappingAdd", "ops.go:WrappingSub"]}
{"id": "C04", "title": "CheckedSub is exact", "statement": "a.CheckedSub(b) is Some(a-b) when the mathematical difference is representable and None otherwise.", "quantifier": "all ten integer types and all operand pairs", "why_tests_cant": "Every pair of 64-bit operands matters (2^128 combinations per method); boundary cases sit where a finite table is most likely to miss them.", "anchors": ["ops.go:CheckedSub", "ops.go:_HasOverflow_Sub", "ops.go:_HasUnderflow_Sub"]}
{"id": "C05", "title": "SaturatingSub clamps", "statement": "a.SaturatingSub(b) is the mathematical difference clamped to [MIN,MAX].", "quantifier": "all ten integer types and all operand pairs", "why_tests_cant": "Every pair of 64-bit operands matters (2^128 combinations per method); boundary cases sit where a finite table is most likely to miss them.", "anchors": ["ops.go:SaturatingSub"]}
{"id": "C06", "title": "CheckedMul is exact", "statement": "a.CheckedMul(b) is Some(a*b) when the mathematical product is representable and None otherwise.", "quantifier": "all ten integer types and all operand pairs", "why_tests_cant": "Every pair of 64-bit operands matters (2^128 combinations per method); boundary cases sit where a finite table is most likely to miss them.", "anchors": ["ops.go:CheckedMul", "ops.go:_HasOverflow_Mul"]}
{"id": "C07", "title": "SaturatingMul clamps", "statement": "a.SaturatingMul(b) is the mathematical product clamped to [MIN,MAX].", "quantifier": "all ten integer types and all operand pairs", "why_tests_cant": "Every pair of 64-bit operands matters (2^128 combinations per method); boundary cases sit where a finite table is most likely to miss them.", "anchors": ["ops.go:SaturatingMul", "ops.go:_HasOverflow_Mul"]}
{"id": "C08", "title": "Mul and WrappingMul are multiplication modulo 2^w", "statement": "The result is the unique representable integer congruent to the mathematical product modulo 2^width.", "quantifier": "all ten integer types and all operand pairs", "why_tests_cant": "Every pair of 64-bit operands matters (2^128 combinations per method); boundary cases sit where a finite table is most likely to miss them.", "anchors": ["ops.go:Mul", "ops.go:WrappingMul"]}
{"id": "C09", "title": "Division family", "statement": "Div and WrappingDiv give the quotient truncated toward zero (wrapping only for MIN / -1) and panic exactly when the divisor is zero; CheckedDiv is None exactly when the divisor is zero or the quotient overflows and Some(quotient) otherwise; SaturatingDiv clamps the quotient for non-zero divisors and never panics.", "quantifier": "all ten integer types and all operand pairs", "why_tests_cant": "Every pair of 64-bit operands matters (2^128 combinations per method); boundary cases sit where a finite table is most likely to miss them.", "anchors": ["ops.go:Div", "ops.go:WrappingDiv", "ops.go:CheckedDiv", "ops.go:SaturatingDiv"]}
{"id": "C10", "title": "Remainder family", "statement": "Rem is the truncated remainder with a = (a/b)*b + a%b and panics exactly on a zero divisor; CheckedRem is None exactly when the divisor is zero or a/b overflows, and Some(a%b) otherwise.", "quantifier": "all ten integer types and all operand pairs", "why_tests_cant": "Every pair of 64-bit operands matters (2^128 combinations per method); boundary cases sit where a finite table is most likely to miss them.", "anchors": ["ops.go:Rem", "ops.go:CheckedRem"]}
{"id": "C11", "title": "Abs and AbsDiff", "statement": "AbsDiff always returns the exact |a-b| as an unsigned value; Abs returns |a| for every a except MIN, where it returns MIN; IsPositive/IsNegative are the sign tests; Neg is the wrapped negation.", "quantifier": "all integer types and all operands", "why_tests_cant": "Every pair of 64-bit operands matters (2^128 combinations per method); boundary cases sit where a finite table is most likely to miss them.", "anchors": ["ops.go:Abs", "ops.go:AbsDiff", "ops.go:IsPositive", "ops.go:IsNegative", "ops.go:Neg"]}
{"id": "C12", "title": "Pow is exponentiation modulo 2^w", "statement": "a.Pow(e) is congruent to a^e modulo 2^width and terminates for every U32 exponent.", "quantifier": "all ten integer types, all bases, all 2^32 exponents", "why_tests_cant": "The recursion depth and the number of wrap-arounds depend on the exponent; 2^32 exponents per base cannot be enumerated.", "anchors": ["ops.go:Pow"]}
{"id": "C13", "title": "Shl and Shr shift by their argument", "statement": "a.Shl(b) and a.Shr(b) shift a by b bits (left modulo 2^width, right arithmetic for signed types).", "quantifier": "all ten integer types and all operand pairs", "why_tests_cant": "Every pair of 64-bit operands matters (2^128 combinations per method); boundary cases sit where a finite table is most likely to miss them.", "anchors": ["bitwise.go:Shl", "bitwise.go:Shr"]}
{"id": "C14", "title": "U128 Add, Sub and Mul are arithmetic modulo 2^128", "statement": "For all U128 values the result denotes the mathematical result modulo 2^128.", "quantifier": "all pairs of 128-bit unsigned values", "why_tests_cant": "The operands are 128-bit; carries between the two words occur on a vanishing fraction of random inputs.", "anchors": ["ops.go:U128.Add", "ops.go:U128.Sub", "ops.go:U128.Mul"]}
{"id": "C15", "title": "U128 Div and Rem are Euclidean division", "statement": "For a non-zero divisor Div and Rem return the quotient and remainder, so a = q*b + r with r < b; for a zero divisor they panic.", "quantifier": "all pairs of 128-bit unsigned values", "why_tests_cant": "The operands are 128-bit; carries between the two words occur on a vanishing fraction of random inputs.", "anchors": ["ops.go:U128.Div", "ops.go:U128.Rem", "to_string.go:U128.ToString"]}
{"id": "C16", "title": "I128 Add, conversions and comparison", "statement": "I128 Add is addition modulo 2^128 in two's complement; conversion from I64 and U64 is value preserving; Cmp orders I128 and U128 by value.", "quantifier": "all 128-bit values, all 64-bit sources", "why_tests_cant": "The operands are 128-bit; carries between the two words occur on a vanishing fraction of random inputs.", "anchors": ["ops.go:I128.Add", "primitive.go:I128_FromI64", "primitive.go:I128_FromU64", "primitive.go:U128_FromU64", "cmp.go:I128.Cmp", "cmp.go:U128.Cmp"]}
{"id": "C17", "title": "I128 Neg, Sub, Mul, Abs and IsPositive", "statement": "These denote the mathematical operation modulo 2^128 in two's complement.", "quantifier": "all pairs of 128-bit signed values", "why_tests_cant": "The operands are 128-bit; carries between the two words occur on a vanishing fraction of random inputs.", "anchors": ["ops.go:I128.Neg", "ops.go:I128.Sub", "ops.go:I128.Mul", "ops.go:I128.Abs", "ops.go:I128.IsPositive"]}
{"id": "C18", "title": "I128 Div and Rem satisfy the division identity", "statement": "For b != 0 (no overflow) a.Div(b) is the truncated quotient and a = a.Div(b)*b + a.Rem(b); b = 0 panics.", "quantifier": "all pairs of 128-bit signed values", "why_tests_cant": "The operands are 128-bit; carries between the two words occur on a vanishing fraction of random inputs.", "anchors": ["ops.go:I128.Div", "ops.go:I128.Rem"]}
{"id": "C19", "title": "128-bit shifts", "statement": "U128/I128 Shl and Shr by n shift the 128-bit value by n.", "quantifier": "all 128-bit values and all shift amounts", "why_tests_cant": "The operands are 128-bit; carries between the two words occur on a vanishing fraction of random inputs.", "anchors": ["bitwise.go:I128.Shl", "bitwise.go:I128.Shr", "bitwise.go:U128.Shl", "bitwise.go:U128.Shr"]}
{"id": "C20", "title": "ToString prints the value in decimal", "statement": "For every integer type ToString/Display gives the canonical decimal numeral of the value (no leading zeros, '-' only for negatives).", "quantifier": "all values of all twelve integer types", "why_tests_cant": "The operands are 128-bit; carries between the two words occur on a vanishing fraction of random inputs.", "anchors": ["to_string.go:ToString", "fmt.go:Display"]}
{"id": "C21", "title": "Parsing inverts printing", "statement": "x.ToString().ParseI64() is Ok(x) for every I64 and x.ToString().ParseU64() is Ok(x) for every U64; strings that are not decimal numerals in range are errors.", "quantifier": "all 64-bit values and all strings", "why_tests_cant": "The set of strings is infinite.", "anchors": ["string.go:ParseI64", "string.go:ParseU64", "to_string.go:I64.ToString", "to_string.go:U64.ToString"]}
{"id": "C22", "title": "Duration construction loses no time", "statement": "DurationNew/FromSecs/FromMillis/FromMicros/FromNanos build a duration whose total length in nanoseconds is exactly the requested one, with a sub-second part below 10^9; DurationNew panics exactly when the carried seconds exceed the U64 range.", "quantifier": "all U64/U32 arguments", "why_tests_cant": "Every pair of 64-bit operands matters (2^128 combinations per method); boundary cases sit where a finite table is most likely to miss them.", "anchors": ["time.go:DurationNew", "time.go:DurationFromSecs", "time.go:DurationFromMillis", "time.go:DurationFromMicros", "time.go:DurationFromNanos"]}
{"id": "C23", "title": "Duration accessors are exact", "statement": "AsSecs/AsMillis/AsMicros/AsNanos are the floor of the total length in that unit (no 64-bit overflow), Subsec* are the fractional part, IsZero holds exactly for the empty duration.", "quantifier": "all durations", "why_tests_cant": "Every pair of 64-bit operands matters (2^128 combinations per method); boundary cases sit where a finite table is most likely to miss them.", "anchors": ["time.go:AsMillis", "time.go:AsMicros", "time.go:AsNanos", "time.go:SubsecMillis", "time.go:SubsecMicros", "time.go:SubsecNanos", "time.go:IsZero"]}
{"id": "C24", "title": "Sleep sleeps for exactly the requested duration", "statement": "Sleep(d) asks the runtime for exactly the total nanoseconds of d, or panics; it never sleeps for less than d.", "quantifier": "all durations", "why_tests_cant": "Every pair of 64-bit operands matters (2^128 combinations per method); boundary cases sit where a finite table is most likely to miss them.", "anchors": ["thread.go:Sleep"]}
{"id": "C25", "title": "Cmp is a total order consistent with Eq", "statement": "For the built-in scalar types Cmp is reflexive, antisymmetric, transitive and total, and a.Cmp(b) is Equal exactly when a.Eq(b).", "quantifier": "all built-in Ord types and all triples of values", "why_tests_cant": "A violation needs a particular triple (or a NaN) out of an infinite or 2^192-size space.", "anchors": ["cmp.go:Cmp", "cmp.go:Eq"]}
{"id": "C26", "title": "Pair ordering is lexicographic", "statement": "Pair.Cmp orders by key and then by value, is a total order when both component orders are, and agrees with Pair.Eq; Clone gives an equal pair.", "quantifier": "all component types with lawful Ord/Eq and all pairs", "why_tests_cant": "Quantifies over every component order.", "anchors": ["pair.go:Cmp", "pair.go:Eq", "pair.go:Clone"]}
{"id": "C27", "title": "Option combinators", "statement": "IsSome/IsNone are complementary; Map, MapOr, Filter, Or, OrElse, Xor, And, AndThen, UnwrapOr, Take, Insert, GetOrInsert, Replace and Eq behave as documented (None stays None under And/AndThen, Replace leaves Some); Unwrap and Expect panic exactly on None.", "quantifier": "all element types, all options and all closures", "why_tests_cant": "Quantifies over arbitrary closures and element types.", "anchors": ["option.go"]}
{"id": "C28", "title": "Result combinators", "statement": "A result made by Ok or by Err(non-nil) is exactly one of IsOk/IsErr; Map, MapErr, And, AndThen, Or, OrElse, UnwrapOr, MapOr, Ok, Err act on the right side only and AndThen is associative; Unwrap panics exactly on Err and UnwrapErr exactly on Ok.", "quantifier": "all element types, results and closures", "why_tests_cant": "Quantifies over arbitrary closures and element types.", "anchors": ["result.go"]}
{"id": "C29", "title": "If/ElseIf/Else selects the first true branch", "statement": "A chain If(c1,e1).ElseIf(c2,e2)...Else(e) returns the value of the first branch whose condition is true (or e) and evaluates only that branch.", "quantifier": "chains of any length, all conditions, all branch thunks", "why_tests_cant": "Chains are unbounded; side effects of unselected branches are only visible with specific combinations.", "anchors": ["syntax.go:If", "syntax.go:ElseIf", "syntax.go:Else"]}
{"id": "C30", "title": "Format substitutes placeholders in order", "statement": "For a template built from literal text, {{, }} and {} pieces, Format returns the concatenation in which {{ is {, }} is }, and the i-th {} is the i-th parameter's Display; it panics exactly when there are fewer parameters than placeholders (or a used one has no Display).", "quantifier": "all templates of any length and all parameter lists", "why_tests_cant": "Templates are unbounded strings driving a state machine.", "anchors": ["io.go:Format", "fmt.go:castToDisplay"]}
{"id": "C31", "title": "String Push/Pop/Chars work on code points", "statement": "On valid UTF-8 strings Push(c) appends c, Pop returns the last character and removes exactly it, Push then Pop restores the string, and Chars lists the code points whose encoding is the string.", "quantifier": "all valid strings of any length and all code points", "why_tests_cant": "Strings are unbounded and encodings have four lengths with surrogate and range exclusions.", "anchors": ["string.go:Push", "string.go:Pop", "string.go:Chars", "string.go:Len"]}
{"id": "C32", "title": "UTF conversions are faithful", "statement": "StringFromUTF8 and IntoBytes are inverse; StringFromUTF16 decodes every code unit of a valid UTF-16 sequence and returns Err on invalid data.", "quantifier": "all byte and code-unit vectors", "why_tests_cant": "Unbounded inputs.", "anchors": ["string.go:StringFromUTF8", "string.go:IntoBytes", "string.go:StringFromUTF16"]}
{"id": "C33", "title": "Vec behaves as a sequence", "statement": "After any sequence of New, WithLen, WithCapacity, Clone, Push, Pop, Insert, Get, GetUnchecked, Set, SetUnchecked, Swap, Append, Clear, Len, IsEmpty, Contains, Reverse, Retain, Dedup, Fill and Eq on any number of vectors, the observable contents and answers equal those of abstract lists under the same operations, and a call panics exactly when its index precondition fails.", "quantifier": "all finite operation histories, all element types", "why_tests_cant": "Quantifies over every history of operations and every element type; tests fix a handful of short ones.", "anchors": ["vec.go"]}
{"id": "C34", "title": "Vec.Reserve only affects capacity", "statement": "Reserve(n) leaves Len and contents unchanged and afterwards Capacity >= Len + n.", "quantifier": "all vectors, all n", "why_tests_cant": "Quantifies over every history of operations and every element type; tests fix a handful of short ones.", "anchors": ["vec.go:Reserve", "vec.go:Capacity"]}
{"id": "C35", "title": "Vec Retain, Dedup, Reverse, Fill, Swap", "statement": "Retain keeps exactly the elements satisfying the predicate in order; Dedup removes consecutive repeats; DedupByKey removes consecutive elements with equal keys; Reverse reverses; Fill/FillWith set every element; Swap exchanges two positions.", "quantifier": "all vectors, predicates and key functions", "why_tests_cant": "Quantifies over every history of operations and every element type; tests fix a handful of short ones.", "anchors": ["vec.go:Retain", "vec.go:Dedup", "vec.go:DedupByKey", "vec.go:Reverse", "vec.go:Fill", "vec.go:FillWith", "vec.go:Swap"]}
{"id": "C36", "title": "Vec sorting", "statement": "Sort/SortBy leave a stably sorted permutation of the elements (by Cmp, respectively by the given comparator); SortUnstable/SortUnstableBy a sorted permutation.", "quantifier": "all vectors and all total preorders", "why_tests_cant": "Quantifies over every history of operations and every element type; tests fix a handful of short ones.", "anchors": ["vec.go:Sort", "vec.go:SortBy", "vec.go:SortUnstable", "vec.go:SortUnstableBy"]}
{"id": "C37", "title": "Vec binary search", "statement": "On a sorted vector BinarySearch returns the index of a matching element if there is one and otherwise None, and it always terminates without reading outside the vector.", "quantifier": "all sorted vectors of any length and all keys", "why_tests_cant": "Quantifies over every history of operations and every element type; tests fix a handful of short ones.", "anchors": ["vec.go:BinarySearch", "vec.go:BinarySearchBy"]}
{"id": "C38", "title": "Vec storage is not shared between independent vectors", "statement": "Clone gives a vector with equal elements whose later mutation never changes the original, and vice versa; operations on a vector never change a vector with separate storage.", "quantifier": "all histories on both vectors", "why_tests_cant": "Aliasing depends on the growth history of the backing array.", "anchors": ["vec.go:Clone", "vec.go:Push", "vec.go:Append"]}
{"id": "C39", "title": "Slice-backed iterators enumerate the remaining elements", "statement": "From any point of an iteration, Next yields the remaining elements once each in order and then None forever; Map, Filter, Fold, Rev and CollectToVec act on exactly the remaining elements.", "quantifier": "all vectors, all iteration positions, all closures", "why_tests_cant": "Quantifies over every history of operations and every element type; tests fix a handful of short ones.", "anchors": ["vec.go:VecIter", "hash_map.go:HashMapIter", "hash_set.go:HashSetIter", "btree_map.go:BTreeMapIter", "btree_set.go:BTreeSetIter"]}
{"id": "C40", "title": "BinaryHeap is a priority queue", "statement": "After any history of Push and Pop, Pop returns a greatest element of the multiset of pushed and not yet popped elements (None when empty), and no element is lost or duplicated.", "quantifier": "all histories, all element types with a total preorder", "why_tests_cant": "Quantifies over every history of operations and every element type; tests fix a handful of short ones.", "anchors": ["binary_heap.go:Push", "binary_heap.go:Pop", "binary_heap.go:_SiftUp", "binary_heap.go:_SiftDownToBottom"]}
{"id": "C41", "title": "BinaryHeap.IntoSortedVec sorts", "statement": "IntoSortedVec returns the heap's multiset in ascending order and leaves the heap empty.", "quantifier": "all heaps", "why_tests_cant": "Quantifies over every history of operations and every element type; tests fix a handful of short ones.", "anchors": ["binary_heap.go:IntoSortedVec"]}
{"id": "C42", "title": "BinaryHeap.Append moves all elements", "statement": "Append(other) makes self hold the union of the two multisets, keeps the heap order, and leaves other empty.", "quantifier": "all pairs of heaps and all capacities", "why_tests_cant": "Quantifies over every history of operations and every element type; tests fix a handful of short ones.", "anchors": ["binary_heap.go:Append", "binary_heap.go:Reserve"]}
{"id": "C43", "title": "VecDeque behaves as a double-ended sequence", "statement": "After any history of PushFront, PushBack, PopFront, PopBack, Get, Set, Swap (of positions inside), Clear, Len, IsEmpty, Front, Back, Contains, Reserve, Retain, Dedup and Fill the answers and the observable contents equal those of an abstract list; no call panics while memory suffices.", "quantifier": "all finite histories, starting from New, WithCapacity or WithLen", "why_tests_cant": "Quantifies over every history of operations and every element type; tests fix a handful of short ones.", "anchors": ["vec_deque.go"]}
{"id": "C44", "title": "VecDeque growth preserves contents", "statement": "Growing (on a full push or by Reserve) keeps all elements and their order for every head position, and capacity never shrinks below the length.", "quantifier": "all ring-buffer layouts (head, len, capacity)", "why_tests_cant": "Three relocation cases selected by head/len/capacity arithmetic.", "anchors": ["vec_deque.go:_Grow", "vec_deque.go:_HandleCapacityIncrease", "vec_deque.go:Reserve"]}
{"id": "C45", "title": "VecDeque bulk operations", "statement": "Retain, Dedup, Fill, FillWith, Append of another deque, Clone and Eq act on the logical sequence: Retain filters in order calling the predicate once per element, Append concatenates and empties the other deque, Clone gives an equal deque, Eq is element-wise equality.", "quantifier": "all deques in any layout, all predicates", "why_tests_cant": "Quantifies over every history of operations and every element type; tests fix a handful of short ones.", "anchors": ["vec_deque.go:Retain", "vec_deque.go:Dedup", "vec_deque.go:Append", "vec_deque.go:Clone", "vec_deque.go:Eq", "vec_deque.go:Fill"]}
{"id": "C46", "title": "VecDeque AsSlice, Sort and BinarySearch act on the logical sequence", "statement": "AsSlice is the contents front to back; Sort leaves a sorted permutation; BinarySearch on a sorted deque finds a present key.", "quantifier": "all deques in any layout", "why_tests_cant": "Quantifies over every history of operations and every element type; tests fix a handful of short ones.", "anchors": ["vec_deque.go:AsSlice", "vec_deque.go:Sort", "vec_deque.go:BinarySearch"]}
{"id": "C47", "title": "VecDeque iteration", "statement": "Next enumerates front to back; Map/Filter/Fold/Collect act on the remaining elements; Rev yields them in reverse.", "quantifier": "all deques, all positions", "why_tests_cant": "Quantifies over every history of operations and every element type; tests fix a handful of short ones.", "anchors": ["vec_deque.go:VecDequeIter"]}
{"id": "C48", "title": "LinkedList behaves as a double-ended sequence", "statement": "After any history of calls on any number of lists (pushes and pops at both ends, Front and Back and writes through the pointers they return, Len, IsEmpty, Clear, Append of another list, Clone, Eq, collecting) the answers and contents equal those of abstract lists, forward links, backward links and length agree, and no node belongs to two lists.", "quantifier": "all finite histories", "why_tests_cant": "Quantifies over every history of operations and every element type; tests fix a handful of short ones.", "anchors": ["linked_list.go"]}
{"id": "C49", "title": "LinkedList.Append concatenates", "statement": "Append moves all of other's elements to the end of the list in order and leaves other empty; elements of other lists are untouched.", "quantifier": "all pairs of distinct lists in any heap", "why_tests_cant": "Quantifies over every history of operations and every element type; tests fix a handful of short ones.", "anchors": ["linked_list.go:Append"]}
{"id": "C50", "title": "LinkedList iteration", "statement": "Next enumerates front to back; Map/Filter/Fold/Collect act on the remaining elements in order; Rev yields them in reverse; Clone and Eq are element-wise.", "quantifier": "all lists, positions, closures", "why_tests_cant": "Quantifies over every history of operations and every element type; tests fix a handful of short ones.", "anchors": ["linked_list.go:LinkedListIter", "linked_list.go:Clone", "linked_list.go:Eq"]}
{"id": "C51", "title": "HashMap behaves as a finite map", "statement": "After any history of Insert, Remove, Get, ContainsKey, Clear, Len, IsEmpty, IntoIter, Keys and Values the answers agree with an abstract finite map; Insert and Remove return the previous value. For a key that is not == itself (NaN) the laws fail: it is never found and every Insert adds an entry.", "quantifier": "all histories, all key types with reflexive equality, all iteration orders", "why_tests_cant": "Quantifies over every history of operations and every element type; tests fix a handful of short ones.", "anchors": ["hash_map.go"]}
{"id": "C52", "title": "HashMap iteration visits each entry exactly once", "statement": "IntoIter, Keys and Values enumerate a permutation of the current entries whatever order the runtime picks, and Next delivers that enumeration and then None for ever. For values that implement Eq, Eq answers whether the two maps agree key by key, whatever the order; for values that do not, Eq of equally large maps that share a key panics or answers false.", "quantifier": "all maps and all runtime iteration orders", "why_tests_cant": "Go randomises map iteration order; a test sees one order.", "anchors": ["hash_map.go:IntoIter", "hash_map.go:Keys", "hash_map.go:Values", "hash_map.go:Eq"]}
{"id": "C53", "title": "HashSet algebra", "statement": "Over any history on any number of sets, HashSetNew, HashSetFromSlice, Insert, Remove, Clear, Contains, Get, Len, IsEmpty, IsSubset, IsSuperset, IsDisjoint, Union, Intersection, SymmetricDifference, Clone, Eq, IntoIter and AsSlice agree with mathematical finite sets.", "quantifier": "all sets and all iteration orders", "why_tests_cant": "Quantifies over runtime iteration order.", "anchors": ["hash_set.go"]}
{"id": "C54", "title": "BTreeMap Insert/Get behave as a finite map", "statement": "After any history of Insert (and Clear), Get/ContainsKey return the latest inserted value and Len is the number of distinct keys; Insert returns the previous value.", "quantifier": "all histories, all ordered key types", "why_tests_cant": "Quantifies over every history of operations and every element type; tests fix a handful of short ones.", "anchors": ["btree_map.go:Insert", "btree_map.go:Get", "btree_map.go:ContainsKey", "btree_map.go:_SplitChild", "btree_map.go:_InsertNonFull"]}
{"id": "C55", "title": "BTreeMap.Remove removes and returns the entry", "statement": "Remove(k) returns the value stored under k (None if absent); afterwards k is absent, every other key is unchanged and Len has dropped by one exactly if k was present.", "quantifier": "all maps, all keys", "why_tests_cant": "Quantifies over every history of operations and every element type; tests fix a handful of short ones.", "anchors": ["btree_map.go:Remove", "btree_map.go:_RemoveFromLeaf"]}
{"id": "C56", "title": "BTreeMap iteration is sorted and complete", "statement": "IntoIter, Keys and Values list every entry exactly once in ascending key order.", "quantifier": "all maps", "why_tests_cant": "Quantifies over every history of operations and every element type; tests fix a handful of short ones.", "anchors": ["btree_map.go:IntoIter", "btree_map.go:Keys", "btree_map.go:Values", "btree_map.go:_ToVec", "btree_map.go:_ToKeyVec", "btree_map.go:_ToValueVec"]}
{"id": "C57", "title": "BTreeMap.Insert never panics", "statement": "Insert succeeds for any number of distinct keys.", "quantifier": "all insertion sequences", "why_tests_cant": "Quantifies over every history of operations and every element type; tests fix a handful of short ones.", "anchors": ["btree_map.go:Insert", "btree_map.go:_SplitChild"]}
{"id": "C58", "title": "BTreeSet algebra", "statement": "Insert, Contains, IsSubset, IsSuperset, IsDisjoint, Union, Intersection, SymmetricDifference agree with mathematical finite sets and iteration is ascending.", "quantifier": "all sets", "why_tests_cant": "Quantifies over every history of operations and every element type; tests fix a handful of short ones.", "anchors": ["btree_set.go"]}
{"id": "C59", "title": "BTreeSet.Clone terminates with an equal set", "statement": "Clone returns a set with the same elements.", "quantifier": "all sets", "why_tests_cant": "Non-termination cannot be observed by a finite test.", "anchors": ["btree_set.go:Clone", "btree_set.go:IntoIter"]}
{"id": "C60", "title": "Mutex gives mutual exclusion", "statement": "In every interleaving of any number of goroutines that access the value only between Lock/TryLock-success and Unlock, at most one is inside, no update is lost, and the final value reflects every critical section exactly once.", "quantifier": "all schedules, all numbers of goroutines, all critical-section functions", "why_tests_cant": "Quantifies over all thread interleavings.", "anchors": ["sync.go:Lock", "sync.go:Unlock", "sync.go:MutexNew"]}
{"id": "C61", "title": "TryLock never blocks and is exact", "statement": "TryLock returns Err exactly when the mutex is held at that instant and otherwise acquires it; Unlock of an unlocked mutex is a fatal error.", "quantifier": "all schedules", "why_tests_cant": "Quantifies over all thread interleavings.", "anchors": ["sync.go:TryLock"]}
{"id": "C62", "title": "Join waits for the thread", "statement": "Join returns only after the spawned function has finished; whenever the function finishes and the handle has not been consumed, a waiting Join eventually can return.", "quantifier": "all schedules", "why_tests_cant": "Quantifies over all thread interleavings.", "anchors": ["thread.go:Spawn", "thread.go:Join"]}
{"id": "C63", "title": "IsFinished is a stable observation", "statement": "Once the function has finished IsFinished stays true, and calling IsFinished does not affect a later Join; every Join on a finished thread returns.", "quantifier": "all schedules and all sequences of IsFinished/Join calls", "why_tests_cant": "Quantifies over all thread interleavings.", "anchors": ["thread.go:IsFinished", "thread.go:Join"]}
{"id": "C64", "title": "Future.Await returns the function's result", "statement": "Every Await on a gokio future returns the value computed by the spawned function, after it has been computed.", "quantifier": "all schedules, any number of Awaits", "why_tests_cant": "Quantifies over all thread interleavings.", "anchors": ["gokio/gokio.go:Spawn", "gokio/gokio.go:Await"]}
{"id": "C65", "title": "File write then read round-trips", "statement": "After a successful Write(p,data), Read(p) returns data and ReadToString the same bytes, and other files are unchanged.", "quantifier": "all paths, contents and file-system states (and all short-read behaviours of the OS)", "why_tests_cant": "Depends on OS short reads and on prior file-system state.", "anchors": ["fs.go:Write", "fs.go:Read", "fs.go:ReadToString"]}
{"id": "C66", "title": "Write is atomic under crashes", "statement": "If the process dies during Write(p,data), p holds either its old contents or data.", "quantifier": "all crash points", "why_tests_cant": "A crash point cannot be chosen by a unit test.", "anchors": ["fs.go:Write"]}
{"id": "C67", "title": "Copy makes an independent copy and overwrites the target", "statement": "After Copy(a,b) succeeds, b has a's contents, an existing b is overwritten, and later writes to either file do not affect the other.", "quantifier": "all file-system states", "why_tests_cant": "Quantifies over every history of operations and every element type; tests fix a handful of short ones.", "anchors": ["fs.go:Copy"]}
{"id": "C68", "title": "ReadDir lists exactly the directory's entries", "statement": "ReadDir returns one entry per directory entry, with its name, path and type (dir/file/symlink).", "quantifier": "all directories", "why_tests_cant": "Quantifies over every history of operations and every element type; tests fix a handful of short ones.", "anchors": ["fs.go:ReadDir"]}
{"id": "C69", "title": "Float comparison is a total order consistent with Eq", "statement": "For F32/F64, Cmp and Eq agree and Cmp is transitive.", "quantifier": "all IEEE-754 values including NaN, infinities and signed zeros", "why_tests_cant": "2^64 values per operand.", "anchors": ["cmp.go:F32.Cmp", "cmp.go:F64.Cmp", "cmp.go:F64.Eq"]}
{"id": "C70", "title": "References into an Option", "statement": "The pointer returned by Insert, GetOrInsert or GetOrInsertWith refers to the option's own value: a later write through it is what the option holds, and no unrelated option changes. After Take or Replace an older reference is detached from both the receiver and the returned option.", "quantifier": "all element types, all options sharing or not sharing cells, all written values", "why_tests_cant": "Quantifies over all sharing patterns between option values.", "anchors": ["option.go:Insert", "option.go:GetOrInsert", "option.go:GetOrInsertWith", "option.go:Take", "option.go:Replace"]}
{"id": "C71", "title": "Assertions panic exactly when they should, with the given message", "statement": "Assert, AssertEq and AssertNe return normally exactly when the condition holds; otherwise they panic with the documented text, extended by the custom message formatted with its own arguments.", "quantifier": "all conditions, operands, messages and argument lists", "why_tests_cant": "Messages are unbounded templates.", "anchors": ["panic.go:Assert", "panic.go:AssertEq", "panic.go:AssertNe", "io.go:Format"]}
{"id": "C72", "title": "Hash iterators treat exactly what is left", "statement": "After any number of calls of Next on an iterator of a HashMap (entries, keys or values) or of a HashSet, Map, Filter, Fold, Rev, CollectToVec and CollectToLinkedList treat exactly the elements not yet delivered, in order.", "quantifier": "all buffers, all numbers of calls of Next, all closures including effectful and panicking ones", "why_tests_cant": "Quantifies over every buffer, every position and every closure.", "anchors": ["hash_map.go:HashMapIter", "hash_map.go:HashMapKeys", "hash_map.go:HashMapValues", "hash_set.go:HashSetIter"]}
{"id": "C73", "title": "Clone and Display of hash containers do not depend on the iteration order", "statement": "Clone of a HashMap or HashSet whose keys' Clone gives an equal key has the same keys with cloned values, whatever the order; when a key or value type has no Clone it panics unless the container is empty. Display writes every entry exactly once between 'HashMap{' or 'HashSet{' and '}', separated by ', '.", "quantifier": "all containers, all runtime iteration orders, all key and value types", "why_tests_cant": "Go randomises map iteration order; a test sees one order.", "anchors": ["hash_map.go:Clone", "hash_map.go:Display", "hash_set.go:Clone", "hash_set.go:Display"]}
{"id": "C74", "title": "Two B-tree maps do not disturb each other", "statement": "After any interleaving of operations on two BTreeMaps, an operation on one of them does not change the answer of any reading operation on the other.", "quantifier": "all interleavings of operations on two maps, all keys and values, all comparison functions", "why_tests_cant": "Sharing of nodes would only show after particular splits, merges and interleavings.", "anchors": ["btree_map.go:Insert", "btree_map.go:Remove", "btree_map.go:_SplitChild", "btree_map.go:_Merge"]}
{"id": "C75", "title": "Rename moves one name to another", "statement": "After Rename(from,to) succeeds, to names what from named, from names nothing, an existing file at to is replaced, and every other name and every file's contents are unchanged.", "quantifier": "all file-system states, paths and OS failures", "why_tests_cant": "Depends on the prior file-system state (hard links, symbolic links, nested directories), which tests fix.", "anchors": ["fs.go:Rename"]}
{"id": "C76", "title": "RemoveFile removes files, RemoveDir removes empty directories", "statement": "RemoveFile removes exactly the named file and refuses directories; RemoveDir removes exactly the named empty directory and refuses files; nothing else changes.", "quantifier": "all file-system states, paths and OS failures", "why_tests_cant": "Quantifies over all states of the file system.", "anchors": ["fs.go:RemoveFile", "fs.go:RemoveDir"]}
{"id": "C77", "title": "CreateDir creates one new empty directory", "statement": "CreateDir(p) succeeds only if p named nothing; afterwards p names a new empty directory, every path that led somewhere leads there still, and no contents change; on error nothing changes.", "quantifier": "all file-system states, paths and OS failures", "why_tests_cant": "Quantifies over all states of the file system.", "anchors": ["fs.go:CreateDir"]}
{"id": "C78", "title": "Concurrent writes do not mix", "statement": "When several Write calls run concurrently (gokio), each file ends with exactly the data of one of the calls that wrote to it.", "quantifier": "all numbers of writers, files and interleavings of their system calls", "why_tests_cant": "Depends on the interleaving of system calls, which a test cannot choose.", "anchors": ["gokio/fs.go:Write", "fs.go:Write", "gokio/gokio.go:Spawn"]}
{"id": "C79", "title": "A file-system call that fails changes nothing", "statement": "If CreateDir, RemoveDir, RemoveFile, Write, Rename or Copy returns Err, the file system is as before.", "quantifier": "all file-system states, paths and OS failures at every system call", "why_tests_cant": "Failures in the middle of a call cannot be provoked by unit tests.", "anchors": ["fs.go:CreateDir", "fs.go:RemoveDir", "fs.go:RemoveFile", "fs.go:Write", "fs.go:Rename", "fs.go:Copy"]}
{"id": "C80", "title": "B-tree iterators treat exactly what is left", "statement": "After any number of calls of Next on an iterator over the entries, keys or values of a BTreeMap or over a BTreeSet, Map, Filter, Fold, Rev, CollectToVec and CollectToLinkedList treat exactly the elements not yet delivered, in ascending order, calling the closure once for each; they come to an end even if the closure itself advances the iterator; and what they leave of the iterator does not depend on which container it came from.", "quantifier": "all maps and sets, all numbers of calls of Next, all closures including effectful and panicking ones and ones that use the iterator", "why_tests_cant": "Quantifies over every container, every position and every closure.", "anchors": ["btree_map.go:BTreeMapIter", "btree_map.go:BTreeMapKeys", "btree_map.go:BTreeMapValues", "btree_set.go:BTreeSetIter"]}
{"id": "C81", "title": "Display and Eq of B-tree containers", "statement": "Display of a BTreeMap or BTreeSet shows every entry once in ascending order of the keys, and Eq of two maps says whether they have the same keys with equal values.", "quantifier": "all histories of the containers, all key and value types with a lawful order", "why_tests_cant": "Quantifies over every history and every order of insertion.", "anchors": ["btree_map.go:BTreeMap.Display", "btree_map.go:BTreeMap.Eq", "btree_set.go:BTreeSet.Display"]}
{"id": "C82", "title": "Find gives the first position of the pattern", "statement": "Find returns the least byte index at which the pattern stands in the string and None exactly when it stands nowhere; Contains says whether it stands anywhere; for texts in UTF-8 the index is that of a character and the answer is that for the sequences of characters.", "quantifier": "all strings and patterns, including ones that are not UTF-8; all texts", "why_tests_cant": "Quantifies over every string and pattern; boundary matches inside multi-byte characters are never sampled.", "anchors": ["string.go:String.Contains", "string.go:String.Find"]}
{"id": "C83", "title": "Split cuts at every occurrence of the separator and nowhere else", "statement": "Split with a non-empty separator cuts from left to right at every occurrence: joining the pieces with the separator gives the string back, no piece contains the separator, and pieces of a text are texts; the empty separator cuts between all characters.", "quantifier": "all strings and separators", "why_tests_cant": "Quantifies over every string and separator, including overlapping occurrences.", "anchors": ["string.go:String.Split"]}
{"id": "C84", "title": "Replace writes the new text for every occurrence of the old", "statement": "Replace gives the pieces between the occurrences of the old text joined with the new text; a string without the old text is unchanged; the new text is not searched again; the empty old text stands before every character and at the end.", "quantifier": "all strings, old and new texts", "why_tests_cant": "Quantifies over every string and pattern, including ones where the new text contains the old.", "anchors": ["string.go:String.Replace"]}
{"id": "C85", "title": "Repeat n gives n copies", "statement": "Repeat(n) returns the string written n times, for every n for which the result can exist.", "quantifier": "all strings and all values of USize", "why_tests_cant": "Quantifies over 2^64 counts.", "anchors": ["string.go:String.Repeat"]}
{"id": "C86", "title": "Trim removes the white space around a text, all of it and nothing else", "statement": "Trim returns the text without the characters of Unicode's White_Space at both ends: what is removed is white space, what remains neither begins nor ends with it; trimming again changes nothing.", "quantifier": "all texts in UTF-8", "why_tests_cant": "Quantifies over every text, with white space of one, two and three bytes in any order.", "anchors": ["string.go:String.Trim"]}
{"id": "C87", "title": "Case conversion works character by character", "statement": "ToLowercase and ToUppercase replace every character by the one Unicode's simple mapping gives, keep the number and order of characters and return valid UTF-8; ASCII text changes in the 26 letters only; lowering twice is lowering once.", "quantifier": "all texts in UTF-8 and all case mappings that agree with ASCII", "why_tests_cant": "Quantifies over every text and every mapping table.", "anchors": ["string.go:String.ToLowercase", "string.go:String.ToUppercase"]}
{"id": "C88", "title": "Integer parts, fractions and absolute values of floats are exact", "statement": "Floor, Ceil, Trunc and Round return exactly the integer they name (Round: nearest, half-way cases away from zero), with the sign bit of the number, as a number of the same format; zeros, infinities and NaN stay what they are. Frac returns exactly the number minus its Trunc, with its sign bit, and NaN for infinities and NaN; Trunc plus Frac is the number. Abs clears the sign bit and changes nothing else. For F32 the detour through float64 loses nothing.", "quantifier": "all numbers of F32 and F64 (all formats' finite numbers, zeros, infinities, NaN)", "why_tests_cant": "F64 has 2^64 values; the detour through float64 must be exact for every one of the F32 values, including subnormal ones.", "anchors": ["float.go:F32.Floor", "float.go:F64.Floor", "float.go:F32.Ceil", "float.go:F32.Round", "float.go:F32.Trunc", "float.go:F32.Frac", "float.go:F32.Abs"]}
{"id": "C89", "title": "Float arithmetic is the correctly rounded arithmetic of IEEE 754", "statement": "Add, Sub, Mul and Div of F32 and F64 return the number of the format nearest to the exact result (ties to the even digit, infinity from half a step above the largest number on), with the sign rules of IEEE 754 for zeros, infinities and NaN; no operation panics; a representable result is exact. The assigning forms compute the same.", "quantifier": "all pairs of numbers of F32 or of F64", "why_tests_cant": "Quantifies over all pairs of 32- and 64-bit patterns and compares with the exact rational result.", "anchors": ["ops.go:F32.Add", "ops.go:F64.Add", "ops.go:F32.Sub", "ops.go:F32.Mul", "ops.go:F32.Div", "ops.go:F32.AddAssign"]}
{"id": "C90", "title": "Square roots are correctly rounded", "statement": "Sqrt returns the number of the format nearest to the exact square root; for F32 this holds although it is computed in float64 and rounded a second time. The root of a perfect square is exact; negative numbers give NaN, zeros and +Inf themselves.", "quantifier": "all numbers of F32 and F64", "why_tests_cant": "That double rounding is harmless has to hold for every F32, subnormal ones included, and the exact root is irrational.", "anchors": ["float.go:F32.Sqrt", "float.go:F64.Sqrt"]}
{"id": "C91", "title": "The transcendental functions of F32 are those of float64 rounded once", "statement": "Exp, Exp2, Ln, Log2, Log10, Powf, Powi and Log of F64 are the functions of package math; those of F32 apply the same function to the same number and round the result once to F32. Powi's exponent is converted to float64, exactly up to 2^53. Log(base) is the correctly rounded quotient of two logarithms.", "quantifier": "all numbers, exponents and bases, and all implementations of the functions of package math", "why_tests_cant": "Quantifies over every number and over every implementation of the math library.", "anchors": ["float.go:F32.Exp", "float.go:F32.Powi", "float.go:F32.Powf", "float.go:F32.Log", "float.go:F32.Ln"]}
{"id": "C92", "title": "Complex sums, differences and products are computed from the rules of complex arithmetic", "statement": "Add and Sub of Complex64 and Complex128 are the correctly rounded sums and differences of the parts. A Complex128 product is ac-bd and ad+bc with every operation correctly rounded; a Complex64 product is the exact ac-bd and ad+bc rounded to float64 and then to F32. The assigning forms compute the same.", "quantifier": "all complex numbers of both formats (the product of Complex64: with finite parts)", "why_tests_cant": "Quantifies over all quadruples of floats.", "anchors": ["ops.go:Complex64.Add", "ops.go:Complex64.Mul", "ops.go:Complex128.Mul", "ops.go:Complex64.MulAssign"]}
{"id": "C93", "title": "ParseF64 returns the floating-point number nearest to the numeral", "statement": "For every decimal numeral (sign, digits, point, exponent; any of them may be missing, but not all digits) ParseF64 returns the F64 nearest to the number it denotes, ties to even, keeping the sign of zero, and an error exactly if the number is at least half a step above the largest F64. The same holds for hexadecimal numerals with an exponent of two (0x1.8p-1). inf, infinity and nan in any case are read as such. Underscores between digits (or between 0x and a digit) are ignored, any other underscore is an error, and every other text is an error.", "quantifier": "all byte strings (numerals: exponent below 100000 or text of at most 9000 bytes, hexadecimal ones 2000 bytes)", "why_tests_cant": "Correct rounding is a statement about all numerals, of any length; the hard cases lie next to midpoints.", "anchors": ["string.go: String.ParseF64"]}
{"id": "C94", "title": "The text of an F64 is read back as the same F64", "statement": "ParseF64(x.ToString()) is Ok(x) for every F64 x, with infinities, NaN and negative zero, so no two different F64 have the same text.", "quantifier": "all 2^64 bit patterns up to the NaN payload", "why_tests_cant": "2^64 numbers.", "anchors": ["to_string.go: F64.ToString", "string.go: String.ParseF64"]}
{"id": "C95", "title": "The text of a floating-point number is the shortest numeral that denotes it", "statement": "ToString of an F32 or F64 writes a plain decimal numeral (no exponent, no superfluous zeros) which rounds to the number in its format; no numeral with fewer significant digits does, and of those with as many digits none is nearer; at most 9 digits for F32 and 17 for F64. Zero, -0, +Inf, -Inf and NaN have these texts. A complex number is (re+imi) or (re-imi) with these texts.", "quantifier": "all F32, F64, Complex64 and Complex128", "why_tests_cant": "Quantifies over all numbers and, for each, over all competing numerals.", "anchors": ["to_string.go: F32.ToString, F64.ToString, Complex64.ToString, Complex128.ToString"]}
{"id": "C96", "title": "The text of a value is the text of its structure", "statement": "Display (and Debug) of a value of any type built from primitive values, Option, Result, Vec, VecDeque, LinkedList, HashSet, BTreeSet, HashMap and BTreeMap is the name and brackets of its outermost type around the texts of its elements, comma separated, recursively; an empty container has nothing between its brackets. It panics exactly when something inside has no Display method (a Pair, a foreign Go type) or is an empty BTreeSet.", "quantifier": "all values of any nesting depth", "why_tests_cant": "Types nest without bound.", "anchors": ["fmt.go: Display, castToDisplay", "vec.go: Vec.Display", "vec_deque.go: VecDeque.Display", "linked_list.go: LinkedList.Display", "hash_set.go: HashSet.Display", "btree_set.go: BTreeSet.Display", "hash_map.go: HashMap.Display", "btree_map.go: BTreeMap.Display", "option.go: Option.Display", "result.go: Result.Display"]}
{"id": "C97", "title": "Different values of a type have different texts", "statement": "If two values of the same type have the same Display text they are the same value, also when the text is followed by further text that begins with a separator or a bracket.", "quantifier": "all types and all pairs of values of them", "why_tests_cant": "A pair of values with the same text may lie anywhere.", "anchors": ["fmt.go: Display", "vec.go: Vec.Display", "hash_map.go: HashMap.Display", "option.go: Option.Display"]}
{"id": "C98", "title": "Debug of a primitive value names its type", "statement": "Debug of a primitive value is the name of its type followed by its ToString text in parentheses; equal Debug texts imply the same type and the same text. Display is the ToString text: a canonical decimal numeral for integers, Byte and Char, a shortest numeral for floats, the bytes of a String, true or false.", "quantifier": "all primitive values and all pairs of them", "why_tests_cant": "Quantifies over all values of twenty types.", "anchors": ["fmt.go: Display, Debug", "to_string.go: ToString"]}
{"id": "C99", "title": "A Pair is shown as Pair[key, value]", "statement": "ToString, Display and Debug of a Pair are Pair[k, v] with the texts of its components, and a Pair can be shown wherever a value is shown (Format, elements of containers).", "quantifier": "all pairs and all contexts", "why_tests_cant": "Quantifies over all component types and values.", "anchors": ["pair.go: Pair.ToString, Pair.Display, Pair.Debug", "io.go: Format"]}
{"id": "C100", "title": "ReadLine reads a line and appends it to the buffer", "statement": "Stdin.ReadLine consumes exactly one line of the input and appends it to the buffer.", "quantifier": "all inputs and all buffers", "why_tests_cant": "Inputs are unbounded.", "anchors": ["io.go: Stdin.ReadLine"]}
{"id": "C101", "title": "Print and Println write exactly the expanded template", "statement": "Print appends to standard output the template with each {} replaced by the text of its parameter and {{ }} by braces; Println appends a newline after it; if a parameter is missing or has no Display method they panic and write nothing.", "quantifier": "all templates, parameters and previous output", "why_tests_cant": "Templates and parameters are unbounded.", "anchors": ["io.go: Print, Println, Format"]}
{"id": "C102", "title": "B-tree maps terminate, can always be read and can be cleared", "statement": "Every operation of every history of a BTreeMap comes to an end (it returns or panics, it never loops); after any history that has not panicked, Get, ContainsKey, Len, IsEmpty, IntoIter, Keys, Values and Clear succeed and reading changes nothing; a cleared map answers every later history as a new map does.", "quantifier": "all key types with a lawful order, all histories of Insert, Remove, Get, ContainsKey, Len, IsEmpty, Clear, IntoIter, Keys and Values, all other contents of the memory", "why_tests_cant": "Histories are unbounded and the shapes of the tree depend on all of them.", "anchors": ["btree_map.go: Insert, Remove, _Search, _ToVec, _ToKeyVec, _ToValueVec, Clear"]}
{"id": "C103", "title": "Dividing complex numbers gives the quotient", "statement": "Complex64.Div and Complex128.Div (and DivAssign) return the quotient of the two numbers: each part within 2^-50 of the quotient's absolute value of the exact part (then rounded to F32 for Complex64); dividing by a real or an imaginary number divides the parts with correct rounding and signs; dividing by zero never panics; an infinite number over a finite one is infinite, a finite one over an infinite one vanishes, NaN and infinity over infinity have no value.", "quantifier": "all pairs of numbers of the format, finite, infinite or NaN", "why_tests_cant": "There are 2^256 pairs; rounding, overflow and the corrections for infinities interact.", "anchors": ["ops.go: Complex64.Div, Complex128.Div, Complex64.DivAssign, Complex128.DivAssign"]}
{"id": "C104", "title": "Assigning operators are the operators", "statement": "For x of any primitive type, x.AddAssign(y) (likewise Sub, Mul, Div and Rem) makes x what x.Add(y) returns and changes no other variable, also when y is x itself; if x.Add(y) panics nothing is changed; Byte arithmetic is modulo 2^8, Char arithmetic modulo 2^32 with sign, String addition appends; swapping two variables exchanges exactly their values.", "quantifier": "all operators, all values of all primitive types, all memories and all pairs of variables, the same one included", "why_tests_cant": "All values, and the absence of any effect on every other variable, including aliased operands.", "anchors": ["ops.go: AddAssign, SubAssign, MulAssign, DivAssign, RemAssign of every type, Byte.Add, Char.Add, String.Add", "utils.go: _Swap"]}
{"id": "C105", "title": "AsRef refers to the value it is called on", "statement": "x.AsRef() returns a reference to x: it shows the value of x, and what is later written through either is seen through the other; for a container, the elements added or removed through one are seen through the other.", "quantifier": "all values, all containers and all later histories through the variable and the reference", "why_tests_cant": "Whether two pointers stay in agreement is a statement about every later history of operations.", "anchors": ["convert.go: AsRef", "option.go, result.go, pair.go: AsRef", "vec.go, vec_deque.go, linked_list.go, hash_map.go, hash_set.go, btree_map.go: AsRef, AsMap"]}
{"id": "C106", "title": "Others are told when a goroutine's function ends without returning", "statement": "When a function given to Spawn (or gokio Spawn) ends without returning, by a panic or by runtime.Goexit, those who depend on it are told: Join returns (its Result is Err for a panic), IsFinished answers true, Await does not hand out a value the function never returned, a mutex the goroutine was inside is released or reports it, and the other goroutines go on.", "quantifier": "all programs, all schedules and all moments at which a goroutine's function can end", "why_tests_cant": "A call that never returns, and a mutex that is never free again, are statements about all continuations of a run under all schedules; a test can only wait.", "anchors": ["thread.go: Spawn, JoinHandle.Join, JoinHandle.IsFinished", "gokio/gokio.go: Spawn, Await", "sync.go: Mutex.Lock, Mutex.TryLock, Mutex.Unlock"]}
{"id": "C107", "title": "An iterator gives the elements its container had when the iterator was made", "statement": "it := c.IntoIter() is a snapshot: the calls of it.Next() give the elements c had at that moment, in order, and then None, whatever is done to c (or to vectors collected from the iterator) in the meantime; and c is not affected by the iterator.", "quantifier": "all containers (Vec, VecDeque, LinkedList, maps and sets), all programs that interleave calls on containers with calls of Next on any number of iterators", "why_tests_cant": "The iterator may share an array or nodes with the container; whether a call disturbs it depends on capacities, on the position of the front in a ring buffer and on the whole interleaving, of which a test shows one.", "anchors": ["vec.go: IntoIter, VecIter.Next", "vec_deque.go: IntoIter, VecDequeIter.Next", "linked_list.go: IntoIter, LinkedListIter.Next", "hash_map.go, hash_set.go, btree_map.go, btree_set.go: IntoIter, Keys, Values, Next, CollectToVec"]}
{"id": "C108", "title": "A container survives a panic of a user's function inside its method", "statement": "If a function of the user (the predicate of Retain, the key of DedupByKey, the generator of FillWith or GetOrInsertWith, Eq of Dedup, the comparison of a sort, Cmp of a heap or a B-tree) panics in the middle of a container's method and the program recovers, the container has neither lost nor doubled an element and can be used as before.", "quantifier": "all containers and contents, all functions with a state of their own that may panic in any call, all sorting algorithms", "why_tests_cant": "The panic can happen in any of the calls the method makes, with any contents; a test picks one call.", "anchors": ["vec.go: Retain, DedupByKey, FillWith, SortBy, SortUnstableBy", "vec_deque.go: Retain, Dedup, FillWith", "binary_heap.go: Push, Pop, _SiftUp, _SiftDownToBottom", "btree_map.go: Insert, _InsertNonFull", "option.go: GetOrInsertWith"]}
{"id": "C109", "title": "A Mutex protects its value although the struct is copied", "statement": "MutexNew returns a Mutex by value. However the struct is passed on (assignment, call by value, range loop, field of a struct), goroutines that touch the value only between Lock or a successful TryLock and Unlock exclude each other, no update is lost, and a free mutex can be locked.", "quantifier": "all histories of MutexNew, copies of the struct, Lock, TryLock, Unlock, reads and writes by any number of goroutines", "why_tests_cant": "Whether two goroutines are inside at the same time depends on the interleaving and on which copy each of them uses; a run without a collision shows nothing.", "anchors": ["sync.go: Mutex, MutexNew, Lock, TryLock, Unlock"]}
{"id": "C110", "title": "A declared variable is an empty container", "statement": "A variable of one of gost's container types that is only declared (var m HashMap[K, V], a struct field, an element made by make) behaves like a new, empty one made by the constructor: every call answers the same and none panics.", "quantifier": "all histories of calls on variables declared without a constructor, for every container type", "why_tests_cant": "Tests use the constructors; which later call repairs a zero value (or fails on it) depends on the whole history before it.", "anchors": ["hash_map.go: HashMap, HashMapNew, Insert, Remove, Clear", "hash_set.go: HashSet, HashSetNew, Insert", "vec_deque.go: VecDeque, VecDequeNew, PushFront, PushBack, _Grow, Reserve, Clear", "sync.go: Mutex, MutexNew, Lock, TryLock", "result.go: Result", "linked_list.go: LinkedListNew", "btree_map.go: BTreeMapNew", "btree_set.go: BTreeSetNew", "vec.go: VecNew", "binary_heap.go: BinaryHeapNew"]}
{"id": "C111", "title": "Options are values", "statement": "An Option is a value: changing one Option variable (by Insert, Take, Replace or a write through the pointer that Insert, GetOrInsert or GetOrInsertWith returned) changes no other variable, also when one of them was made from the other by assignment, Filter, Or, OrElse, Xor, Map, Take, Replace or Clone.", "quantifier": "all programs over any number of Option variables and references into them, all element types", "why_tests_cant": "Whether two variables still refer to one cell depends on the whole history of derivations and replacements between them.", "anchors": ["option.go: Filter, Or, OrElse, Xor, Map, Clone, Insert, GetOrInsert, GetOrInsertWith, Take, Replace"]}
{"id": "C112", "title": "Deque variables are values", "statement": "A VecDeque variable is a deque of its own: a method called on one variable changes no other, also when one of them is a copy (y := x, a parameter, a struct field, AsRef) of the other; only Append changes a second deque, which it empties.", "quantifier": "all programs over any number of VecDeque variables made by VecDequeNew, VecDequeWithCapacity, VecDequeWithLen or copying, all element types, all buffer limits", "why_tests_cant": "Whether two variables still show the same cells, and which of one variable's cells the other overwrites, depends on the whole history of copies, pushes and pops at both ends and on the capacity each of them has reached.", "anchors": ["vec_deque.go: VecDeque, PushFront, PushBack, PopFront, PopBack, Set, Swap, Retain, Dedup, Fill, Append, Clear, Reserve, Capacity, _Grow", "vec_deque.go: AsRef"]}
{"id": "C113", "title": "Closures may use the container they are called from", "statement": "While Vec.Retain, Vec.DedupByKey, Vec.FillWith, VecDeque.Retain or VecDeque.FillWith runs, its closure may call methods of the same container (and of others): looking shows the elements as they were before the call, the closure is called once per element, the call ends, and elements the closure adds stay.", "quantifier": "all contents and layouts, all closures (with a state of their own) that make any number of calls depending on the answers of earlier ones", "why_tests_cant": "What a closure sees depends on how far the loop has got and on what it did in all earlier rounds; that a call never ends cannot be tested at all.", "anchors": ["vec.go: Retain, DedupByKey, FillWith", "vec_deque.go: Retain, FillWith"]}
{"id": "C114", "title": "A Cmp that contradicts itself stops nothing and loses nothing from a heap", "statement": "Whatever function the elements' Cmp is - also one that contradicts itself, or F64's with NaN - every operation of BinaryHeap, BTreeMap and BTreeSet comes to an end. A BinaryHeap then still holds exactly the elements that were put in and not taken out, also when elements are overwritten through AsSlice, never panics, answers Pop with the first element of that slice and IntoSortedVec with all elements. In a BTreeMap a key that compares equal to all others (NaN) finds the entry the search looks at first; inserting it into a map with such an entry adds nothing but overwrites and returns that entry's value.", "quantifier": "all comparison functions, all heap contents, all histories", "why_tests_cant": "Ranges over all functions as comparison and all histories; that no history loops cannot be tested at all.", "anchors": ["binary_heap.go: Push, Pop, Clear, Len, AsSlice, IntoSortedVec", "btree_map.go: BTreeMap", "btree_set.go: BTreeSet", "cmp.go: F64.Cmp"]}
{"id": "C115", "title": "Strings whose bytes are not UTF-8 are read as characters in one way", "statement": "Every byte string has exactly one reading as characters: from left to right, a character where the encoding of one stands, U+FFFD for a byte at which none stands. Chars lists it; Pop returns its last character and leaves the encoding of the others; Split at the empty string gives the bytes of the pieces and Replace of the empty string inserts between them; Trim drops the pieces that are white space at both ends and leaves all other bytes as they are; ToLowercase, ToUppercase and Format see only the characters read.", "quantifier": "all byte strings, all case mappings that agree with ASCII, all parameters of Format", "why_tests_cant": "Ill-formed input has unboundedly many shapes (truncated, overlong, surrogate, misplaced continuation bytes), and decoding from the left and from the right must agree on all of them.", "anchors": ["string.go: Chars, Pop, Split, Replace, Trim, ToLowercase, ToUppercase", "io.go: Format"]}
{"id": "C116", "title": "Capacity and contents of heaps in any program", "statement": "In a program that makes any number of heaps (New, WithCapacity, WithLen) and calls Push, Pop, Clear, Reserve, Append, Len, IsEmpty, Capacity and IntoSortedVec on them in any order, no call panics or loops; Capacity is never below Len, stays as it is while the elements fit, is at least the length plus n after Reserve(n) and 0 after Clear; a call changes no other heap; the elements of each heap are those put in and not yet taken out plus the zero values that Reserve and Append add when the capacity is too small; and Pop and IntoSortedVec answer in descending and ascending order unless such a zero value was added to a heap with an element below it.", "quantifier": "all programs over any number of heaps, all element types with a total preorder, all growth policies of append", "why_tests_cant": "Quantifies over every program, element type and growth policy; tests fix a handful of short programs on one heap each.", "anchors": ["binary_heap.go:Reserve", "binary_heap.go:Capacity", "binary_heap.go:Append", "binary_heap.go:Clear", "binary_heap.go:IntoSortedVec"]}
{"id": "C117", "title": "Sorting with any comparison function", "statement": "Sort, SortBy, SortUnstable and SortUnstableBy on a Vec, and on the first Len cells of a VecDeque, always return, for every comparison function including one that is no order at all, and then hold exactly the elements they held before, with no other vector changed; when the function is a total preorder, Sort and SortBy leave the one stably sorted arrangement and SortUnstable and SortUnstableBy an ascending one; on two or more elements without Cmp, Sort and SortUnstable panic.", "quantifier": "all lengths and contents, all comparison functions, all positions the library's pattern breaking may choose", "why_tests_cant": "The library switches between insertion sort, merges, partitions and heap sort depending on the length and the data; a test fixes one list and one well-behaved order.", "anchors": ["vec.go:Sort", "vec.go:SortBy", "vec.go:SortUnstable", "vec.go:SortUnstableBy", "vec_deque.go:Sort", "vec_deque.go:SortBy", "vec_deque.go:SortUnstable", "vec_deque.go:SortUnstableBy"]}
{"id": "C118", "title": "Linked list variables are values", "statement": "A LinkedList variable is a list of its own: a method called on one variable changes no other, also when one of them is a copy (y := x, a parameter, a struct field) of the other; Len is the number of elements a walk over the list shows, and every walk, Clone and Eq ends.", "quantifier": "all programs over any number of LinkedList variables, among them copies made at any moment, all element types", "why_tests_cant": "A copy shares the nodes but not the number and the ends; what it shows, and whether walking it ends at all, depends on the whole history of pushes, pops and joins through every variable that shares nodes with it.", "anchors": ["linked_list.go: LinkedList, PushFront, PushBack, PopFront, PopBack, Append, Clear, Front, Back, Len, Clone, Eq, IntoIter, Next"]}
{"id": "C119", "title": "Comparisons that answer with a sign", "statement": "Ordering is an integer type, so a Cmp method or comparison function may answer with any negative number for less, zero for equal and any positive number for greater (for example Ordering(a - b)): sorting, binary search, BinaryHeap, BTreeMap and Pair work with it as with one that answers OrderingLess, OrderingEqual and OrderingGreater.", "quantifier": "all element types, all comparison functions with integer answers, all contents, all heaps and maps", "why_tests_cant": "The answers are compared with == to three constants; every test uses comparisons that return the constants, and what another integer does depends on the container and on which elements meet.", "anchors": ["cmp.go: Ordering, OrderingLess, OrderingEqual, OrderingGreater", "vec.go: BinarySearch, BinarySearchBy, Sort, SortBy, SortUnstable, SortUnstableBy", "vec_deque.go: BinarySearch, BinarySearchBy, Sort, SortBy, SortUnstable, SortUnstableBy", "binary_heap.go: Push, Pop", "btree_map.go: Insert, Get, ContainsKey, Remove", "pair.go: Cmp"]}
{"id": "C120", "title": "Number of comparisons", "statement": "Pushing onto a BinaryHeap of n elements compares at most log2(n+1) times, Pop at most about 2 log2 n times, IntoSortedVec at most 2 n log2 n times, and a binary search of n elements at most log2 n + 1 times (an empty one never). This holds whatever the comparison answers and does, even if its answers are inconsistent, change from call to call, or it panics.", "quantifier": "all contents and lengths of the heap, vector or deque, all comparison functions with state, including inconsistent and panicking ones", "why_tests_cant": "A test counts the comparisons of one run on one input; the bounds are for every length, every arrangement and every comparison function, and inconsistent answers could keep a loop going.", "anchors": ["binary_heap.go: Push, Pop, IntoSortedVec", "vec.go: BinarySearch, BinarySearchBy", "vec_deque.go: BinarySearch, BinarySearchBy"]}
{"id": "C121", "title": "Memory of a VecDeque", "statement": "The cells of all the buffers a deque makes are at most a constant times the number of elements pushed or appended (so a push takes amortised constant time), and its capacity is at most twice the greatest length it has had, or what was asked for.", "quantifier": "all element types, all deques, all histories of calls, any number of pushes, pops, Clears, Reserves and Appends in any order", "why_tests_cant": "The cost of growing shows only in totals over long histories and in capacities that creep up; a test looks at a few capacities after a few calls.", "anchors": ["vec_deque.go: PushFront, PushBack, PopFront, PopBack, Clear, Reserve, Append, Capacity"]}
{"id": "C122", "title": "File functions in the background", "statement": "gokio.X(...).Await() has the effects and the result of gost.X(...). A Write started in the background writes the bytes its slice held at the call, and every background call takes place.", "quantifier": "all programs of one main goroutine that start, await and make file calls and change their byte slices, all file systems, all schedules of the goroutines, all failures and partial transfers the system may choose", "why_tests_cant": "The goroutine of a background call reads the caller's slice at an unknown later time and ends with the process; a test sees the one schedule in which it happens to run early.", "anchors": ["gokio/fs.go: CreateDir, RemoveDir, Write, RemoveFile, Rename, Read, ReadDir, Copy, ReadToString", "gokio/gokio.go: Spawn, Await", "fs.go: Write"]}
{"id": "C123", "title": "Hash container variables are values", "statement": "After w := v (or passing v to a function, or storing it in a struct), v and w are two HashMaps (HashSets) with the same contents: a call on one of them changes that one only.", "quantifier": "all programs with any number of HashMap and HashSet variables, assignments between them, method calls and functions of several sets, in any order, for all key types with an equivalence == and all iteration orders", "why_tests_cant": "Whether a change to one variable shows in another depends on the whole history of assignments and of calls of Clear before it; a test has one such history.", "anchors": ["hash_map.go: HashMap, Insert, Remove, Clear, Get, Len", "hash_set.go: HashSet, Insert, Remove, Clear, Union, Eq"]}
{"id": "C124", "title": "Stable sorting with a comparison of any kind", "statement": "Vec.Sort and Vec.SortBy come to an end whatever the comparison does - it may keep a state, contradict itself, change its mind between calls or panic - with no index out of range; the vector then holds exactly the elements it held before, also when the comparison panicked half way; the number of comparisons is at most 19n/2 + 2n*log2((n-1)/10). If the answers are those of a total preorder the result is the one stably sorted arrangement, whatever else the comparison does.", "quantifier": "all element types, all vectors of any length, all comparison functions with any state, in any initial state", "why_tests_cant": "A test has one comparison function; the property is about all of them, including those whose answers follow no order or change over time, and about the moment of a panic anywhere in the run.", "anchors": ["vec.go: Sort, SortBy", "go.mod: go 1.20 (sort.SliceStable)"]}
{"id": "C125", "title": "Unstable sorting with a comparison of any kind", "statement": "Vec.SortUnstable and Vec.SortUnstableBy come to an end whatever the comparison does - it may keep a state, contradict itself, answer differently when asked the same again, or panic - with no index out of range; the vector then holds exactly the elements it held before, also when the comparison panicked half way; at most 9*n*n comparisons are made. If the answers are those of a total preorder the result is in ascending order, whatever else the comparison does.", "quantifier": "all element types, all vectors of any length, all comparison functions with any state in any initial state, all positions chosen by the sort's pattern breaking", "why_tests_cant": "A test has one comparison function; the scans of the partition rely on its answers for staying inside the slice, and only a proof over all sequences of answers shows that they do so for every comparison.", "anchors": ["vec.go: SortUnstable, SortUnstableBy", "go.mod: go 1.20 (sort.Slice)"]}
{"id": "C126", "title": "Keys that cannot be hashed", "statement": "In a HashMap or HashSet whose key type is an interface (HashMap[any, V], allowed since Go 1.20), a call with a key that cannot be hashed - a slice, a map, a function - panics, on an empty container as on a full one, and changes nothing; after the panic is recovered every further call is answered as if that call had never been made. A slice with one such element makes HashSetFromSlice panic and yields no set; set algebra, Clone, Eq and iteration never panic because of keys that are in the containers, except that Clone panics when the Clone of a stored key cannot be hashed.", "quantifier": "all key types made of hashable and unhashable values, all histories of calls on a map and on any number of sets with any mixture of both, all iteration orders", "why_tests_cant": "Whether a panicking call left a trace shows only in the answers of later calls, of which there are endlessly many histories; the iteration order is random.", "anchors": ["hash_map.go: Insert, Remove, Get, ContainsKey, Clone, Eq", "hash_set.go: Insert, Remove, Contains, Get, HashSetFromSlice, Union, Intersection, SymmetricDifference, IsSubset, IsSuperset, IsDisjoint, Clone, Eq", "go.mod: go 1.20"]}
{"id": "C127", "title": "Sorting a deque with a comparison of any kind", "statement": "VecDeque.Sort, SortBy, SortUnstable and SortUnstableBy come to an end whatever the comparison does - it may keep a state, contradict itself, answer differently when asked the same again, or panic - with no index out of range; the deque then holds exactly the elements it held before, also when the comparison panicked half way, and its length and capacity are unchanged; the number of comparisons is bounded as for vectors. If the answers are those of a total preorder the deque is in ascending order.", "quantifier": "all element types, all deques in all layouts of the ring buffer, all comparison functions with any state in any initial state", "why_tests_cant": "The combination of a layout of the ring and a comparison that misbehaves at some call is unbounded; a test has one of each.", "anchors": ["vec_deque.go: Sort, SortBy, SortUnstable, SortUnstableBy, AsSlice"]}
{"id": "C128", "title": "Functions given to iterator methods may use the container", "statement": "While Map, Filter or Fold of a Vec's, LinkedList's or VecDeque's iterator runs, the function given to it may call any method of any such container, the iterated one among them: it is called exactly on the elements the container had when the iterator was made, in order, and the method ends.", "quantifier": "all reachable vectors, lists and deques, all functions with a state of their own that make any number of calls depending on the answers of earlier ones", "why_tests_cant": "What the function is called on depends on everything it did to the container, and to storage shared with it, in all earlier calls.", "anchors": ["vec.go: VecIter.Map, VecIter.Filter, VecIter.Fold, VecIter.Next, IntoIter", "linked_list.go: LinkedListIter.Map, LinkedListIter.Filter, LinkedListIter.Fold, LinkedListIter.Next", "vec_deque.go: VecDequeIter.Map, VecDequeIter.Filter, VecDequeIter.Fold"]}

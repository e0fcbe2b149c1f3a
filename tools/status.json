{
"C01": {"status": "proved", "note": "All ten types."},
"C02": {"status": "proved", "note": "All ten types."},
"C03": {"status": "proved", "note": "All ten types, including the Assign forms."},
"C04": {"status": "partial", "note": "False for the signed types (refuted): I8..I64 also refuse when a+b overflows, ISize uses 32-bit bounds. Soundness for all types and exactness for unsigned types are proved, and the exact behaviour of the signed versions is characterised."},
"C05": {"status": "partial", "note": "False for ISize (refuted, 32-bit bounds); proved for the nine other types; ISize characterised."},
"C06": {"status": "partial", "note": "False for signed types (sign-mixed and zero products refused) and USize (32-bit bound); soundness for all types and exactness for U8..U64 proved; rest characterised."},
"C07": {"status": "partial", "note": "False for signed types and USize; proved for U8..U64 and for positive operands of signed types; rest characterised."},
"C08": {"status": "partial", "note": "Mul proved for all types; WrappingMul false for ISize (top bit flipped, refuted and characterised), proved for the others."},
"C09": {"status": "proved", "note": "All ten types."},
"C10": {"status": "partial", "note": "Rem proved; CheckedRem false when an operand is negative (refuted), proved for non-negative operands and characterised."},
"C100": {"status": "partial", "note": "False of the code: the buffer is replaced and only the first word is read. Exact behaviour characterised; the documented one proved for an empty buffer and one-word lines."},
"C101": {"status": "proved", "note": "Through C30."},
"C102": {"status": "proved", "note": "Consequences of the simulation of all histories (C54_all_histories_characterised); the order need not be lawful."},
"C103": {"status": "partial", "note": "Accuracy for all finite Complex64 and for Complex128 parts that are zero or between 2^-300 and 2^300; it is false for extreme Complex128 parts (largest number over itself has a NaN part). Special values, real and imaginary divisors and Complex64 as rounded Complex128 hold in all cases."},
"C104": {"status": "proved", "note": "Every operator and every primitive type; frame condition; own operand; swap."},
"C105": {"status": "partial", "note": "False of the code: AsRef takes the address of a copy of its receiver. What happens instead is proved for all programs over variables, and for vectors, deques, linked lists, hash maps and B-tree maps what the copy shares and what it does not (for deques see also C112). For B-tree maps this holds after any history, for any function as Cmp and any operation through the reference (C105_btree_characterised)."},
"C106": {"status": "partial", "note": "False of the code: nothing is deferred in Spawn, so after a panic the process dies and after Goexit Join hangs. Proved for all programs and schedules: a function ends once; no Join on the handle ever returns and IsFinished answers false; Await returns the zero value, within three steps; a panic ends the process within two steps of its goroutine; a mutex the goroutine was inside is never handed out again; Goexit by itself ends nothing else."},
"C107": {"status": "partial", "note": "False of Vec, VecDeque and LinkedList, whose iterators read the shared storage (C107_vec_refuted, C107_deque_refuted, C107_list_refuted), and of Vecs collected from map iterators (C107_map_collected). Proved for all programs: the exact answers of list iterators (C107_list_characterised; pushing in the loop never ends, C107_list_endless), the number of elements of Vec and VecDeque iterators (…_number), the property itself for programs that leave the elements in place (…_calm_partial), and iterators as live places for programs that do not resize (…_characterised); map and set iterators are snapshots (C107_map)."},
"C108": {"status": "partial", "note": "False: a panicking predicate leaves VecDeque.Retain with elements lost and doubled (C108_deque_retain_refuted), a panicking Cmp leaves a heap after Push that pops in the wrong order and makes Pop lose the greatest element (C108_heap_refuted), and leaves a B-tree leaf with an entry twice (C108_leaf_refuted). Proved for all contents and functions: Vec.Retain and DedupByKey change nothing on a panic, sorts and heap Push lose nothing, and the exact state left by every one of these methods (…_characterised)."},
"C109": {"status": "partial", "note": "False: the struct holds the lock and a pointer to the value, so a copy has a lock of its own for the same value (C109_refuted: two inside, an update lost). Proved for all histories: at most as many goroutines are inside as there are copies (C109_crowd_characterised, sharp by C109_crowd_sharp); exclusion for mutexes that are not copied and for each variable (…_partial); all copies give the pointer to the one value (C109_pointers); a copy made while the mutex is held is locked for ever (C109_copied_while_held)."},
"C11": {"status": "proved", "note": ""},
"C110": {"status": "partial", "note": "False of HashMap, HashSet, VecDeque, Mutex and Result: the first Insert or push on a declared variable panics, a declared Mutex gives nil pointers, a declared Result is neither Ok nor Err (C110_refuted, witnesses). The exact behaviour is proved for every history. The zero Vec, BinaryHeap, LinkedList, BTreeMap, BTreeSet and Option are what the constructors make (C110_others_partial)."},
"C111": {"status": "partial", "note": "False of the code: Filter, Or, OrElse and Xor return a struct that shares the cell of the value (C111_refuted). The answers of every program are those of the tag calculus (C111_characterised); options are values in programs without writes through references and in programs without such derivations."},
"C112": {"status": "partial", "note": "False of the code: a copy shares the buffer until one of the two replaces it (C112_refuted). The answers of every program are those of windows on shared circles of cells (C112_characterised, C112_always_contents); without copies every variable is a deque of its own (C112_without_copies_partial)."},
"C113": {"status": "partial", "note": "False of the code in four ways: Vec.Retain and Vec.DedupByKey drop what the closure pushes to the vector; a closure that looks at the deque during Retain sees accepted elements already moved to the front; a closure that pushes to the container makes VecDeque.Retain and both FillWith endless; the result of Vec.FillWith with a closure that pops depends on an order of evaluation that Go leaves open. Proved: Vec.Retain and Vec.DedupByKey for every closure (number of calls, result, panics), exactly for closures that do not write the elements in place; Vec.FillWith exactly for every closure when the slice is read after the call, and for looking closures in any order; VecDeque.Retain and FillWith for closures that only look, and for any closure that keeps the deque at least as long as the part already written. Missing: deque closures that shrink the deque below that, Vec.FillWith with changing closures when the slice is read before the call."},
"C114": {"status": "proved", "note": "Heaps from any contents by any comparison (C114_heap, C114_heap_pop); programs over B-tree maps and sets (C114_btree_terminates, and the exact answers in C54/C58/C81_all_histories_characterised, now without a law for Cmp). Cmp is a pure total function here; panicking functions are C108."},
"C115": {"status": "proved", "note": "all byte strings; case mappings are a parameter, as for C87; after the strings package of Go 1.20, whose Split at the empty string slices stray bytes individually (older releases replaced them)"},
"C116": {"status": "proved", "note": "all programs, all total preorders; heaps that share an array (through IntoVec or AsSlice) are not in it"},
"C117": {"status": "proved", "note": "The algorithms of sort.SliceStable and sort.Slice in Go 1.20 are modelled from that release; their source is not in the repository. The comparison is a function of its two arguments (no state of its own)."},
"C118": {"status": "partial", "note": "False of the code: a copy shares nodes with its original. Proved: exact answers of all programs with read-only copies; values when only the fronts change or the original is dropped; every program ends unless Append joins relatives; Append of a copy never ends walking."},
"C119": {"status": "partial", "note": "False of the code: answers are compared with == to the three constants. Refuted by comparison by subtraction; every container is characterised for all integer answers (BTreeMap for every history, by the machine of C54 with its reading of other integers, provided a key compared with itself gets one of the three constants). Sorting and BinaryHeap work by sign when every negative answer is -1; searches and BTreeMap when every answer is one of the three constants; Pair.Cmp always."},
"C12": {"status": "proved", "note": ""},
"C120": {"status": "proved", "note": "bounds on the number of calls for every stateful, inconsistent or panicking comparison function; the number of comparisons of the sorting functions (Go sort) is not bounded here"},
"C121": {"status": "partial", "note": "false with Append (and Reserve), which enlarge the buffer without looking at the room there is (refuted for every number of rounds, exact capacities characterised); proved for every history without them"},
"C122": {"status": "partial", "note": "false when the slice is changed before the goroutine has read it (also mixtures, C122_captured_refuted) and when main returns first (C122_forgotten_refuted); proved when awaited at once, and for slices left alone until the answer; bytes written characterised in general"},
"C123": {"status": "partial", "note": "false of the code: an assignment copies the reference to the Go map, so both variables change together (C123_refuted); C123_map_characterised and C123_set_characterised describe all programs; values for careful programs"},
"C124": {"status": "proved", "note": "Stable sorting with a stateful, inconsistent or panicking comparison: ends, in range, permutation, number of comparisons; sorted for a preorder."},
"C125": {"status": "proved", "note": "Unstable sorting with a stateful, inconsistent or panicking comparison: ends, in range, permutation, number of comparisons; ascending for a preorder."},
"C126": {"status": "proved", "note": "Histories of a HashMap (C126_map) and of any number of HashSets (C126_sets) in which panics are recovered; Clone and Eq of maps (C126_clone, C126_eq). == is an equivalence on the hashable values; the rule that a lookup in an empty map panics too is that of the Go runtime."},
"C127": {"status": "partial", "note": "False of the code: the sorts work on the first Len cells of the buffer, which are not the elements once the front has moved (C127_refuted). For every deque and every comparison these cells are rearranged and nothing else changes (C127_characterised), with the bounds of C124 and C125 (C127_comparisons). The claim holds with the front at cell 0 or a full buffer (C127_kept_partial), sorted with the front at cell 0 (C127_sorted_partial)."},
"C128": {"status": "partial", "note": "False when the function writes elements of the vector in place (C128_refuted), and for lists when it pushes at the back: Fold, Map and Filter then never end (C128_list_endless, C128_list_map_endless, C128_list_filter_endless). C128_fold_partial, C128_map_partial, C128_filter_partial: for every function the method ends and calls it once per element the vector had; on exactly those elements, in order, for functions that do not write them in place. C128_fold_characterised: for functions that do not resize the vector, Fold sees what is at each place at the time of the call. C128_list_fold_characterised, C128_list_map_characterised, C128_list_filter_characterised: exactly which calls are made for a list; C128_list_fold_partial, C128_list_map_partial, C128_list_filter_partial: the elements the list had, for functions that leave the backs of the lists alone. For a deque: C128_deque_refuted; C128_deque_fold_partial, C128_deque_map_partial, C128_deque_filter_partial for calls that leave the deque's elements alone; C128_deque_fold_characterised, C128_deque_map_characterised, C128_deque_filter_characterised for functions that do not resize it."},
"C13": {"status": "partial", "note": "False: the receiver is used as shift count (refuted for every type); exact behaviour characterised."},
"C14": {"status": "proved", "note": "Add, Sub, Mul for all U128 values."},
"C15": {"status": "proved", "note": "Div, Rem and the division identity; zero divisor panics."},
"C16": {"status": "proved", "note": "Add, FromI64, FromU64, Cmp of both 128-bit types."},
"C17": {"status": "partial", "note": "False (refuted): Neg mishandles the carry when the low 64 bits are all zeros or all ones. Correct exactly outside those inputs (iff theorem); Sub, Mul, Abs likewise; IsPositive tests only the high word (characterised); IsNegative proved."},
"C18": {"status": "partial", "note": "Non-negative operands fully proved. For other signs the quotient is proved when nothing awkward is negated; the remainder takes the sign of the product of the signs, so the identity is false (refuted); a zero divisor can return 0 (refuted)."},
"C19": {"status": "partial", "note": "Shift by one proved for both types; other counts false (refuted) and characterised exactly."},
"C20": {"status": "partial", "note": "Proved for I8..I64, ISize, U8..U64, U128 and USize up to 2^63-1; USize above that prints a negative number and awkward negative I128 values print wrongly (refuted and characterised)."},
"C21": {"status": "partial", "note": "ParseI64 exact and inverse of ToString; ParseU64 rejects values from 2^63 and accepts negative text (refuted and characterised)."},
"C22": {"status": "proved", "note": ""},
"C23": {"status": "proved", "note": ""},
"C24": {"status": "proved", "note": ""},
"C25": {"status": "proved", "note": "All built-in scalar types except the floats, which are C69."},
"C26": {"status": "proved", "note": ""},
"C27": {"status": "partial", "note": "False in two places (refuted): And/AndThen of None answer Some(nil), Replace on None stores nothing. Everything else proved, with closures of arbitrary effects; the pointer methods are proved over an explicit heap. GetOrInsertWith also with a function that changes the options, the receiver among them (C27_get_or_insert_with_shared)."},
"C28": {"status": "proved", "note": "For results made by Ok or by Err of a non-nil error, as the property says; Err(nil) is characterised separately (neither Ok nor Err)."},
"C29": {"status": "partial", "note": "False when two conditions hold (refuted): every true branch runs and the last wins, which is proved as an exact characterisation. Proved when at most one condition is true."},
"C30": {"status": "proved", "note": "For all well-formed templates; one malformed template is shown to misbehave."},
"C31": {"status": "proved", "note": ""},
"C32": {"status": "partial", "note": "UTF-8 round trip proved. StringFromUTF16 is false (reads every other code unit, never errs): refuted and characterised."},
"C33": {"status": "proved", "note": "Refinement of any history over any number of vectors, on a memory of backing arrays with arbitrary growth; panics characterised."},
"C34": {"status": "partial", "note": "False: Reserve lengthens the vector with zero values when it has to grow, and does nothing when len+additional overflows (both refuted). Exact behaviour characterised; what remains true is proved."},
"C35": {"status": "partial", "note": "All proved except DedupByKey, which removes every later element with an already seen key and not only consecutive ones (refuted, characterised, right when equal keys are adjacent)."},
"C36": {"status": "proved", "note": "The library sorts are represented by their contracts; the stable result is shown to be unique."},
"C37": {"status": "proved", "note": "Also termination and absence of panics on unsorted vectors."},
"C38": {"status": "proved", "note": "Storage modelled as backing arrays; histories with clones in C33_history. Copying a Vec by Go assignment shares storage (C38_struct_copy_shares)."},
"C39": {"status": "partial", "note": "Rev on an iterator that has already advanced yields zero values first (refuted, characterised); everything else proved."},
"C40": {"status": "proved", "note": "Any total preorder; any history from New, WithCapacity or WithLen."},
"C41": {"status": "proved", "note": "For every heap reachable from New."},
"C42": {"status": "partial", "note": "False: other keeps its elements, and when self's capacity is below 2*len+other.len the Reserve call inserts zero values and breaks the heap order (refuted, characterised). The union property is proved when the capacity suffices. A heap appended to itself need not be doubled: with spare capacity elements that a push has moved are read again (refuted, characterised)."},
"C43": {"status": "proved", "note": "All histories from New, WithCapacity and WithLen, within memory; Swap with a position past the end exposes a dead cell (characterised)."},
"C44": {"status": "proved", "note": "All layouts; the exact memory conditions are characterised, including Reserve's wrap-around."},
"C45": {"status": "proved", "note": "All layouts and effectful closures; appending a non-empty deque to itself never returns (outside the property: proved separately)."},
"C46": {"status": "partial", "note": "False once the front has been used (refuted): the three act on buffer cells 0..len-1 (characterised). Proved after histories that use the back only."},
"C47": {"status": "partial", "note": "Next proved; the combinators restart from the front whatever the position and Rev always panics (refuted, characterised). Fresh iterators without Rev are proved."},
"C48": {"status": "proved", "note": "All histories of any number of lists sharing one heap."},
"C49": {"status": "proved", "note": "Any heap, with a frame for every third list; appending a list to itself empties it (characterised, outside the property)."},
"C50": {"status": "partial", "note": "Everything but Rev is proved, for effectful closures and any position; Rev keeps the order (refuted, characterised)."},
"C51": {"status": "proved", "note": "Any history against an abstract finite map, for every reflexive key equality and every iteration order; NaN keys characterised."},
"C52": {"status": "proved", "note": "Permutation, Next, and order-independent Eq; values without Eq characterised."},
"C53": {"status": "proved", "note": "Histories over any number of sets refine mathematical sets, whatever the orders."},
"C54": {"status": "partial", "note": "False in general (C54_refuted: the twelfth of twelve ascending keys is lost). What the map answers to every history whatsoever, and when it panics, is characterised by a machine of at most two levels, for any function as Cmp (C54_all_histories_characterised). As an ordered map it is right for every gentle history (no Remove; at most 21 keys, a key beyond eleven is below the eleventh), in particular for any history on at most eleven keys; every map of eleven keys loses a twelfth greater key (characterised); no history invents an entry."},
"C55": {"status": "partial", "note": "False in general (C55_refuted: wrong returned value, the greatest key stays, Len underflows). Exact slot machine for maps of one node (C55_characterised) and for all maps (C54_all_histories_characterised); C55_partial: right but for the returned value when the greatest key is not removed."},
"C56": {"status": "partial", "note": "False in general (C56_refuted: thirteen entries after twelve ascending insertions). Proved after every gentle history; the listings after every history are characterised (C54_all_histories_characterised)."},
"C57": {"status": "partial", "note": "False (C57_refuted, C57_characterised: insertions of different keys succeed exactly up to 21; C54_all_histories_characterised: when they panic in any history). Any 21 insertions succeed."},
"C58": {"status": "partial", "note": "False for empty operands, beyond eleven elements and for Remove of the greatest of several elements (C58_refuted, C58_empty_characterised, C58_remove_refuted). What every program over any number of sets answers, and when it panics, is characterised for any function as Cmp (C58_all_histories_characterised). It is right for histories of one set without those (C58_history_partial), and for the algebra of non-empty operands built by gentle insertions with results of at most eleven elements."},
"C59": {"status": "partial", "note": "False: Clone never returns a copy (C59_refuted, C59_characterised; C59_all_histories_characterised after every program: it panics on a set without nodes, otherwise takes the first element for ever)."},
"C60": {"status": "proved", "note": "All programs, schedules and numbers of goroutines. Mutual exclusion, private and shared pointers, reads see the last write and freedom from fatal errors for every program that touches the value only while inside; the final value of any number of workers with any jobs is a sequential order of all of them; no deadlock. Go runtime operations (sync.Mutex) by their documented semantics; panics inside goroutines not modelled."},
"C61": {"status": "partial", "note": "False as stated: Go allows TryLock to fail on a free mutex (witness). Proved: Err while held; never blocks; exact if the runtime does not fail spuriously; Unlock of a mutex not handed out is fatal and nothing else is."},
"C62": {"status": "proved", "note": "Join returns only after the function behind that handle finished; a waiting Join on a finished, unused handle can return in two steps. All programs and schedules."},
"C63": {"status": "partial", "note": "False: IsFinished consumes the message (witness true then false). Characterised for all programs and schedules: at most one success of Join/IsFinished per handle, so Join never returns after a true IsFinished. Proved part: true only after the end, never blocks, becomes true."},
"C64": {"status": "partial", "note": "False: the second Await returns the zero value (witness). Characterised for all programs and schedules: the first Await returns the computed value after it was computed, all others the zero value; no Await on a finished future waits for ever."},
"C65": {"status": "partial", "note": "False: one read(2) may return fewer bytes and the rest is returned as zeros (C65_read_refuted); another hard link of the file changes too (C65_others_refuted). C65_read_characterised: every possible result of reading back. C65_round_trip_partial: after Ok the file holds the data, a full read returns it, paths leading elsewhere are untouched. Missing: the part that is false."},
"C66": {"status": "partial", "note": "False: os.Create truncates first (C66_atomic_refuted); every prefix of the data can be left (C66_any_prefix) and nothing else (C66_crash_characterised, at every moment and for all failures)."},
"C67": {"status": "partial", "note": "False in all parts: Copy is a hard link. Existing target: always Err, nothing changed (C67_overwrite_refuted); later writes are always shared (C67_independent_refuted); a copied symbolic link may lead elsewhere (C67_contents_refuted). C67_copy_characterised: exact effect; C67_contents_partial: right after success both names have the contents."},
"C68": {"status": "partial", "note": "False: as many blank entries as names come first (C68_count_refuted), no entry is ever a directory or symlink (C68_type_refuted, C68_type_characterised), with \"..\" the path may name something else (C68_path_refuted). C68_readdir_characterised: exact result; C68_entries_partial: the rest are exactly the entries in order, with paths that name them."},
"C69": {"status": "partial", "note": "False with NaN (refuted, NaN behaviour characterised); total order by numeric value proved for every other binary32/binary64 value."},
"C70": {"status": "proved", "note": ""},
"C71": {"status": "partial", "note": "Panic conditions and default messages proved; a custom message is expanded with itself as first argument (refuted), proved right for messages without placeholders."},
"C72": {"status": "partial", "note": "True of Map, Filter, Fold and CollectToLinkedList. Rev and CollectToVec are wrong on an iterator that has been advanced (refuted, exact behaviour characterised)."},
"C73": {"status": "proved", "note": "Clone and Display for every order; missing Clone characterised."},
"C74": {"status": "proved", "note": "For arbitrary interleavings, including those with removals and splits."},
"C75": {"status": "partial", "note": "False for two names of one file (C75_rename_refuted) and when the new path leads through what is moved (C75_path_refuted). C75_rename_characterised: exact effect on all directory entries, contents and parents, for all paths; C75_rename_partial: the full statement for two names in the current directory."},
"C76": {"status": "partial", "note": "False: both call os.Remove (C76_kind_refuted). C76_remove_characterised: exact effect; C76_nonempty_partial: a non-empty directory is never removed."},
"C77": {"status": "proved", "note": "All states, paths, failures; with C77_exists and C77_succeeds; C77_strip, C77_trailing_slashes and C77_root say what slashes at the end mean."},
"C78": {"status": "partial", "note": "False for two writers to one file (C78_same_file_refuted). True for any number of writers to different existing files (C78_writers_partial) and to different files or free names, some of which fail (C78_creating_writers_partial): any interleaving, any failures, any moment."},
"C79": {"status": "partial", "note": "False for Write (C79_write_refuted, C79_write_characterised); proved for all others (C79_failed_partial)."},
"C80": {"status": "partial", "note": "Proved for Next, Map, Filter, Fold and CollectToLinkedList, with arbitrary closures, and for closures that use the iterator (termination). False in two places: Rev and CollectToVec on an advanced iterator (C80_value_receivers_characterised), and Map, Filter, Fold exhaust the iterator of a map but not that of a set (C80_receiver_refuted). What the iterators start with is characterised after every program over maps or sets (C80_all_histories_characterised); it is the ascending entries after gentle histories (C80_partial)."},
"C81": {"status": "partial", "note": "False beyond eleven keys (C81_refuted: a map is not equal to itself, Display leaves a key out) and for the empty set, whose Display panics. Characterised for any function as Cmp and every program over any number of maps (C81_all_histories_characterised) or sets (C58_all_histories_characterised); right for gentle histories."},
"C82": {"status": "proved", "note": "First occurrence for arbitrary bytes, and on characters for UTF-8."},
"C83": {"status": "proved", "note": "Non-empty and empty separators; the cut is unique."},
"C84": {"status": "proved", "note": "Exact for every old and new text."},
"C85": {"status": "partial", "note": "False for the empty string with n from 2^63 on, which panics; exact for all strings and all n."},
"C86": {"status": "proved", "note": "For all UTF-8 texts."},
"C87": {"status": "proved", "note": "For every mapping that agrees with ASCII; the Unicode tables themselves are a parameter."},
"C88": {"status": "proved", "note": "For every number of both formats; package math after its documentation. The documented example Frac(3.7) = 0.7 is false, as C88_documented_fraction shows."},
"C89": {"status": "proved", "note": "Rounding is specified against exact rationals, independently of the algorithm."},
"C90": {"status": "proved", "note": "Includes the double rounding of F32."},
"C91": {"status": "proved", "note": "For every implementation of the functions of package math."},
"C92": {"status": "proved", "note": "Division is not modelled (a call of the Go run time). The theorem on Complex64 products covers finite parts."},
"C93": {"status": "proved", "note": "all byte strings: decimal and hexadecimal numerals, names, underscores, everything else; the cap strconv puts on exponents is visible only in texts over 9000 bytes (hexadecimal: 2000), which are included if the exponent has at most five digits"},
"C94": {"status": "proved", "note": "every F64"},
"C95": {"status": "proved", "note": "shortest and nearest text for both formats; complex text from its parts"},
"C96": {"status": "proved", "note": "Display of values of any nesting, with the exact panic condition."},
"C97": {"status": "partial", "note": "Proved for every type built from the integer types, U128, F32, F64, Byte, Char, Bool by Option, sequences and maps; false with String elements, Err and I128 (witnesses)."},
"C98": {"status": "proved", "note": "Debug names and texts of all primitive types; also shown: a Char is printed as its number."},
"C99": {"status": "partial", "note": "The text is as stated; but Pair.Display returns string, not String, so Format and containers panic on a Pair (proved for all contexts)."}
}

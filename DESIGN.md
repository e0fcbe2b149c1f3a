# Formal model of myyrakle/gost in Rocq (Coq 8.16.1)

Source under study: `/repo` (Go, package `gost` and `gost/gokio`), read as text only.
(One Coq run was started from inside `/repo` and left three cache files there, `.lia.cache`,
`.nia.cache` and `.nra.cache`; they have been removed. No file of the project was touched.)

## 1. Method

* The model is a set of total, computable Gallina functions, one per Go function
  (or one per family of textually identical Go functions; the comment lists every
  line range).  Each definition's comment cites the file and lines it models and
  says what was simplified.
* Go panics are a value (`Panic`), non-termination is a value (`Diverge`, returned
  when the fuel of a loop with no structural bound is exhausted; theorems either
  exclude it or say it is the outcome for *every* fuel).
* Machine integers are `Z` with an explicit wrap to the width after every operation.
* Slices/buffers are lists with checked indexing (out of range = `Panic`).  Where
  aliasing matters (Vec storage, linked-list nodes, B-tree nodes, inodes) there is an
  explicit heap.
* Goroutines are transition systems; theorems quantify over all reachable states
  or all executions.
* Ord/Eq/Clone/Display methods of element types are parameters; theorems quantify
  over them and assume only the law the English property assumes.
* Go's randomised map iteration order, `append` growth policy, unstable sort and OS
  short reads are universally quantified oracles.

* The repository's own unit tests are used as tests of the model's fidelity:
  `tools/repo_tests.py` and `tools/repo_set_tests.py` translate the assertions of
  ops_test.go, bitwise_test.go, float_test.go, hash_set_test.go and btree_set_test.go
  into equations that Coq computes (`RepoTests.v`, `RepoSetTests.v`).  They are tests,
  no claim rests on them.

Where the faithful model shows the property to be false of the code, we prove
`..._refuted` (a concrete witness reached through the public API), usually also an
exact, universally quantified description of what the code really does, and the
strongest true part under a `_partial` name.

## 2. Plan per property

| Id | Model (`rocq/theories/`) | Proof idea |
|----|-------|-----------|
| C01-C12 | `IntModel.v`: type tag `ity` (10 types), wrap, each method | case split on type, linear/non-linear arithmetic; `Pow` by strong induction on the exponent |
| C13 | same file | refutation: the shift count is the receiver, exact characterisation |
| C14-C19 | `Int128Model.v`: records of two words | value function into Z, modular arithmetic; `Mul` loop by induction on the multiplier; decimal round-trip for `Div`/`Rem` |
| C20, C21 | `DecimalModel.v`: Itoa/FormatUint/Atoi/big.Int text | induction on digits |
| C22-C24 | `TimeModel.v` | arithmetic; decimal round trip for the text given to ParseDuration |
| C25, C26, C69 | `CmpModel.v`; floats through the standard library's `SpecFloat` | order laws by cases; NaN refutation |
| C27-C29, C70 | `OptionModel.v` (option.go, result.go, syntax.go; pointers over a heap) | cases, list induction on chains |
| C30-C32, C71 | `StringModel.v`: UTF-8, Format's rune state machine, assertions | induction on template pieces, encode/decode round trip |
| C33-C39 | `VecModel.v`: arrays in a memory, slices as (array, len, cap) | simulation of histories, separation invariants, induction |
| C40-C42 | `HeapModel.v` | heap-order invariant + permutation |
| C43-C47 | `DequeModel.v`: ring buffer | refinement to lists over all histories |
| C48-C50 | `ListModel.v`: node heap | doubly-linked segment invariant, refinement |
| C51-C53, C72, C73 | `HashModel.v`: Go map with order oracle | refinement, permutations |
| C54-C59, C74, C81 | `BTreeModel.v`: node heap | refinement to a one-node machine and to the two-level trees that insertion makes, exact failure theorems, separation of two maps |
| C54-C57, C102 | `BTreeTreeSpec.v`: the machine with one or two levels that the map is for every history | simulation: every operation on the node heap is a step of the machine, or a panic when the machine has none |
| C58, C59, C80, C81 | `BTreeProgModel.v`: programs over any number of map or set variables in one heap of nodes, with Eq, Display, comparisons and the set algebra | each variable is a machine of its own; its nodes belong to it alone, so that a step on one variable leaves the others as they are |
| C80 | `BTreeIterModel.v`: the iterator in the state | induction on what is left |
| C60-C64 | `SyncModel.v`: transition systems | inductive invariants over all schedules |
| C106 | `SyncModel.v`: a goroutine's function may return, panic or call runtime.Goexit; deferred calls run | refuted by a witness; what Join, IsFinished, Await and mutexes do instead proved for all programs and schedules |
| C65-C68, C75-C79 | `OsModel.v` (POSIX environment: inodes, hard and symbolic links, open files), `FsModel.v` (fs.go as programs over system calls) | induction over path resolution; every moment of a run; all failures and short transfers |
| C82-C87 | `StringSearchModel.v`: string.go's search and conversion methods over package strings | first occurrence, a relational cut, self-synchronisation of UTF-8, uniqueness of the trimmed text |
| C88-C92 | `FloatModel.v`: float.go and the float and complex part of ops.go over `SpecFloat` | rounding characterised against exact rationals (`FloatSpec.v`); round-to-odd style argument for the double rounding of F32.Sqrt; transcendental functions are a parameter |
| C103 | `ComplexModel.v`: the run time's complex128div (Smith's algorithm and C99's corrections for infinities and NaN) over `SpecFloat` | error analysis over exact rationals (`ComplexSpec.v`: distance from the exact parts relative to the absolute value of the quotient); special values by cases |
| C104 | `VarModel.v`: a memory of variables of every primitive type, pointers are indices | for every operator and memory: equality with the value method and a frame condition (`VarSpec.v`: only_changed) |
| C105 | `VarModel.v`: AsRef takes the address of a copy; programs over variables; Vec headers over shared arrays, VecDeque headers over a shared buffer, LinkedList headers and BTreeMap roots over shared nodes, HashMap structs over shared Go maps | refuted by a witness; what really happens proved for all programs (frame lemma by induction), all vectors, deques, lists, B-tree maps after any history (`BTreeShareSpec.v`) and interleaved map histories |
| C107 | `IterShareModel.v`: iterators as copies of slice headers and deque structs over shared storage, as pointers to list nodes, and as Vecs of their own | refuted by witnesses; for every program the exact answers (lists), the number of elements (Vec, VecDeque), the answers of programs that leave the iterated elements alone, and of programs that do not resize; invariants relating each iterator to the containers, by induction on the program |
| C108 | `PanicModel.v`: the methods that call user's functions, in a monad that keeps the state at a panic; user's functions have a state of their own and may panic in any call; sorting is any program of less and swap | refuted by witnesses (VecDeque.Retain, heap Push and Pop, B-tree leaf); for every function and contents the exact state left (Vec, VecDeque, Option, B-tree leaf), nothing lost by sorts and Push, one element lost by Pop, the heap order broken around one place at most; by induction on the loops |
| C109 | `MutexCopyModel.v`: Mutex variables with a lock bit each and a pointer to a shared value; histories of operations that take effect one at a time | refuted by a history; for every history the number of goroutines inside a value is at most the number of its copies (and that is sharp), copies made while the mutex is held are locked for ever, exclusion without copies; invariants by induction on the history |
| C110 | `ZeroModel.v`: nil maps (reading is allowed, storing panics), a deque without a buffer with the pushes in pieces, a mutex with a nil pointer, zero structs; histories in which panics are recovered | refuted by first insertions; exact behaviour for every history of HashMap, of any number of HashSets (simulation by the ordinary sets without the refused calls) and of VecDeque (split at the first Clear or Reserve), of Mutex and Result; the other zero values equal the constructor's result |
| C111 | `OptShareModel.v`: programs over Option variables that are pointers to cells, with the combinators again over the heap of `OptionModel.v` | refuted by a filtered option that is written to; a calculus of tags (`OptShareSpec.v`) gives the answers of every program (simulation); programs without writes through references, and programs without derivations, agree with options as values |
| C112 | `DequeShareModel.v`: programs over VecDeque variables that are headers over a heap of buffers; a call writes its buffer in place unless the method has made a new one | refuted by Set through a copy; windows on circles of cells (`DequeShareSpec.v`) give the answers of every program (simulation up to a rotation of each buffer; frame lemma: no call writes outside its window); every window always has contents; without copies the variables are deques of their own |
| C113 | `ReenterModel.v`: Retain, DedupByKey and FillWith with closures that are trees of calls (the next call depends on earlier answers) on the same container; Vec over the heap of arrays, the deque loops with fuel because they read the length again in each round. Go does not say whether `self.data` in `self.data[i] = f()` of Vec.FillWith is read before or after the closure has run: a parameter `late` (a choice for each place) says so | refuted three times: Vec.Retain loses what the closure pushes, a closure that looks at a deque sees accepted elements already moved, a closure that pushes to the deque keeps Retain and FillWith from ending; Vec.Retain described for every closure, exactly for those that do not write its elements in place; Vec.DedupByKey likewise with its key function, for every transitive equality of keys (its loop is the Retain loop with a predicate that remembers keys); Vec.FillWith described exactly by `vfilling` on lists for every closure when the slice is read after the call (returns, panics, does not end), for closures that never resize the vector (they may write to it and do anything to others) whatever the order, with an end after one round per element, and shown to depend on the order for a closure that pops; the deque loops described by `retaining`/`filling` (simulation), for looking closures in full |
| C114 | `AnyCmpModel.v`: histories of a BinaryHeap (`HeapModel.v`) with assignments through AsSlice; the programs over B-trees of `BTreeProgModel.v`; the comparison is any (total, pure) function | heap: every loop permutes, by induction; a bag is the specification (`AnyCmpSpec.v`); B-trees: the simulation of all histories (C54, C58, C81) needs no law of the order, so the machine's answers, panics and termination hold for every comparison |
| C115 | `StringModel.v`, `StringSearchModel.v`: DecodeRune, DecodeLastRune and the loops over them | the reading is an independent relation over the definition of UTF-8 (`IllFormedSpec.v`), shown to exist and to be unique; a character that stands anywhere in the bytes is a piece of the reading, so decoding from the right agrees with decoding from the left |
| C116, C42 | `HeapSystemModel.v`: programs over several BinaryHeaps (`HeapModel.v`), with Reserve, Append and capacities; `heap.Append(&heap)`, whose range loop reads the array that its pushes rearrange until one of them reallocates | simulation: each heap is a bag with a capacity and a flag that it is in order (`HeapSystemSpec.v`); what append may allocate is any amount. Append to itself is refuted as a doubling and characterised |
| C117 | `StableSortModel.v`, `PdqSortModel.v`: the algorithms of sort.SliceStable and sort.Slice in Go 1.20 (blocks and SymMerge; pdqsort with its heap sort, partitions, partial insertion sort and pattern breaking), with a comparison that may panic; `SortLibModel.v`: the eight sorting methods over them | for any comparison: every loop ends, and each step is a swap. For a total preorder: merging split at any point where the halves are separated, so symMerge is the stable merge; ranges sorted below and above a pivot, heap order. What is proved here is the contract under which C36 and C46 model the methods |
| C118 | `ListShareModel.v`: programs with copies of LinkedList variables (`ListModel.v`): the struct is copied, the nodes are shared | refuted by PushBack after a copy. Copies that are only read: places that move with the calls (`ListShareSpec.v`, simulation over C107's places) give the answers of every program. The property holds while the calls leave the backs alone, and when the original is not used any more (frame argument: a call on other variables does not look at it). Copies that are used: an invariant with a rank that grows along next and families that no link leaves shows that every call and walk ends unless Append joins relatives; Append of a copy makes a ring |
| C119 | `CodeModel.v`: the functions that look at an Ordering, once more, with integers for the answers of Cmp and with `==` against the three constants (search rounds, the less of the sorting functions, sift loops, the BTreeMap's walks, Pair.Cmp) | refuted by comparison by subtraction (search hangs, sort does nothing, heap pops the last in, map takes a key twice). Each container is shown equal to the model with three-valued answers under the reading it gives to other integers: no answer at all (search), not less (sort), greater (heap), less (lookups); this follows by pointwise equality through every function of the sorting library. From there: when it still works by sign (negative answers all -1, for sorts and heaps; all proper for searches and maps). `CodeTreeSpec.v`/`CodeTreeModel.v`: for every history of a BTreeMap and every such comparison (proper for a key and itself) the machine of C54 with three readings of other integers, less when looking up, equal when putting in, greater when taking out; so every call ends |
| C120 | `CostModel.v`: the search rounds and IntoSortedVec with user comparisons that have state and may panic (Push and Pop are those of `PanicModel.v`); the bound counts the calls on a counter that the caller adds to the comparison's state (`CostSpec.v`) | a cost logic: every statement of a function is given a bound on the calls it makes, from every start, whether it returns or panics; sift-up halves its index, sift-down doubles it, search halves the interval. With a pure comparison the answers are those of the models used for C37, C41 and C46 (`C120_search_answers`, `C120_into_sorted_vec_answers`) |
| C121 | `DequeModel.v` through `GrowRun.v`: histories that add up the cells of the buffers made (read off the capacities: `GrowSpec.v`) and keep the greatest length | true without Reserve and Append, by a potential (four cells for every element beyond half the capacity) over any history on any deque: at most 4 cells per push and 7 per Clear, capacity at most twice the greatest length; refuted with Append, which calls Reserve without looking at the room there is: an element taken from another deque and popped again, k times, makes k(k+15)/2 cells and keeps k+7 |
| C122 | `AsyncModel.v`: a main goroutine (a coinductive program), one goroutine per background call stepping through its system calls and, in Write, through the loop over the caller's slice; the process ends when main returns | step-by-step simulations: with direct calls (awaited at once, both directions) and with writes that take their bytes along (while slices are left alone); refuted for slices that are changed and for calls that are not awaited; every byte written was in its place at some time since the call (invariant) |
| C123 | any number of HashMap/HashSet variables over a memory of Go maps (`HashVarModel.v`), an assignment copying the reference | refuted (an assignment makes two names of one map); characterised for all programs: variables bound by assignments change together until Clear unbinds its receiver; `_partial`: values, for programs that have done with the variables bound to the one they write; one simulation over the memory, for maps and sets |
| C124 | `SortProgModel.v`: sort.SliceStable as a program that touches the slice only by `less(i, j)` and `swap(i, j)`, run with a comparison that has a state and may panic (`SortProgSpec.v`) | one invariant over the program, for every sequence of answers: indices in range, no endless loop, a number of comparisons that adds up (SymMerge of s elements: at most 2s - log2 s - 2); a run is then a chain of swaps; for answers that are a function of the two elements the run is `StableSortModel.SliceStable`, so that C117 applies |
| C125 | `PdqProgModel.v`: sort.Slice (pdqsort) as a program of `less(i, j)` and `swap(i, j)`, run as in C124 | the invariant of C124, with comparisons handed back by the scans of the partitions, for every sequence of answers (both scans can stop at one place, so that i passes j by two); for answers that are a function of the two elements the run is `PdqSortModel.Slice`, so that C117 applies |
| C126 | `UnhashModel.v`: HashMap and HashSet once more with keys that are hashable or not; a Go map hashes the key before anything else, and `==` on two unhashable values panics; calls as computations that keep their state at a panic | an embedding of the maps of hashable keys (simulation): a call whose key is hashable is the call of `HashModel.v`, one whose key is not panics and leaves the containers as they are; the answers of all histories by C51 and C53, Clone and Eq by C73 and C52 |
| C127 | `DequeSortModel.v`: the programs of C124 and C125 on the first Len cells of a deque's buffer | refuted (the first Len cells are not the elements once the front has moved); characterised for every deque and comparison: a rearrangement of these cells, also at a panic, and nothing else changes; the claim where the front is at cell 0 or the buffer is full |
| C128 | `IterReenterModel.v`: Map, Filter and Fold of a Vec's iterator over the heap of arrays, with functions that are trees of calls on the program's vectors (`body` of `ReenterSpec.v`); the loops have fuel and call the Next of `IterShareModel.v` | refuted (writing an element ahead of the iterator shows); for every function: the loop ends, and the function is called as often as the vector had elements; on exactly those elements if it does not write them in place (`fold_careful`, `collect_careful`); for functions that keep the vector's size, Fold is described exactly: the element that is at place i at the time of call i. LinkedList: Map, Filter and Fold over the heap of nodes with such functions; `lrounds` says what n calls are made on and the theorems that they are made are exact; the local newList is the list variable with the next free number; refuted for every list of two or more elements (a function that pushes at the back: they do not end); the elements the list had, for functions that leave the backs alone. VecDeque: Map, Filter and Fold with functions that call methods of the one deque (the buffer is shared with the iterator's header as in `IterShareModel.v`); refuted by a write in place; the elements the deque had, for calls that leave them alone (`after` of `IterShareSpec.v`); exactly what is at each place for functions that do not resize |
| C93-C95 | `FloatTextModel.v`: FormatFloat, FormatComplex and ParseFloat of strconv as to_string.go and ParseF64 call them, after ftoa.go and atof.go (the slow exact paths) | numerals and rounding are independent specifications over rationals (`FloatTextSpec.v`); uniqueness of rounding; the search for the fewest digits is exhaustive because the floor and the ceiling at n digits are the only candidates; `FloatHexSpec.v` adds hexadecimal numerals and the underscores that group digits, so that every byte string is covered: a text with underscores is either grouped and read like the text without them, or rejected |
| C96-C99 | `ShowModel.v`: Display, Debug and ToString of values as trees (primitive values, options, results, pairs, sequences, maps) | induction over values with nested lists; the inductive relation `shown` is the specification; unambiguity by induction over types with the rest of the text as an accumulator |
| C100, C101 | `IoModel.v`: Print, Println as functions on what has been written; fmt.Scanln after fmt/scan.go on the runes of the input | decomposition of the input into blanks, word, blanks |

Each group has a small specification (`*Spec.v`), proofs (`*Proofs.v`) and the property
theorems (`*Props.v`), with an `Example ..._nonvacuous` beside each theorem that has
hypotheses.

## 3. Trusted base

### 3.1 Kernel and axioms

* The kernel of Coq 8.16.1, including its `vm_compute` machine (used for examples
  and witnesses).  `Print Assumptions` stands after every property theorem and prints
  "Closed under the global context" for each of them: no theorem rests on an axiom.
* No axiom, parameter, section-less variable, functor or module type is declared.
  A checker that looks at all loaded libraries also lists the seven constants
  `Coq.ssr.ssrunder.Under_rel.*`: they belong to the standard library's ssreflect
  support, which the prelude loads, and no theorem uses them.

### 3.2 The environment, taken by its documentation

These are definitions in the model, not axioms; they stand for things that are not gost code.

* Go integers wrap, `int` and `uint` have 64 bits (amd64/arm64).
* Go's `append` may grow to any sufficient capacity (an oracle).
* Go's `map`: entries found by `==`, any order of iteration.
* `sort.Slice` and `sort.SliceStable`: any permutation that is sorted, stable for the second; C117
  proves this of the algorithms of Go 1.20, written down from that release (its source is not here).
* `strconv`, `math/big` and `fmt` on decimal text; `unicode/utf8`; `utf16.Decode`.
* Floats are `SpecFloat` binary32 and binary64 values: NaN payloads are not distinguished, and
  no multiplication and addition are fused (amd64; Go may fuse within one expression on arm64,
  which only touches complex products and quotients).
* The operator `/` on complex numbers is the run time's complex128div of Go 1.20, taken operation
  by operation (the sign of a NaN, which it may copy, is not modelled).
* Channels, `sync.Mutex`, goroutines: the transition system in `SyncModel.v`, with sequentially
  consistent memory (what Go promises for programs without data races).
* POSIX files and Go's `os` and `path/filepath`: `OsModel.v`.
* Element types' `Cmp`, `Eq`, `Clone` and `Display` are arbitrary functions, or absent;
  theorems that need a law state it.

### 3.3 What is modelled and what is not

`tools/coverage.py` lists the Go functions that no comment of the model cites, and
`tools/citations.py` checks the cited line ranges against the declarations of the Go files.

| Go file | Model | Not modelled |
|---|---|---|
| primitive.go, const.go, ops.go, bitwise.go | `IntModel.v`, `Int128Model.v`, `FloatModel.v`, `ComplexModel.v`, `VarModel.v` | - |
| cmp.go, pair.go, clone.go | `CmpModel.v`, `ShowModel.v`; an Ordering is one of the three constants everywhere but in `CodeModel.v` (C119), where it is any integer | fmt.Sprintf("%v") of a component that is not primitive (a parameter) |
| to_string.go, parts of string.go | `DecimalModel.v`, `Int128Model.v`, `StringModel.v`, `FloatTextModel.v` (strconv's FormatFloat, FormatComplex, ParseFloat as exact arithmetic, not its fast paths) | - |
| fmt.go | `ShowModel.v` | - |
| float.go | `FloatModel.v` (package math's Floor, Ceil, Trunc, Round, Abs, Modf, Sqrt after their documentation) | the transcendental functions themselves (a parameter) |
| time.go, thread.go | `TimeModel.v`, `SyncModel.v` | - |
| option.go, result.go, syntax.go | `OptionModel.v` | the internal twins `_Some`, `_None` |
| string.go, io.go, panic.go | `StringModel.v`, `StringSearchModel.v`, `IoModel.v` (package strings of Go 1.20 as functions on bytes; its search is the first match, not the rolling hash; unicode.ToLower and ToUpper are parameters) | Stdin.Lock; failures of standard output |
| vec.go | `VecModel.v`, `VarModel.v`, `IterShareModel.v`, `PanicModel.v` | - |
| binary_heap.go | `HeapModel.v`, `PanicModel.v` | writing through the slice AsSlice hands out |
| vec_deque.go | `DequeModel.v`, `VarModel.v`, `IterShareModel.v`, `PanicModel.v` | - |
| linked_list.go | `ListModel.v`, `VarModel.v`, `IterShareModel.v` | - |
| hash_map.go, hash_set.go | `HashModel.v`, `VarModel.v`, `HashVarModel.v` | Debug |
| btree_map.go, btree_set.go | `BTreeModel.v`, `BTreeIterModel.v`, `VarModel.v` | `_Insert` (called by nothing), `_Traverse` (printing for debugging), Debug |
| sync.go, future.go, gokio/gokio.go | `SyncModel.v`, `MutexCopyModel.v` | TryLockError.Error |
| fs.go, gokio/fs.go | `FsModel.v`, `AsyncModel.v` | - |
| convert.go, utils.go, default.go, iter.go | `VarModel.v` | getTypeName, interfaces |

Simplifications are stated at each definition.  The ones that matter most: a container
struct that has been copied (with `=` or by AsRef) and goes on sharing storage is
modelled in `VarModel.v` only (Vec, VecDeque, LinkedList, HashMap, BTreeMap); running out of memory is not modelled except where `make` panics (VecDeque); the
user's `Cmp`, `Eq` and `Clone` have no side effects and do not panic except in `PanicModel.v`; a goroutine's panic is one that nothing recovers.

{
 "claims": [
  {
   "property": "C01",
   "status": "proved",
   "theorems": [
    "C01_checked_add_exact"
   ],
   "note": "All ten types."
  },
  {
   "property": "C02",
   "status": "proved",
   "theorems": [
    "C02_saturating_add_clamps"
   ],
   "note": "All ten types."
  },
  {
   "property": "C03",
   "status": "proved",
   "theorems": [
    "C03_add_sub_wrap",
    "C03_wraps_to_functional"
   ],
   "note": "All ten types, including the Assign forms."
  },
  {
   "property": "C04",
   "status": "partial",
   "theorems": [
    "C04_checked_sub_sound_partial",
    "C04_checked_sub_unsigned_partial",
    "C04_checked_sub_signed_characterised",
    "C04_checked_sub_isize_characterised",
    "C04_checked_sub_refuted"
   ],
   "note": "False for the signed types (refuted): I8..I64 also refuse when a+b overflows, ISize uses 32-bit bounds. Soundness for all types and exactness for unsigned types are proved, and the exact behaviour of the signed versions is characterised."
  },
  {
   "property": "C05",
   "status": "partial",
   "theorems": [
    "C05_saturating_sub_clamps_partial",
    "C05_saturating_sub_isize_characterised",
    "C05_saturating_sub_refuted"
   ],
   "note": "False for ISize (refuted, 32-bit bounds); proved for the nine other types; ISize characterised."
  },
  {
   "property": "C06",
   "status": "partial",
   "theorems": [
    "C06_checked_mul_sound_partial",
    "C06_checked_mul_unsigned_partial",
    "C06_checked_mul_signed_characterised",
    "C06_checked_mul_usize_characterised",
    "C06_checked_mul_refuted"
   ],
   "note": "False for signed types (sign-mixed and zero products refused) and USize (32-bit bound); soundness for all types and exactness for U8..U64 proved; rest characterised."
  },
  {
   "property": "C07",
   "status": "partial",
   "theorems": [
    "C07_saturating_mul_unsigned_partial",
    "C07_saturating_mul_positive_partial",
    "C07_saturating_mul_signed_characterised",
    "C07_saturating_mul_usize_characterised",
    "C07_saturating_mul_refuted"
   ],
   "note": "False for signed types and USize; proved for U8..U64 and for positive operands of signed types; rest characterised."
  },
  {
   "property": "C08",
   "status": "partial",
   "theorems": [
    "C08_mul_wraps",
    "C08_wrapping_mul_partial",
    "C08_wrapping_mul_isize_characterised",
    "C08_wrapping_mul_isize_correct_iff",
    "C08_wrapping_mul_refuted"
   ],
   "note": "Mul proved for all types; WrappingMul false for ISize (top bit flipped, refuted and characterised), proved for the others."
  },
  {
   "property": "C09",
   "status": "proved",
   "theorems": [
    "C09_div_panics_iff_zero",
    "C09_div_truncates",
    "C09_checked_div_exact",
    "C09_saturating_div"
   ],
   "note": "All ten types."
  },
  {
   "property": "C10",
   "status": "partial",
   "theorems": [
    "C10_rem_panics_iff_zero",
    "C10_rem_exact",
    "C10_checked_rem_nonneg_partial",
    "C10_checked_rem_characterised",
    "C10_checked_rem_refuted"
   ],
   "note": "Rem proved; CheckedRem false when an operand is negative (refuted), proved for non-negative operands and characterised."
  },
  {
   "property": "C11",
   "status": "proved",
   "theorems": [
    "C11_abs_diff_exact",
    "C11_abs",
    "C11_sign_tests",
    "C11_neg_wraps"
   ],
   "note": ""
  },
  {
   "property": "C12",
   "status": "proved",
   "theorems": [
    "C12_pow_wraps"
   ],
   "note": ""
  },
  {
   "property": "C13",
   "status": "partial",
   "theorems": [
    "C13_shl_characterised",
    "C13_shr_characterised",
    "C13_shift_partial",
    "C13_shift_refuted"
   ],
   "note": "False: the receiver is used as shift count (refuted for every type); exact behaviour characterised."
  },
  {
   "property": "C14",
   "status": "proved",
   "theorems": [
    "C14_is_u128_functional",
    "C14_u128_add",
    "C14_u128_sub",
    "C14_u128_mul"
   ],
   "note": "Add, Sub, Mul for all U128 values."
  },
  {
   "property": "C15",
   "status": "proved",
   "theorems": [
    "C15_u128_div",
    "C15_u128_rem",
    "C15_u128_division_identity"
   ],
   "note": "Div, Rem and the division identity; zero divisor panics."
  },
  {
   "property": "C16",
   "status": "proved",
   "theorems": [
    "C16_is_i128_functional",
    "C16_i128_add",
    "C16_i128_from_i64",
    "C16_from_u64",
    "C16_i128_cmp",
    "C16_u128_cmp"
   ],
   "note": "Add, FromI64, FromU64, Cmp of both 128-bit types."
  },
  {
   "property": "C17",
   "status": "partial",
   "theorems": [
    "C17_i128_neg_partial",
    "C17_i128_neg_characterised",
    "C17_i128_sub_partial",
    "C17_i128_sub_characterised",
    "C17_i128_mul_partial",
    "C17_i128_mul_characterised",
    "C17_i128_abs_partial",
    "C17_i128_is_negative",
    "C17_i128_is_positive_characterised",
    "C17_i128_refuted"
   ],
   "note": "False (refuted): Neg mishandles the carry when the low 64 bits are all zeros or all ones. Correct exactly outside those inputs (iff theorem); Sub, Mul, Abs likewise; IsPositive tests only the high word (characterised); IsNegative proved."
  },
  {
   "property": "C18",
   "status": "partial",
   "theorems": [
    "C18_i128_div_nonneg_partial",
    "C18_i128_rem_nonneg_partial",
    "C18_i128_div_signed_partial",
    "C18_i128_rem_characterised",
    "C18_i128_zero_divisor_partial",
    "C18_i128_refuted"
   ],
   "note": "Non-negative operands fully proved. For other signs the quotient is proved when nothing awkward is negated; the remainder takes the sign of the product of the signs, so the identity is false (refuted); a zero divisor can return 0 (refuted)."
  },
  {
   "property": "C19",
   "status": "partial",
   "theorems": [
    "C19_shl_one_partial",
    "C19_shr_one_partial",
    "C19_u128_shl_characterised",
    "C19_i128_shl_characterised",
    "C19_u128_shr_partial",
    "C19_i128_shr_partial",
    "C19_u128_shr_characterised",
    "C19_i128_shr_characterised",
    "C19_shift_refuted"
   ],
   "note": "Shift by one proved for both types; other counts false (refuted) and characterised exactly."
  },
  {
   "property": "C20",
   "status": "partial",
   "theorems": [
    "C20_canonical_unique",
    "C20_canonical_injective",
    "C20_to_string_partial",
    "C20_usize_characterised",
    "C20_u128_to_string",
    "C20_i128_to_string_partial",
    "C20_i128_to_string_characterised",
    "C20_to_string_refuted",
    "C20_bool_to_string"
   ],
   "note": "Proved for I8..I64, ISize, U8..U64, U128 and USize up to 2^63-1; USize above that prints a negative number and awkward negative I128 values print wrongly (refuted and characterised)."
  },
  {
   "property": "C21",
   "status": "partial",
   "theorems": [
    "C21_parse_i64_exact",
    "C21_parse_i64_inverts_to_string",
    "C21_parse_u64_inverts_partial",
    "C21_parse_u64_large_characterised",
    "C21_parse_u64_characterised",
    "C21_parse_u64_refuted"
   ],
   "note": "ParseI64 exact and inverse of ToString; ParseU64 rejects values from 2^63 and accepts negative text (refuted and characterised)."
  },
  {
   "property": "C22",
   "status": "proved",
   "theorems": [
    "C22_duration_new",
    "C22_duration_from_units"
   ],
   "note": ""
  },
  {
   "property": "C23",
   "status": "proved",
   "theorems": [
    "C23_duration_totals",
    "C23_duration_subsec"
   ],
   "note": ""
  },
  {
   "property": "C24",
   "status": "proved",
   "theorems": [
    "C24_sleep_exact",
    "C24_sleep_never_short"
   ],
   "note": ""
  },
  {
   "property": "C25",
   "status": "proved",
   "theorems": [
    "C25_scalar_total_orders",
    "C25_scalar_order_meaning"
   ],
   "note": "All built-in scalar types except the floats, which are C69."
  },
  {
   "property": "C26",
   "status": "proved",
   "theorems": [
    "C26_pair_lexicographic",
    "C26_pair_total_order",
    "C26_pair_clone_equal",
    "C26_pair_missing_trait",
    "C26_pair_text"
   ],
   "note": ""
  },
  {
   "property": "C27",
   "status": "partial",
   "theorems": [
    "C27_some_or_none",
    "C27_unwrap",
    "C27_closures_called_once",
    "C27_fallbacks",
    "C27_xor",
    "C27_laws",
    "C27_eq",
    "C27_clone_equal",
    "C27_display",
    "C27_and_none_refuted",
    "C27_and_some_partial",
    "C27_insert",
    "C27_get_or_insert",
    "C27_get_or_insert_with",
    "C27_get_or_insert_with_shared",
    "C27_take",
    "C27_replace_none_refuted",
    "C27_replace_partial"
   ],
   "note": "False in two places (refuted): And/AndThen of None answer Some(nil), Replace on None stores nothing. Everything else proved, with closures of arbitrary effects; the pointer methods are proved over an explicit heap. GetOrInsertWith also with a function that changes the options, the receiver among them (C27_get_or_insert_with_shared)."
  },
  {
   "property": "C28",
   "status": "proved",
   "theorems": [
    "C28_exactly_one",
    "C28_nil_error_is_neither",
    "C28_combinators_ok",
    "C28_combinators_err",
    "C28_combinators_nil_error",
    "C28_and_then_laws",
    "C28_eq",
    "C28_clone_equal",
    "C28_display"
   ],
   "note": "For results made by Ok or by Err of a non-nil error, as the property says; Err(nil) is characterised separately (neither Ok nor Err)."
  },
  {
   "property": "C29",
   "status": "partial",
   "theorems": [
    "C29_chain_characterised",
    "C29_first_true_refuted",
    "C29_single_true_partial",
    "C29_else"
   ],
   "note": "False when two conditions hold (refuted): every true branch runs and the last wins, which is proved as an exact characterisation. Proved when at most one condition is true."
  },
  {
   "property": "C30",
   "status": "proved",
   "theorems": [
    "C30_format_expands",
    "C30_expansion_unique",
    "C30_format_panics_iff",
    "C30_malformed_template_example"
   ],
   "note": "For all well-formed templates; one malformed template is shown to misbehave."
  },
  {
   "property": "C31",
   "status": "proved",
   "theorems": [
    "C31_chars",
    "C31_push",
    "C31_pop",
    "C31_push_pop",
    "C31_push_pop_history",
    "C31_pop_any_bytes"
   ],
   "note": ""
  },
  {
   "property": "C32",
   "status": "partial",
   "theorems": [
    "C32_utf8_roundtrip",
    "C32_utf16_refuted",
    "C32_utf16_never_errs_characterised",
    "C32_utf16_partial"
   ],
   "note": "UTF-8 round trip proved. StringFromUTF16 is false (reads every other code unit, never errs): refuted and characterised."
  },
  {
   "property": "C33",
   "status": "proved",
   "theorems": [
    "C33_history",
    "C33_panics",
    "C33_display",
    "C33_display_missing"
   ],
   "note": "Refinement of any history over any number of vectors, on a memory of backing arrays with arbitrary growth; panics characterised."
  },
  {
   "property": "C34",
   "status": "partial",
   "theorems": [
    "C34_characterised",
    "C34_reserve_refuted",
    "C34_overflow_refuted",
    "C34_reserve_partial"
   ],
   "note": "False: Reserve lengthens the vector with zero values when it has to grow, and does nothing when len+additional overflows (both refuted). Exact behaviour characterised; what remains true is proved."
  },
  {
   "property": "C35",
   "status": "partial",
   "theorems": [
    "C35_retain",
    "C35_dedup",
    "C35_dedup_keeps_distinct",
    "C35_dedup_by_key_characterised",
    "C35_dedup_by_key_refuted",
    "C35_dedup_by_key_partial",
    "C35_reverse_fill_swap",
    "C35_fill_with"
   ],
   "note": "All proved except DedupByKey, which removes every later element with an already seen key and not only consecutive ones (refuted, characterised, right when equal keys are adjacent)."
  },
  {
   "property": "C36",
   "status": "proved",
   "theorems": [
    "C36_sort",
    "C36_stable_sort_unique",
    "C36_sort_unstable",
    "C36_sort_missing_cmp"
   ],
   "note": "The library sorts are represented by their contracts; the stable result is shown to be unique."
  },
  {
   "property": "C37",
   "status": "proved",
   "theorems": [
    "C37_binary_search",
    "C37_binary_search_by",
    "C37_always_returns",
    "C37_missing_cmp"
   ],
   "note": "Also termination and absence of panics on unsorted vectors."
  },
  {
   "property": "C38",
   "status": "proved",
   "theorems": [
    "C38_clone",
    "C38_frame",
    "C38_struct_copy_shares",
    "C38_eq"
   ],
   "note": "Storage modelled as backing arrays; histories with clones in C33_history. Copying a Vec by Go assignment shares storage (C38_struct_copy_shares)."
  },
  {
   "property": "C39",
   "status": "partial",
   "theorems": [
    "C39_next",
    "C39_combinators",
    "C39_rev_characterised",
    "C39_rev_partial",
    "C39_rev_refuted"
   ],
   "note": "Rev on an iterator that has already advanced yields zero values first (refuted, characterised); everything else proved."
  },
  {
   "property": "C40",
   "status": "proved",
   "theorems": [
    "C40_priority_queue"
   ],
   "note": "Any total preorder; any history from New, WithCapacity or WithLen."
  },
  {
   "property": "C41",
   "status": "proved",
   "theorems": [
    "C41_into_sorted_vec"
   ],
   "note": "For every heap reachable from New."
  },
  {
   "property": "C42",
   "status": "partial",
   "theorems": [
    "C42_append_characterised",
    "C42_other_not_emptied_refuted",
    "C42_append_refuted",
    "C42_append_partial",
    "C42_self_characterised",
    "C42_self_full",
    "C42_self_refuted"
   ],
   "note": "False: other keeps its elements, and when self's capacity is below 2*len+other.len the Reserve call inserts zero values and breaks the heap order (refuted, characterised). The union property is proved when the capacity suffices. A heap appended to itself need not be doubled: with spare capacity elements that a push has moved are read again (refuted, characterised)."
  },
  {
   "property": "C43",
   "status": "proved",
   "theorems": [
    "C43_history",
    "C43_specification_total",
    "C43_swap_outside_characterised",
    "C43_display"
   ],
   "note": "All histories from New, WithCapacity and WithLen, within memory; Swap with a position past the end exposes a dead cell (characterised)."
  },
  {
   "property": "C44",
   "status": "proved",
   "theorems": [
    "C44_every_layout",
    "C44_push_grows",
    "C44_reserve_grows",
    "C44_memory_characterised"
   ],
   "note": "All layouts; the exact memory conditions are characterised, including Reserve's wrap-around."
  },
  {
   "property": "C45",
   "status": "proved",
   "theorems": [
    "C45_retain",
    "C45_retain_filter",
    "C45_dedup_fill",
    "C45_fill_with",
    "C45_append",
    "C45_append_self_never_returns",
    "C45_clone",
    "C45_eq"
   ],
   "note": "All layouts and effectful closures; appending a non-empty deque to itself never returns (outside the property: proved separately)."
  },
  {
   "property": "C46",
   "status": "partial",
   "theorems": [
    "C46_characterised",
    "C46_refuted",
    "C46_back_only_partial"
   ],
   "note": "False once the front has been used (refuted): the three act on buffer cells 0..len-1 (characterised). Proved after histories that use the back only."
  },
  {
   "property": "C47",
   "status": "partial",
   "theorems": [
    "C47_next",
    "C47_combinators_characterised",
    "C47_rev_refuted",
    "C47_remaining_refuted",
    "C47_fresh_partial"
   ],
   "note": "Next proved; the combinators restart from the front whatever the position and Rev always panics (refuted, characterised). Fresh iterators without Rev are proved."
  },
  {
   "property": "C48",
   "status": "proved",
   "theorems": [
    "C48_history",
    "C48_specification_total",
    "C48_display"
   ],
   "note": "All histories of any number of lists sharing one heap."
  },
  {
   "property": "C49",
   "status": "proved",
   "theorems": [
    "C49_append",
    "C49_append_self_characterised"
   ],
   "note": "Any heap, with a frame for every third list; appending a list to itself empties it (characterised, outside the property)."
  },
  {
   "property": "C50",
   "status": "partial",
   "theorems": [
    "C50_next",
    "C50_combinators_partial",
    "C50_clone",
    "C50_eq",
    "C50_rev_characterised",
    "C50_rev_refuted"
   ],
   "note": "Everything but Rev is proved, for effectful closures and any position; Rev keeps the order (refuted, characterised)."
  },
  {
   "property": "C51",
   "status": "proved",
   "theorems": [
    "C51_history",
    "C51_with_capacity",
    "C51_nan_characterised"
   ],
   "note": "Any history against an abstract finite map, for every reflexive key equality and every iteration order; NaN keys characterised."
  },
  {
   "property": "C52",
   "status": "proved",
   "theorems": [
    "C52_each_entry_once",
    "C52_next",
    "C52_eq_whatever_order",
    "C52_eq_without_value_eq"
   ],
   "note": "Permutation, Next, and order-independent Eq; values without Eq characterised."
  },
  {
   "property": "C53",
   "status": "proved",
   "theorems": [
    "C53_history"
   ],
   "note": "Histories over any number of sets refine mathematical sets, whatever the orders."
  },
  {
   "property": "C54",
   "status": "partial",
   "theorems": [
    "C54_specification",
    "C54_partial",
    "C54_eleven_keys_partial",
    "C54_refuted",
    "C54_twelfth_key_characterised",
    "C54_never_invents",
    "C54_all_histories_characterised"
   ],
   "note": "False in general (C54_refuted: the twelfth of twelve ascending keys is lost). What the map answers to every history whatsoever, and when it panics, is characterised by a machine of at most two levels, for any function as Cmp (C54_all_histories_characterised). As an ordered map it is right for every gentle history (no Remove; at most 21 keys, a key beyond eleven is below the eleventh), in particular for any history on at most eleven keys; every map of eleven keys loses a twelfth greater key (characterised); no history invents an entry."
  },
  {
   "property": "C55",
   "status": "partial",
   "theorems": [
    "C55_characterised",
    "C55_partial",
    "C55_refuted",
    "C55_greatest_characterised",
    "C54_all_histories_characterised"
   ],
   "note": "False in general (C55_refuted: wrong returned value, the greatest key stays, Len underflows). Exact slot machine for maps of one node (C55_characterised) and for all maps (C54_all_histories_characterised); C55_partial: right but for the returned value when the greatest key is not removed."
  },
  {
   "property": "C56",
   "status": "partial",
   "theorems": [
    "C56_partial",
    "C56_refuted",
    "C54_all_histories_characterised"
   ],
   "note": "False in general (C56_refuted: thirteen entries after twelve ascending insertions). Proved after every gentle history; the listings after every history are characterised (C54_all_histories_characterised)."
  },
  {
   "property": "C57",
   "status": "partial",
   "theorems": [
    "C57_partial",
    "C57_characterised",
    "C57_refuted",
    "C54_all_histories_characterised"
   ],
   "note": "False (C57_refuted, C57_characterised: insertions of different keys succeed exactly up to 21; C54_all_histories_characterised: when they panic in any history). Any 21 insertions succeed."
  },
  {
   "property": "C58",
   "status": "partial",
   "theorems": [
    "C58_all_histories_characterised",
    "C58_eleven_gentle",
    "C58_insert_partial",
    "C58_compare_partial",
    "C58_combine_partial",
    "C58_empty_characterised",
    "C58_refuted",
    "C58_history_partial",
    "C58_remove_refuted"
   ],
   "note": "False for empty operands, beyond eleven elements and for Remove of the greatest of several elements (C58_refuted, C58_empty_characterised, C58_remove_refuted). What every program over any number of sets answers, and when it panics, is characterised for any function as Cmp (C58_all_histories_characterised). It is right for histories of one set without those (C58_history_partial), and for the algebra of non-empty operands built by gentle insertions with results of at most eleven elements."
  },
  {
   "property": "C59",
   "status": "partial",
   "theorems": [
    "C59_all_histories_characterised",
    "C59_characterised",
    "C59_refuted"
   ],
   "note": "False: Clone never returns a copy (C59_refuted, C59_characterised; C59_all_histories_characterised after every program: it panics on a set without nodes, otherwise takes the first element for ever)."
  },
  {
   "property": "C60",
   "status": "proved",
   "theorems": [
    "C60_exclusion",
    "C60_alternation",
    "C60_accesses",
    "C60_pointers",
    "C60_no_fatal",
    "C60_only_panics_are_fatal",
    "C60_no_lost_update",
    "C60_no_deadlock",
    "C60_lock_waits",
    "C60_lock_gets"
   ],
   "note": "All programs, schedules and numbers of goroutines. Mutual exclusion, private and shared pointers, reads see the last write and freedom from fatal errors for every program that touches the value only while inside; the final value of any number of workers with any jobs is a sequential order of all of them; no deadlock. Go runtime operations (sync.Mutex) by their documented semantics; panics inside goroutines not modelled."
  },
  {
   "property": "C61",
   "status": "partial",
   "theorems": [
    "C61_exactly_when_held_refuted",
    "C61_err_partial",
    "C61_free_partial",
    "C61_held",
    "C61_never_blocks",
    "C61_unlock_fatal",
    "C61_only_unlock_is_fatal"
   ],
   "note": "False as stated: Go allows TryLock to fail on a free mutex (witness). Proved: Err while held; never blocks; exact if the runtime does not fail spuriously; Unlock of a mutex not handed out is fatal and nothing else is."
  },
  {
   "property": "C62",
   "status": "proved",
   "theorems": [
    "C62_join_waits",
    "C62_one_goroutine",
    "C62_finishes_once",
    "C62_join_returns"
   ],
   "note": "Join returns only after the function behind that handle finished; a waiting Join on a finished, unused handle can return in two steps. All programs and schedules."
  },
  {
   "property": "C63",
   "status": "partial",
   "theorems": [
    "C63_stable_refuted",
    "C63_characterised",
    "C63_join_lost_after_poll",
    "C63_true_means_finished_partial",
    "C63_never_blocks",
    "C63_turns_true_partial"
   ],
   "note": "False: IsFinished consumes the message (witness true then false). Characterised for all programs and schedules: at most one success of Join/IsFinished per handle, so Join never returns after a true IsFinished. Proved part: true only after the end, never blocks, becomes true."
  },
  {
   "property": "C64",
   "status": "partial",
   "theorems": [
    "C64_every_await_refuted",
    "C64_characterised",
    "C64_first_await_partial",
    "C64_await_returns"
   ],
   "note": "False: the second Await returns the zero value (witness). Characterised for all programs and schedules: the first Await returns the computed value after it was computed, all others the zero value; no Await on a finished future waits for ever."
  },
  {
   "property": "C65",
   "status": "partial",
   "theorems": [
    "C65_read_refuted",
    "C65_others_refuted",
    "C65_read_characterised",
    "C65_round_trip_partial",
    "C65_read_only",
    "C65_write_succeeds"
   ],
   "note": "False: one read(2) may return fewer bytes and the rest is returned as zeros (C65_read_refuted); another hard link of the file changes too (C65_others_refuted). C65_read_characterised: every possible result of reading back. C65_round_trip_partial: after Ok the file holds the data, a full read returns it, paths leading elsewhere are untouched. Missing: the part that is false."
  },
  {
   "property": "C66",
   "status": "partial",
   "theorems": [
    "C66_atomic_refuted",
    "C66_any_prefix",
    "C66_crash_characterised",
    "C66_short_partial"
   ],
   "note": "False: os.Create truncates first (C66_atomic_refuted); every prefix of the data can be left (C66_any_prefix) and nothing else (C66_crash_characterised, at every moment and for all failures)."
  },
  {
   "property": "C67",
   "status": "partial",
   "theorems": [
    "C67_overwrite_refuted",
    "C67_independent_refuted",
    "C67_contents_refuted",
    "C67_copy_characterised",
    "C67_contents_partial",
    "C67_copy_succeeds"
   ],
   "note": "False in all parts: Copy is a hard link. Existing target: always Err, nothing changed (C67_overwrite_refuted); later writes are always shared (C67_independent_refuted); a copied symbolic link may lead elsewhere (C67_contents_refuted). C67_copy_characterised: exact effect; C67_contents_partial: right after success both names have the contents."
  },
  {
   "property": "C68",
   "status": "partial",
   "theorems": [
    "C68_readdir_characterised",
    "C68_count_refuted",
    "C68_type_refuted",
    "C68_type_characterised",
    "C68_path_refuted",
    "C68_entries_partial",
    "C68_readdir_succeeds"
   ],
   "note": "False: as many blank entries as names come first (C68_count_refuted), no entry is ever a directory or symlink (C68_type_refuted, C68_type_characterised), with \"..\" the path may name something else (C68_path_refuted). C68_readdir_characterised: exact result; C68_entries_partial: the rest are exactly the entries in order, with paths that name them."
  },
  {
   "property": "C69",
   "status": "partial",
   "theorems": [
    "C69_float_nan_refuted",
    "C69_float_nan_characterised",
    "C69_float_total_order_partial"
   ],
   "note": "False with NaN (refuted, NaN behaviour characterised); total order by numeric value proved for every other binary32/binary64 value."
  },
  {
   "property": "C70",
   "status": "proved",
   "theorems": [
    "C70_reference_is_the_option",
    "C70_take_and_replace_detach"
   ],
   "note": ""
  },
  {
   "property": "C71",
   "status": "partial",
   "theorems": [
    "C71_assertions_panic_iff",
    "C71_default_messages",
    "C71_message_arguments_refuted",
    "C71_message_partial",
    "C71_always_panic"
   ],
   "note": "Panic conditions and default messages proved; a custom message is expanded with itself as first argument (refuted), proved right for messages without placeholders."
  },
  {
   "property": "C72",
   "status": "partial",
   "theorems": [
    "C72_map_filter_fold_partial",
    "C72_rev_collect_characterised",
    "C72_fresh_partial",
    "C72_refuted"
   ],
   "note": "True of Map, Filter, Fold and CollectToLinkedList. Rev and CollectToVec are wrong on an iterator that has been advanced (refuted, exact behaviour characterised)."
  },
  {
   "property": "C73",
   "status": "proved",
   "theorems": [
    "C73_map_clone",
    "C73_set_clone",
    "C73_clone_without_trait",
    "C73_display"
   ],
   "note": "Clone and Display for every order; missing Clone characterised."
  },
  {
   "property": "C74",
   "status": "proved",
   "theorems": [
    "C74_maps_are_separate"
   ],
   "note": "For arbitrary interleavings, including those with removals and splits."
  },
  {
   "property": "C75",
   "status": "partial",
   "theorems": [
    "C75_rename_refuted",
    "C75_path_refuted",
    "C75_rename_characterised",
    "C75_rename_partial"
   ],
   "note": "False for two names of one file (C75_rename_refuted) and when the new path leads through what is moved (C75_path_refuted). C75_rename_characterised: exact effect on all directory entries, contents and parents, for all paths; C75_rename_partial: the full statement for two names in the current directory."
  },
  {
   "property": "C76",
   "status": "partial",
   "theorems": [
    "C76_kind_refuted",
    "C76_remove_characterised",
    "C76_nonempty_partial"
   ],
   "note": "False: both call os.Remove (C76_kind_refuted). C76_remove_characterised: exact effect; C76_nonempty_partial: a non-empty directory is never removed."
  },
  {
   "property": "C77",
   "status": "proved",
   "theorems": [
    "C77_create_dir",
    "C77_exists",
    "C77_succeeds",
    "C77_strip",
    "C77_trailing_slashes",
    "C77_root"
   ],
   "note": "All states, paths, failures; with C77_exists and C77_succeeds; C77_strip, C77_trailing_slashes and C77_root say what slashes at the end mean."
  },
  {
   "property": "C78",
   "status": "partial",
   "theorems": [
    "C78_same_file_refuted",
    "C78_writers_partial",
    "C78_creating_writers_partial"
   ],
   "note": "False for two writers to one file (C78_same_file_refuted). True for any number of writers to different existing files (C78_writers_partial) and to different files or free names, some of which fail (C78_creating_writers_partial): any interleaving, any failures, any moment."
  },
  {
   "property": "C79",
   "status": "partial",
   "theorems": [
    "C79_write_refuted",
    "C79_write_characterised",
    "C79_failed_partial",
    "C79_stays_sound"
   ],
   "note": "False for Write (C79_write_refuted, C79_write_characterised); proved for all others (C79_failed_partial)."
  },
  {
   "property": "C80",
   "status": "partial",
   "theorems": [
    "C80_next",
    "C80_map_filter_fold",
    "C80_reentrant",
    "C80_value_receivers_characterised",
    "C80_receiver_refuted",
    "C80_partial",
    "C80_all_histories_characterised",
    "C80_set_all_histories_characterised",
    "C80_set_partial"
   ],
   "note": "Proved for Next, Map, Filter, Fold and CollectToLinkedList, with arbitrary closures, and for closures that use the iterator (termination). False in two places: Rev and CollectToVec on an advanced iterator (C80_value_receivers_characterised), and Map, Filter, Fold exhaust the iterator of a map but not that of a set (C80_receiver_refuted). What the iterators start with is characterised after every program over maps or sets (C80_all_histories_characterised); it is the ascending entries after gentle histories (C80_partial)."
  },
  {
   "property": "C81",
   "status": "partial",
   "theorems": [
    "C81_all_histories_characterised",
    "C81_display_partial",
    "C81_display_characterised",
    "C81_set_display_partial",
    "C81_display_without_trait",
    "C81_eq_partial",
    "C81_eq_characterised",
    "C81_refuted",
    "C81_empty_set_refuted"
   ],
   "note": "False beyond eleven keys (C81_refuted: a map is not equal to itself, Display leaves a key out) and for the empty set, whose Display panics. Characterised for any function as Cmp and every program over any number of maps (C81_all_histories_characterised) or sets (C58_all_histories_characterised); right for gentle histories."
  },
  {
   "property": "C82",
   "status": "proved",
   "theorems": [
    "C82_find_contains",
    "C82_find_characters"
   ],
   "note": "First occurrence for arbitrary bytes, and on characters for UTF-8."
  },
  {
   "property": "C83",
   "status": "proved",
   "theorems": [
    "C83_split",
    "C83_only_one",
    "C83_split_characters",
    "C83_split_empty_separator"
   ],
   "note": "Non-empty and empty separators; the cut is unique."
  },
  {
   "property": "C84",
   "status": "proved",
   "theorems": [
    "C84_replace",
    "C84_replace_split",
    "C84_replace_empty"
   ],
   "note": "Exact for every old and new text."
  },
  {
   "property": "C85",
   "status": "partial",
   "theorems": [
    "C85_characterised",
    "C85_partial",
    "C85_refuted"
   ],
   "note": "False for the empty string with n from 2^63 on, which panics; exact for all strings and all n."
  },
  {
   "property": "C86",
   "status": "proved",
   "theorems": [
    "C86_trim",
    "C86_trim_determined"
   ],
   "note": "For all UTF-8 texts."
  },
  {
   "property": "C87",
   "status": "proved",
   "theorems": [
    "C87_lowercase",
    "C87_uppercase",
    "C87_ascii",
    "C87_idempotent"
   ],
   "note": "For every mapping that agrees with ASCII; the Unicode tables themselves are a parameter."
  },
  {
   "property": "C88",
   "status": "proved",
   "theorems": [
    "C88_floor",
    "C88_ceil",
    "C88_trunc",
    "C88_round",
    "C88_frac",
    "C88_abs"
   ],
   "note": "For every number of both formats; package math after its documentation. The documented example Frac(3.7) = 0.7 is false, as C88_documented_fraction shows."
  },
  {
   "property": "C89",
   "status": "proved",
   "theorems": [
    "C89_arithmetic_F32",
    "C89_arithmetic_F64",
    "C89_exact"
   ],
   "note": "Rounding is specified against exact rationals, independently of the algorithm."
  },
  {
   "property": "C90",
   "status": "proved",
   "theorems": [
    "C90_sqrt",
    "C90_perfect_squares"
   ],
   "note": "Includes the double rounding of F32."
  },
  {
   "property": "C91",
   "status": "proved",
   "theorems": [
    "C91_functions",
    "C91_powers_logarithms"
   ],
   "note": "For every implementation of the functions of package math."
  },
  {
   "property": "C92",
   "status": "proved",
   "theorems": [
    "C92_add_sub",
    "C92_mul",
    "C92_mul_widened",
    "C92_assign"
   ],
   "note": "Division is not modelled (a call of the Go run time). The theorem on Complex64 products covers finite parts."
  },
  {
   "property": "C93",
   "status": "proved",
   "theorems": [
    "C93_hexadecimal",
    "C93_underscores",
    "C93_rejects_all",
    "C93_parse",
    "C93_unique",
    "C93_names",
    "C93_rejects"
   ],
   "note": "all byte strings: decimal and hexadecimal numerals, names, underscores, everything else; the cap strconv puts on exponents is visible only in texts over 9000 bytes (hexadecimal: 2000), which are included if the exponent has at most five digits"
  },
  {
   "property": "C94",
   "status": "proved",
   "theorems": [
    "C94_round_trip",
    "C94_injective"
   ],
   "note": "every F64"
  },
  {
   "property": "C95",
   "status": "proved",
   "theorems": [
    "C95_text",
    "C95_complex"
   ],
   "note": "shortest and nearest text for both formats; complex text from its parts"
  },
  {
   "property": "C96",
   "status": "proved",
   "theorems": [
    "C96_display",
    "C96_panics",
    "C96_debug_of_containers"
   ],
   "note": "Display of values of any nesting, with the exact panic condition."
  },
  {
   "property": "C97",
   "status": "partial",
   "theorems": [
    "C97_text_injective_partial",
    "C97_text_delimited_partial",
    "C97_text_injective_refuted"
   ],
   "note": "Proved for every type built from the integer types, U128, F32, F64, Byte, Char, Bool by Option, sequences and maps; false with String elements, Err and I128 (witnesses)."
  },
  {
   "property": "C98",
   "status": "proved",
   "theorems": [
    "C98_debug",
    "C98_debug_tells_type",
    "C98_primitive_text",
    "C98_char_is_a_number"
   ],
   "note": "Debug names and texts of all primitive types; also shown: a Char is printed as its number."
  },
  {
   "property": "C99",
   "status": "partial",
   "theorems": [
    "C99_pair_text",
    "C99_pair_text_characterised",
    "C99_pair_display_refuted",
    "C99_pair_injective_partial"
   ],
   "note": "The text is as stated; but Pair.Display returns string, not String, so Format and containers panic on a Pair (proved for all contexts)."
  },
  {
   "property": "C100",
   "status": "partial",
   "theorems": [
    "C100_read_line_characterised",
    "C100_read_line_refuted",
    "C100_read_line_partial",
    "C100_word_is_utf8"
   ],
   "note": "False of the code: the buffer is replaced and only the first word is read. Exact behaviour characterised; the documented one proved for an empty buffer and one-word lines."
  },
  {
   "property": "C101",
   "status": "proved",
   "theorems": [
    "C101_print",
    "C101_print_panics"
   ],
   "note": "Through C30."
  },
  {
   "property": "C102",
   "status": "proved",
   "theorems": [
    "C102_terminates",
    "C102_reading",
    "C102_clear"
   ],
   "note": "Consequences of the simulation of all histories (C54_all_histories_characterised); the order need not be lawful."
  },
  {
   "property": "C103",
   "status": "partial",
   "theorems": [
    "C103_accuracy_partial",
    "C103_accuracy_refuted",
    "C103_valid",
    "C103_complex64",
    "C103_complex64_widened",
    "C103_by_real",
    "C103_by_imaginary",
    "C103_by_zero",
    "C103_infinite_dividend",
    "C103_infinite_divisor",
    "C103_infinite_both",
    "C103_nan",
    "C103_assign"
   ],
   "note": "Accuracy for all finite Complex64 and for Complex128 parts that are zero or between 2^-300 and 2^300; it is false for extreme Complex128 parts (largest number over itself has a NaN part). Special values, real and imaginary divisors and Complex64 as rounded Complex128 hold in all cases."
  },
  {
   "property": "C104",
   "status": "proved",
   "theorems": [
    "C104_assign",
    "C104_own_operand",
    "C104_byte",
    "C104_char",
    "C104_string",
    "C104_typed",
    "C104_swap"
   ],
   "note": "Every operator and every primitive type; frame condition; own operand; swap."
  },
  {
   "property": "C105",
   "status": "partial",
   "theorems": [
    "C105_btree_characterised",
    "C105_refuted",
    "C105_characterised",
    "C105_vec_in_place_partial",
    "C105_vec_push_characterised",
    "C105_vec_pop_characterised",
    "C105_list_push_back_characterised",
    "C105_list_empty_characterised",
    "C105_list_push_front_characterised",
    "C105_list_pop_characterised",
    "C105_hash_partial",
    "C105_hash_cleared_characterised",
    "C105_deque_push_characterised",
    "C105_deque_full_characterised",
    "C105_deque_pop_characterised",
    "C105_btree_insert_partial",
    "C105_btree_root_characterised",
    "C105_btree_refuted"
   ],
   "note": "False of the code: AsRef takes the address of a copy of its receiver. What happens instead is proved for all programs over variables, and for vectors, deques, linked lists, hash maps and B-tree maps what the copy shares and what it does not (for deques see also C112). For B-tree maps this holds after any history, for any function as Cmp and any operation through the reference (C105_btree_characterised)."
  },
  {
   "property": "C106",
   "status": "partial",
   "theorems": [
    "C106_one_end",
    "C106_join_never",
    "C106_isfinished_false",
    "C106_told_refuted",
    "C106_await_zero",
    "C106_await_returns",
    "C106_panic_kills",
    "C106_mutex_lost",
    "C106_goexit_stops_nobody_partial"
   ],
   "note": "False of the code: nothing is deferred in Spawn, so after a panic the process dies and after Goexit Join hangs. Proved for all programs and schedules: a function ends once; no Join on the handle ever returns and IsFinished answers false; Await returns the zero value, within three steps; a panic ends the process within two steps of its goroutine; a mutex the goroutine was inside is never handed out again; Goexit by itself ends nothing else."
  },
  {
   "property": "C107",
   "status": "partial",
   "theorems": [
    "C107_vec_refuted",
    "C107_vec_calm_partial",
    "C107_vec_number",
    "C107_vec_characterised",
    "C107_map",
    "C107_map_collected",
    "C107_deque_calm_partial",
    "C107_deque_number",
    "C107_deque_characterised",
    "C107_deque_refuted",
    "C107_deque_overwritten",
    "C107_list_characterised",
    "C107_list_calm_partial",
    "C107_list_endless",
    "C107_list_refuted"
   ],
   "note": "False of Vec, VecDeque and LinkedList, whose iterators read the shared storage (C107_vec_refuted, C107_deque_refuted, C107_list_refuted), and of Vecs collected from map iterators (C107_map_collected). Proved for all programs: the exact answers of list iterators (C107_list_characterised; pushing in the loop never ends, C107_list_endless), the number of elements of Vec and VecDeque iterators (…_number), the property itself for programs that leave the elements in place (…_calm_partial), and iterators as live places for programs that do not resize (…_characterised); map and set iterators are snapshots (C107_map)."
  },
  {
   "property": "C108",
   "status": "partial",
   "theorems": [
    "C108_vec_retain_partial",
    "C108_vec_dedup_by_key_partial",
    "C108_vec_fill_characterised",
    "C108_vec_sort_partial",
    "C108_deque_retain_characterised",
    "C108_deque_retain_refuted",
    "C108_deque_dedup_characterised",
    "C108_deque_fill_characterised",
    "C108_heap_push_partial",
    "C108_heap_push_order_characterised",
    "C108_heap_pop_characterised",
    "C108_heap_pop_order_characterised",
    "C108_heap_refuted",
    "C108_heap_agrees",
    "C108_leaf_characterised",
    "C108_leaf_refuted",
    "C108_option_partial"
   ],
   "note": "False: a panicking predicate leaves VecDeque.Retain with elements lost and doubled (C108_deque_retain_refuted), a panicking Cmp leaves a heap after Push that pops in the wrong order and makes Pop lose the greatest element (C108_heap_refuted), and leaves a B-tree leaf with an entry twice (C108_leaf_refuted). Proved for all contents and functions: Vec.Retain and DedupByKey change nothing on a panic, sorts and heap Push lose nothing, and the exact state left by every one of these methods (…_characterised)."
  },
  {
   "property": "C109",
   "status": "partial",
   "theorems": [
    "C109_refuted",
    "C109_crowd_characterised",
    "C109_crowd_sharp",
    "C109_not_copied_partial",
    "C109_variable_partial",
    "C109_pointers",
    "C109_copied_while_held"
   ],
   "note": "False: the struct holds the lock and a pointer to the value, so a copy has a lock of its own for the same value (C109_refuted: two inside, an update lost). Proved for all histories: at most as many goroutines are inside as there are copies (C109_crowd_characterised, sharp by C109_crowd_sharp); exclusion for mutexes that are not copied and for each variable (…_partial); all copies give the pointer to the one value (C109_pointers); a copy made while the mutex is held is locked for ever (C109_copied_while_held)."
  },
  {
   "property": "C110",
   "status": "partial",
   "theorems": [
    "C110_refuted",
    "C110_hash_map_characterised",
    "C110_hash_set_characterised",
    "C110_deque_characterised",
    "C110_mutex_characterised",
    "C110_result_characterised",
    "C110_others_partial"
   ],
   "note": "False of HashMap, HashSet, VecDeque, Mutex and Result: the first Insert or push on a declared variable panics, a declared Mutex gives nil pointers, a declared Result is neither Ok nor Err (C110_refuted, witnesses). The exact behaviour is proved for every history. The zero Vec, BinaryHeap, LinkedList, BTreeMap, BTreeSet and Option are what the constructors make (C110_others_partial)."
  },
  {
   "property": "C111",
   "status": "partial",
   "theorems": [
    "C111_refuted",
    "C111_characterised",
    "C111_without_writes_partial",
    "C111_without_derivation_partial"
   ],
   "note": "False of the code: Filter, Or, OrElse and Xor return a struct that shares the cell of the value (C111_refuted). The answers of every program are those of the tag calculus (C111_characterised); options are values in programs without writes through references and in programs without such derivations."
  },
  {
   "property": "C112",
   "status": "partial",
   "theorems": [
    "C112_refuted",
    "C112_without_copies_partial",
    "C112_characterised",
    "C112_always_contents"
   ],
   "note": "False of the code: a copy shares the buffer until one of the two replaces it (C112_refuted). The answers of every program are those of windows on shared circles of cells (C112_characterised, C112_always_contents); without copies every variable is a deque of its own (C112_without_copies_partial)."
  },
  {
   "property": "C113",
   "status": "partial",
   "theorems": [
    "C113_vec_refuted",
    "C113_vec_characterised",
    "C113_vec_careful_partial",
    "C113_vec_looking_partial",
    "C113_vec_dedup_refuted",
    "C113_vec_dedup_characterised",
    "C113_vec_dedup_careful_partial",
    "C113_vec_dedup_looking_partial",
    "C113_vec_fill_order_refuted",
    "C113_vec_fill_characterised",
    "C113_vec_fill_looking_partial",
    "C113_vec_fill_keeping_partial",
    "C113_vec_fill_endless",
    "C113_deque_looking_refuted",
    "C113_deque_looking_characterised",
    "C113_fill_looking_characterised",
    "C113_deque_endless",
    "C113_fill_endless",
    "C113_deque_characterised",
    "C113_fill_characterised"
   ],
   "note": "False of the code in four ways: Vec.Retain and Vec.DedupByKey drop what the closure pushes to the vector; a closure that looks at the deque during Retain sees accepted elements already moved to the front; a closure that pushes to the container makes VecDeque.Retain and both FillWith endless; the result of Vec.FillWith with a closure that pops depends on an order of evaluation that Go leaves open. Proved: Vec.Retain and Vec.DedupByKey for every closure (number of calls, result, panics), exactly for closures that do not write the elements in place; Vec.FillWith exactly for every closure when the slice is read after the call, and for looking closures in any order; VecDeque.Retain and FillWith for closures that only look, and for any closure that keeps the deque at least as long as the part already written. Missing: deque closures that shrink the deque below that, Vec.FillWith with changing closures when the slice is read before the call."
  },
  {
   "property": "C114",
   "status": "proved",
   "theorems": [
    "C114_heap",
    "C114_heap_pop",
    "C114_btree_terminates",
    "C114_incomparable_key"
   ],
   "note": "Heaps from any contents by any comparison (C114_heap, C114_heap_pop); programs over B-tree maps and sets (C114_btree_terminates, and the exact answers in C54/C58/C81_all_histories_characterised, now without a law for Cmp). Cmp is a pure total function here; panicking functions are C108."
  },
  {
   "property": "C115",
   "status": "proved",
   "theorems": [
    "C115_reading",
    "C115_chars_pop",
    "C115_bytes_kept",
    "C115_case",
    "C115_format"
   ],
   "note": "all byte strings; case mappings are a parameter, as for C87; after the strings package of Go 1.20, whose Split at the empty string slices stray bytes individually (older releases replaced them)"
  },
  {
   "property": "C116",
   "status": "proved",
   "theorems": [
    "C116_histories",
    "C116_reserve"
   ],
   "note": "all programs, all total preorders; heaps that share an array (through IntoVec or AsSlice) are not in it"
  },
  {
   "property": "C117",
   "status": "proved",
   "theorems": [
    "C117_any_comparison",
    "C117_sorted",
    "C117_contract",
    "C117_missing_cmp",
    "C117_deque"
   ],
   "note": "The algorithms of sort.SliceStable and sort.Slice in Go 1.20 are modelled from that release; their source is not in the repository. The comparison is a function of its two arguments (no state of its own)."
  },
  {
   "property": "C118",
   "status": "partial",
   "theorems": [
    "C118_refuted",
    "C118_number_refuted",
    "C118_characterised",
    "C118_front_only_partial",
    "C118_moved_partial",
    "C118_always_ends",
    "C118_append_copy"
   ],
   "note": "False of the code: a copy shares nodes with its original. Proved: exact answers of all programs with read-only copies; values when only the fronts change or the original is dropped; every program ends unless Append joins relatives; Append of a copy never ends walking."
  },
  {
   "property": "C119",
   "status": "partial",
   "theorems": [
    "C119_refuted",
    "C119_search_characterised",
    "C119_deque_search_characterised",
    "C119_search_hangs",
    "C119_search_partial",
    "C119_sort_characterised",
    "C119_never_less",
    "C119_sort_partial",
    "C119_heap_characterised",
    "C119_last_in",
    "C119_heap_partial",
    "C119_lookup_characterised",
    "C119_first_key",
    "C119_btree_partial",
    "C119_pair",
    "C119_btree_all_histories_characterised",
    "C119_btree_terminates",
    "C119_readings_partial"
   ],
   "note": "False of the code: answers are compared with == to the three constants. Refuted by comparison by subtraction; every container is characterised for all integer answers (BTreeMap for every history, by the machine of C54 with its reading of other integers, provided a key compared with itself gets one of the three constants). Sorting and BinaryHeap work by sign when every negative answer is -1; searches and BTreeMap when every answer is one of the three constants; Pair.Cmp always."
  },
  {
   "property": "C120",
   "status": "proved",
   "theorems": [
    "C120_push",
    "C120_pop",
    "C120_into_sorted_vec",
    "C120_search",
    "C120_search_answers",
    "C120_into_sorted_vec_answers"
   ],
   "note": "bounds on the number of calls for every stateful, inconsistent or panicking comparison function; the number of comparisons of the sorting functions (Go sort) is not bounded here"
  },
  {
   "property": "C121",
   "status": "partial",
   "theorems": [
    "C121_growth_partial",
    "C121_growth_new_partial",
    "C121_append_characterised",
    "C121_refuted"
   ],
   "note": "false with Append (and Reserve), which enlarge the buffer without looking at the room there is (refuted for every number of rounds, exact capacities characterised); proved for every history without them"
  },
  {
   "property": "C122",
   "status": "partial",
   "theorems": [
    "C122_awaited_partial",
    "C122_captured_refuted",
    "C122_captured_characterised",
    "C122_captured_partial",
    "C122_pool",
    "C122_functions",
    "C122_forgotten_refuted",
    "C122_await"
   ],
   "note": "false when the slice is changed before the goroutine has read it (also mixtures, C122_captured_refuted) and when main returns first (C122_forgotten_refuted); proved when awaited at once, and for slices left alone until the answer; bytes written characterised in general"
  },
  {
   "property": "C123",
   "status": "partial",
   "theorems": [
    "C123_refuted",
    "C123_map_characterised",
    "C123_set_characterised",
    "C123_map_partial",
    "C123_set_partial"
   ],
   "note": "false of the code: an assignment copies the reference to the Go map, so both variables change together (C123_refuted); C123_map_characterised and C123_set_characterised describe all programs; values for careful programs"
  },
  {
   "property": "C124",
   "status": "proved",
   "theorems": [
    "C124_any_comparison",
    "C124_comparisons",
    "C124_sorted",
    "C124_agrees"
   ],
   "note": "Stable sorting with a stateful, inconsistent or panicking comparison: ends, in range, permutation, number of comparisons; sorted for a preorder."
  },
  {
   "property": "C125",
   "status": "proved",
   "theorems": [
    "C125_any_comparison",
    "C125_comparisons",
    "C125_sorted",
    "C125_agrees"
   ],
   "note": "Unstable sorting with a stateful, inconsistent or panicking comparison: ends, in range, permutation, number of comparisons; ascending for a preorder."
  },
  {
   "property": "C126",
   "status": "proved",
   "theorems": [
    "C126_map",
    "C126_sets",
    "C126_clone",
    "C126_eq"
   ],
   "note": "Histories of a HashMap (C126_map) and of any number of HashSets (C126_sets) in which panics are recovered; Clone and Eq of maps (C126_clone, C126_eq). == is an equivalence on the hashable values; the rule that a lookup in an empty map panics too is that of the Go runtime."
  },
  {
   "property": "C127",
   "status": "partial",
   "theorems": [
    "C127_refuted",
    "C127_characterised",
    "C127_comparisons",
    "C127_kept_partial",
    "C127_sorted_partial"
   ],
   "note": "False of the code: the sorts work on the first Len cells of the buffer, which are not the elements once the front has moved (C127_refuted). For every deque and every comparison these cells are rearranged and nothing else changes (C127_characterised), with the bounds of C124 and C125 (C127_comparisons). The claim holds with the front at cell 0 or a full buffer (C127_kept_partial), sorted with the front at cell 0 (C127_sorted_partial)."
  },
  {
   "property": "C128",
   "status": "partial",
   "theorems": [
    "C128_refuted",
    "C128_fold_partial",
    "C128_map_partial",
    "C128_filter_partial",
    "C128_fold_characterised",
    "C128_list_endless",
    "C128_list_fold_characterised",
    "C128_list_fold_partial",
    "C128_list_map_endless",
    "C128_list_filter_endless",
    "C128_list_map_characterised",
    "C128_list_filter_characterised",
    "C128_list_map_partial",
    "C128_list_filter_partial",
    "C128_deque_refuted",
    "C128_deque_fold_partial",
    "C128_deque_fold_characterised",
    "C128_deque_map_partial",
    "C128_deque_filter_partial",
    "C128_deque_map_characterised",
    "C128_deque_filter_characterised"
   ],
   "note": "False when the function writes elements of the vector in place (C128_refuted), and for lists when it pushes at the back: Fold, Map and Filter then never end (C128_list_endless, C128_list_map_endless, C128_list_filter_endless). C128_fold_partial, C128_map_partial, C128_filter_partial: for every function the method ends and calls it once per element the vector had; on exactly those elements, in order, for functions that do not write them in place. C128_fold_characterised: for functions that do not resize the vector, Fold sees what is at each place at the time of the call. C128_list_fold_characterised, C128_list_map_characterised, C128_list_filter_characterised: exactly which calls are made for a list; C128_list_fold_partial, C128_list_map_partial, C128_list_filter_partial: the elements the list had, for functions that leave the backs of the lists alone. For a deque: C128_deque_refuted; C128_deque_fold_partial, C128_deque_map_partial, C128_deque_filter_partial for calls that leave the deque's elements alone; C128_deque_fold_characterised, C128_deque_map_characterised, C128_deque_filter_characterised for functions that do not resize it."
  }
 ]
}
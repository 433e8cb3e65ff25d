{
 "claims": [
  {
   "property": "C01",
   "status": "proved",
   "theorems": [
    "c01_round_trip",
    "c01_determined"
   ],
   "note": "side conditions of the statement are the predicate writable (SpecRound.v)"
  },
  {
   "property": "C02",
   "status": "proved",
   "theorems": [
    "c02_same_text",
    "c02_same_document",
    "c02_float64_refuted"
   ],
   "note": "text stability for documents without float64, document stability for all; float64 counterexample"
  },
  {
   "property": "C03",
   "status": "proved",
   "theorems": [
    "c03_denotation",
    "c03_lenient",
    "c03_total"
   ],
   "note": "For every object text of the strict and of the lenient grammar. The meaning of scalars is given by SpecToken.token_means; c03_total covers all scalars."
  },
  {
   "property": "C04",
   "status": "proved",
   "theorems": [
    "c04_blanks"
   ],
   "note": ""
  },
  {
   "property": "C05",
   "status": "proved",
   "theorems": [
    "c05_one_result",
    "c05_ends"
   ],
   "note": "For every byte string; c05_ends adds that Parse always ends."
  },
  {
   "property": "C06",
   "status": "proved",
   "theorems": [
    "c06_wrapping"
   ],
   "note": ""
  },
  {
   "property": "C07",
   "status": "proved",
   "theorems": [
    "c07_balance"
   ],
   "note": ""
  },
  {
   "property": "C08",
   "status": "proved",
   "theorems": [
    "c08_refuted",
    "c08_exact",
    "c08_returns",
    "c08_no_panic",
    "c08_truncated"
   ],
   "note": "Panic freedom is false of the code: c08_refuted gives texts on which Parse panics in every state. c08_exact characterises all of them by an independent scanner (SpecPanic.v), c08_returns says every other text gets an answer."
  },
  {
   "property": "C09",
   "status": "proved",
   "theorems": [
    "c09_unsigned",
    "c09_signed",
    "c09_in_range",
    "c09_out_of_range"
   ],
   "note": ""
  },
  {
   "property": "C10",
   "status": "proved",
   "theorems": [
    "c10_nearest",
    "c10_out_of_range",
    "c10_precision_refuted",
    "c10_syntax_refuted"
   ],
   "note": "Nearest float32/float64 for every decimal fraction. That float64 precision is kept and that only JSON numbers are accepted is refuted."
  },
  {
   "property": "C11",
   "status": "proved",
   "theorems": [
    "c11_all_errors",
    "c11_one_error"
   ],
   "note": ""
  },
  {
   "property": "C12",
   "status": "proved",
   "theorems": [
    "c12_keywords"
   ],
   "note": ""
  },
  {
   "property": "C13",
   "status": "proved",
   "theorems": [
    "c13_content",
    "c13_ascii",
    "c13_utf8_refuted",
    "c13_escapes_refuted"
   ],
   "note": "UTF-8 preservation and decoding of escapes are refuted."
  },
  {
   "property": "C14",
   "status": "proved",
   "theorems": [
    "c14_refuted",
    "c14_other_strings"
   ],
   "note": "the English claim is false: refuted for every string ending in a backslash, proved for every other ASCII string"
  },
  {
   "property": "C15",
   "status": "proved",
   "theorems": [
    "c15_keys",
    "c15_container_refuted"
   ],
   "note": "Unescaped for scalar values; refuted for containers."
  },
  {
   "property": "C16",
   "status": "proved",
   "theorems": [
    "c16_duplicates"
   ],
   "note": ""
  },
  {
   "property": "C17",
   "status": "proved",
   "theorems": [
    "c17_elements"
   ],
   "note": ""
  },
  {
   "property": "C18",
   "status": "proved",
   "theorems": [
    "c18_tidy",
    "c18_rejection_refuted"
   ],
   "note": ""
  },
  {
   "property": "C19",
   "status": "proved",
   "theorems": [
    "c19_history",
    "c19_positions"
   ],
   "note": "Refinement of all map, array and value calls to ordered dictionaries and lists, for every valid history from every reachable state."
  },
  {
   "property": "C20",
   "status": "proved",
   "theorems": [
    "c20_keys_values",
    "c20_values_live"
   ],
   "note": "c20_values_live records that Values() hands out the private list itself."
  },
  {
   "property": "C21",
   "status": "proved",
   "theorems": [
    "c21_remove_key"
   ],
   "note": ""
  },
  {
   "property": "C22",
   "status": "proved",
   "theorems": [
    "c22_machine",
    "c22_kept",
    "c22_shifted",
    "c22_refuted",
    "c22_written_refuted"
   ],
   "note": "Kept while no key is removed, for every append strategy; the claim is refuted after RemoveKey, and c22_shifted says exactly what the slice then shows. c22_machine ties the slice model to the map model."
  },
  {
   "property": "C23",
   "status": "proved",
   "theorems": [
    "c19_history",
    "c23_array_index"
   ],
   "note": ""
  },
  {
   "property": "C24",
   "status": "proved",
   "theorems": [
    "c24_set_get",
    "c24_uint_refuted"
   ],
   "note": "Proved for every scalar type but uint and float32. uint has no working getter (refuted); float32 is C30."
  },
  {
   "property": "C25",
   "status": "proved",
   "theorems": [
    "c25_c26_integer_getters",
    "c25_uint_wraps_refuted"
   ],
   "note": "Exact for every stored kind and target but a stored uint above 2^63-1 read by a signed getter, which wraps (refuted)."
  },
  {
   "property": "C26",
   "status": "proved",
   "theorems": [
    "c25_c26_integer_getters"
   ],
   "note": "GetUInt itself is never assigned, see C41."
  },
  {
   "property": "C27",
   "status": "proved",
   "theorems": [
    "c27_signed_text",
    "c27_unsigned_text",
    "c27_bool_text"
   ],
   "note": ""
  },
  {
   "property": "C28",
   "status": "proved",
   "theorems": [
    "c28_absent"
   ],
   "note": ""
  },
  {
   "property": "C29",
   "status": "proved",
   "theorems": [
    "c29_getters_total",
    "c29_mismatch",
    "c29_get_string_refuted",
    "c29_no_error_refuted"
   ],
   "note": "True for all getters but GetString/GetStringValue, which panic (refuted), and except on a Value holding a pointer to a nil error (refuted)."
  },
  {
   "property": "C30",
   "status": "proved",
   "theorems": [
    "c30_set_get",
    "c30_special",
    "c30_read",
    "c30_refuted"
   ],
   "note": "the plain claim is false (c30_refuted); the exact condition is proved"
  },
  {
   "property": "C31",
   "status": "proved",
   "theorems": [
    "c31_integers",
    "c31_float32",
    "c31_decimal_strings"
   ],
   "note": ""
  },
  {
   "property": "C32",
   "status": "proved",
   "theorems": [
    "c32_map",
    "c32_array",
    "c32_one_text",
    "c32_nil_builder"
   ],
   "note": "the model of ToJSONString takes the heap and returns none, so it cannot change a map"
  },
  {
   "property": "C33",
   "status": "proved",
   "theorems": [
    "c33_valid",
    "c33_refuted"
   ],
   "note": "valid under the side conditions; refuted without them"
  },
  {
   "property": "C34",
   "status": "proved",
   "theorems": [
    "c34_equal",
    "c34_copy",
    "c34_one_content",
    "c34_document",
    "c34_text"
   ],
   "note": "Map, Array and Value Clone. Equal content for nil, scalars, times, pointers and containers; SpecClone.copy for every cloneable content"
  },
  {
   "property": "C35",
   "status": "proved",
   "theorems": [
    "c35_apart",
    "c35_independent",
    "c35_text"
   ],
   "note": "later histories are any calls of the modelled API, Parse and Clone"
  },
  {
   "property": "C36",
   "status": "proved",
   "theorems": [
    "c36_errors",
    "c36_returned",
    "c36_panics",
    "c36_never_panics_refuted",
    "c36_ends",
    "c36_cyclic",
    "c36_content"
   ],
   "note": "that Clone never panics is false (c36_never_panics_refuted); the exact cases are proved"
  },
  {
   "property": "C37",
   "status": "proved",
   "theorems": [
    "c37_pointwise",
    "c37_integers",
    "c37_booleans",
    "c37_strings",
    "c37_strings_panic",
    "c37_map",
    "c37_unassigned_refuted"
   ],
   "note": "c37_pointwise covers every assigned GetArrayOf* method for all arrays in terms of the elements' own getters; the integer, boolean and string forms are also stated from what the elements denote. The claim is refuted for strings (a non-string element panics) and for the four methods that are never assigned."
  },
  {
   "property": "C38",
   "status": "proved",
   "theorems": [
    "c38_shared_set",
    "c38_shared_append",
    "c19_history"
   ],
   "note": ""
  },
  {
   "property": "C39",
   "status": "proved",
   "theorems": [
    "c39_fresh_tree"
   ],
   "note": "For every byte string."
  },
  {
   "property": "C40",
   "status": "proved",
   "theorems": [
    "c40_typed"
   ],
   "note": "For every byte string."
  },
  {
   "property": "C41",
   "status": "proved",
   "theorems": [
    "c41_refuted",
    "c41_set",
    "c41_model"
   ],
   "note": "Refuted: the exact list of fields each constructor leaves nil."
  },
  {
   "property": "C42",
   "status": "proved",
   "theorems": [
    "c42_terminates",
    "c42_array",
    "c42_diverges",
    "c42_exactly"
   ],
   "note": ""
  },
  {
   "property": "C43",
   "status": "proved",
   "theorems": [
    "c43_six_digits",
    "c43_stable"
   ],
   "note": ""
  },
  {
   "property": "C44",
   "status": "proved",
   "theorems": [
    "c44_map_of_values",
    "c44_array_of_values"
   ],
   "note": ""
  },
  {
   "property": "C45",
   "status": "proved",
   "theorems": [
    "c45_exclusive",
    "c45_scalar",
    "c45_container"
   ],
   "note": ""
  },
  {
   "property": "C46",
   "status": "proved",
   "theorems": [
    "c46_text"
   ],
   "note": ""
  },
  {
   "property": "C47",
   "status": "proved",
   "theorems": [
    "c47_text",
    "c47_round_trip",
    "c47_get",
    "c47_array",
    "c47_clone"
   ],
   "note": "c47_clone assumes that fmt.Errorf returns texts without a percent sign unchanged. c47_get: GetErrors on the stored list itself depends on whether the environment's type predicates accept []error."
  },
  {
   "property": "C48",
   "status": "proved",
   "theorems": [
    "c48_alone",
    "c48_serial",
    "c48_duplicate_refuted",
    "c48_lost_refuted",
    "c48_race_refuted"
   ],
   "note": "Refuted for every map; proved for goroutines that take turns. Accesses to shared variables are atomic in the model."
  },
  {
   "property": "C49",
   "status": "proved",
   "theorems": [
    "c49_text",
    "c49_bytes",
    "c49_other"
   ],
   "note": "For every byte string, valid UTF-8 or not."
  },
  {
   "property": "C50",
   "status": "proved",
   "theorems": [
    "c50_edit",
    "c50_everywhere",
    "c50_elsewhere",
    "c50_reading"
   ],
   "note": "For acyclic structures with any sharing; documents exist exactly for those."
  },
  {
   "property": "C51",
   "status": "proved",
   "theorems": [
    "c51_text",
    "c51_round_trip",
    "c51_clone",
    "c51_clone_value",
    "c51_elements"
   ],
   "note": "Errors whose dynamic type is *errors.errorString, and *error."
  },
  {
   "property": "C52",
   "status": "proved",
   "theorems": [
    "c52_map",
    "c52_array",
    "c52_one_text",
    "c52_panics",
    "c52_array_panics"
   ],
   "note": "Contents of finite depth; cyclic ones are C42. The time format and the escaping of keys are parameters of the environment."
  },
  {
   "property": "C53",
   "status": "proved",
   "theorems": [
    "c53_range",
    "c53_string",
    "c53_map",
    "c53_nil",
    "c53_elements"
   ],
   "note": "The exact outcome for every element."
  },
  {
   "property": "C54",
   "status": "proved",
   "theorems": [
    "c54_equal",
    "c54_empty",
    "c54_string"
   ],
   "note": "The exact outcome for every object."
  },
  {
   "property": "C55",
   "status": "proved",
   "theorems": [
    "c55_get",
    "c55_set_get",
    "c55_is_nil"
   ],
   "note": "Functions are identified by a number; common.IsFunc is taken to hold of func(string) []error and pointers to it."
  },
  {
   "property": "C56",
   "status": "proved",
   "theorems": [
    "c56_map",
    "c56_value",
    "c56_array",
    "c56_tables"
   ],
   "note": "Methods looked up by name in tables generated from the constructors' literals; c56_tables ties the tables to those of C41. Map has no GetBoolValue (C41)."
  },
  {
   "property": "C57",
   "status": "proved",
   "theorems": [
    "c57_points",
    "c57_write",
    "c57_exists",
    "c57_copy_refuted",
    "c57_parsed_refuted"
   ],
   "note": "Which getters hand out the stored pointer, exactly; that they all return copies is refuted."
  },
  {
   "property": "C58",
   "status": "proved",
   "theorems": [
    "c58_map",
    "c58_value",
    "c58_time_value",
    "c58_set_get",
    "c58_lost_refuted",
    "c58_missing_refuted"
   ],
   "note": "common.GetTime and its relatives are a parameter over which the theorems quantify. That a stored time is returned, and that GetTimeValue reports a missing time, are refuted."
  },
  {
   "property": "C59",
   "status": "proved",
   "theorems": [
    "c59_program",
    "c59_aligned_refuted"
   ],
   "note": "Exact results of all calls, including Values(). The list is changed by its methods; storing it inside another map or array, and Clone after such calls, are not covered."
  },
  {
   "property": "C60",
   "status": "proved",
   "theorems": [
    "c60_read"
   ],
   "note": "Composes Parse with the getters. There is no getter for uint; tokens that are neither keyword nor integer nor decimal make Parse fail or are hex floats and the like (C11, C13)."
  },
  {
   "property": "C61",
   "status": "proved",
   "theorems": [
    "c61_trip",
    "c61_uint_refuted"
   ],
   "note": "Composes C01 with the getters along paths. That the integer getters agree without exception is refuted for uint above MaxInt64."
  },
  {
   "property": "C62",
   "status": "proved",
   "theorems": [
    "c62_text_only",
    "c62_reads"
   ],
   "note": "Relates two executions of Parse; the errors compared are the model's error values, not their texts."
  },
  {
   "property": "C63",
   "status": "proved",
   "theorems": [
    "c63_map",
    "c63_array",
    "c63_value"
   ],
   "note": "For errors, times and functions see C34 (what their copies are)."
  },
  {
   "property": "C64",
   "status": "proved",
   "theorems": [
    "c64_convert",
    "c64_one",
    "c64_elements"
   ],
   "note": "The texts of time, url and exec values and of nested Values are oracle results (x_time, x_sprint)."
  },
  {
   "property": "C65",
   "status": "proved",
   "theorems": [
    "c65_here",
    "c65_missing",
    "c65_names",
    "c65_nil_pointer_refuted"
   ],
   "note": "Carries the statements about Map getters (C24-C31, C45) over to the Value API."
  },
  {
   "property": "C66",
   "status": "proved",
   "theorems": [
    "c66_get",
    "c66_text",
    "c66_unknown",
    "c66_clone_nil",
    "c66_clone"
   ],
   "note": "The hole left by an unknown error type makes the text invalid JSON."
  },
  {
   "property": "C67",
   "status": "proved",
   "theorems": [
    "c67_grammar",
    "c67_objects",
    "c67_accepts",
    "c67_conforms",
    "c67_rejects_refuted",
    "c67_reads_refuted"
   ],
   "note": "c67_rejects_refuted and c67_reads_refuted give the exceptions."
  },
  {
   "property": "C68",
   "status": "proved",
   "theorems": [
    "c68_counters",
    "c68_metrics_map"
   ],
   "note": ""
  },
  {
   "property": "C69",
   "status": "proved",
   "theorems": [
    "c69_alone",
    "c69_result",
    "c69_panic",
    "c69_apart",
    "c69_progress",
    "c69_stays"
   ],
   "note": "Interleaving at the granularity of one iteration of the parse loop; c69_apart shows that the iterations of different calls change different objects."
  },
  {
   "property": "C70",
   "status": "proved",
   "theorems": [
    "c70_points",
    "c70_write",
    "c70_apart",
    "c70_map",
    "c70_copy_refuted"
   ],
   "note": ""
  },
  {
   "property": "C71",
   "status": "proved",
   "theorems": [
    "c71_one_reading",
    "c71_writes",
    "c71_structure",
    "c71_valid",
    "c71_reads",
    "c71_misread_refuted"
   ],
   "note": "sharpens C33 to an equivalence"
  },
  {
   "property": "C72",
   "status": "proved",
   "theorems": [
    "c72_from_text",
    "c72_size",
    "c72_quotation_refuted"
   ],
   "note": "For every byte string."
  },
  {
   "property": "C73",
   "status": "proved",
   "theorems": [
    "c73_normal",
    "c73_unique",
    "c73_same",
    "c73_exact",
    "c73_grows_refuted"
   ],
   "note": "For all accepted texts with writable documents; C02 is about maps built by calls."
  },
  {
   "property": "C74",
   "status": "proved",
   "theorems": [
    "c74_replace",
    "c74_rewritten",
    "c74_grammar",
    "c74_written",
    "c74_object",
    "c74_array",
    "c74_trailing_refuted"
   ],
   "note": "whole and before_value are stated with the document-free reader of C08; malformed texts are included as long as Parse accepts them."
  },
  {
   "property": "C75",
   "status": "proved",
   "theorems": [
    "c75_outcome",
    "c75_total",
    "c75_unique",
    "c75_member"
   ],
   "note": "Completes C03, where some numbers with a point were left open. The syntax of strconv.ParseFloat is part of the model of the Go library."
  },
  {
   "property": "C76",
   "status": "proved",
   "theorems": [
    "c76_outcome",
    "c76_panic",
    "c76_total",
    "c76_unique",
    "c76_accepted"
   ],
   "note": "The reader is the one of C08; the meanings of scalars are those of C75. Shows that stray bytes between tokens, repeated keys and brackets of the wrong kind are accepted."
  },
  {
   "property": "C77",
   "status": "proved",
   "theorems": [
    "c77_same",
    "c77_start",
    "c77_separate",
    "c77_address_refuted",
    "c77_calls"
   ],
   "note": "c77_address_refuted: the text of a *string in a Value in a Value is what fmt prints for a pointer, so with that text a program sees addresses. Goroutines are not part of these programs (C48, C69)."
  },
  {
   "property": "C78",
   "status": "proved",
   "theorems": [
    "c78_unnoticed",
    "c78_reads",
    "c78_sharing_refuted"
   ],
   "note": "A turn is a whole call; the steps inside a call are interleaved in C48 (setters) and C69 (Parse)."
  },
  {
   "property": "C79",
   "status": "proved",
   "theorems": [
    "c79_messages",
    "c79_panic",
    "c79_total",
    "c79_unique"
   ],
   "note": "strconv.Quote is modelled for code points below 256, which are the only ones in the parser's values."
  },
  {
   "property": "C80",
   "status": "proved",
   "theorems": [
    "c80_value",
    "c80_map",
    "c80_key",
    "c80_array",
    "c80_map_array",
    "c80_element",
    "c80_changes",
    "c80_as_many"
   ],
   "note": "strconv.Quote is a parameter of the statements.  Messages often name another method (Map.GetInt64, Map.GetBool, Map.Func; Array.GetMap says GetStringValue), end in %!s(MISSING) (GetFloat64, GetRunes), say *string for plain strings, and say 'index must be non-zero' for negative indices."
  },
  {
   "property": "C81",
   "status": "proved",
   "theorems": [
    "c81_map",
    "c81_array",
    "c81_value",
    "c81_one",
    "c81_builder",
    "c81_key",
    "c81_string",
    "c81_clone",
    "c81_as_many",
    "c81_clone_as_many"
   ],
   "note": "The message of common.EscapeString is a parameter of the statements.  Clone reads the state it was called in, which is what C36 justifies."
  },
  {
   "property": "C82",
   "status": "proved",
   "theorems": [
    "c82_recognises",
    "c82_exactly",
    "c82_text_refuted"
   ],
   "note": "The converse of C77.  The handles must have the same types and be equal in the same places, which a Go program knows from its own variables.  The second theorem assumes, like C77, that fmt prints no addresses."
  },
  {
   "property": "C83",
   "status": "proved",
   "theorems": [
    "c83_tests",
    "c83_main"
   ],
   "note": "The tests are translated condition by condition from /repo/tests (TestSuiteValues, TestSuiteArrays); what they print is not modelled.  The environment of the tests is the standard one of Common.v."
  },
  {
   "property": "C84",
   "status": "proved",
   "theorems": [
    "c84_keys",
    "c84_right",
    "c84_clear_refuted",
    "c84_copy",
    "c84_forward_refuted",
    "c84_backward"
   ],
   "note": "The loop is modelled on the slice of keys (KeysSlice) and tied to the map by C22: the keys it gives to RemoveKey, given to the map of the heap model, have the stated result."
  },
  {
   "property": "C85",
   "status": "proved",
   "theorems": [
    "c85_machine",
    "c85_exact",
    "c85_appended",
    "c85_set",
    "c85_removed",
    "c85_left",
    "c85_depends_refuted",
    "c85_loop",
    "c85_right"
   ],
   "note": "ElemSlice models the slice of elements with backing arrays; c85_machine ties it to the array of the heap model.  Writes of the program through the pointer that GetValues returns are the subject of C91."
  },
  {
   "property": "C86",
   "status": "proved",
   "theorems": [
    "c86_same",
    "c86_start",
    "c86_separate",
    "c86_count"
   ],
   "note": "Joins the programs of C77 with the texts of C79, C80 and C81.  The messages of strconv.Quote, of common.EscapeString and of the time library are parameters that may depend on their arguments only; fmt must not print addresses (C77 shows that this is needed)."
  },
  {
   "property": "C87",
   "status": "proved",
   "theorems": [
    "c87_unnoticed",
    "c87_covers"
   ],
   "note": "Generalises C78: the condition is about what each program does when alone, not about the kinds of calls it makes; c87_covers shows that the teams of C78 meet it.  Calls are atomic, as in C78.  That the condition is needed is c78_sharing_refuted."
  },
  {
   "property": "C88",
   "status": "proved",
   "theorems": [
    "c88_alone",
    "c88_race",
    "c88_calls",
    "c88_apart",
    "c88_readers",
    "c88_removes_refuted",
    "c88_torn_refuted"
   ],
   "note": "Extends C48 from setters to removing and reading, and from one call to any number.  c88_alone ties the sequences of accesses to the model of one goroutine; c88_race holds for all sequences of accesses.  Accesses are sequentially consistent; a slice and its backing array count as one variable.  The _refuted theorems are the findings about calls that disturb each other."
  },
  {
   "property": "C89",
   "status": "proved",
   "theorems": [
    "c89_odd",
    "c89_one",
    "c89_panic_refuted",
    "c89_lost_refuted",
    "c89_forged_refuted"
   ],
   "note": "c89_odd and c89_one hold for all documents and generalise C14, which is about one string.  The _refuted theorems are families of documents on which write-then-read panics, loses a member or adds one; C71 is the same question for other readers of JSON."
  },
  {
   "property": "C90",
   "status": "proved",
   "theorems": [
    "c90_alone",
    "c90_race",
    "c90_calls",
    "c90_sets",
    "c90_others",
    "c90_kept",
    "c90_apart",
    "c90_owners",
    "c90_append_refuted",
    "c90_set_refuted"
   ],
   "note": "The counterpart of C88 for arrays, with the slice header and every element of every backing array as separate variables.  c90_alone ties the sequences of accesses to the model of one goroutine.  Accesses are sequentially consistent; the copying of append reads all elements before it writes them; which backing array and capacity append chooses is a parameter of the call.  The _refuted theorems are the findings about calls that disturb each other."
  },
  {
   "property": "C91",
   "status": "proved",
   "theorems": [
    "c91_methods",
    "c91_set",
    "c91_append",
    "c91_copy",
    "c91_cut",
    "c91_store",
    "c91_both",
    "c91_depends_refuted",
    "c91_own",
    "c91_heap"
   ],
   "note": "PokeModel adds the statements of the program to the slice model of C85; c91_heap ties the result to the heap model.  Slices start at the beginning of their backing arrays.  c91_depends_refuted is the finding that the elements of the array itself then depend on capacities."
  },
  {
   "property": "C92",
   "status": "proved",
   "theorems": [
    "c92_program",
    "c92_sorted",
    "c92_held",
    "c92_depends_refuted",
    "c92_aligned_refuted"
   ],
   "note": "c92_program is about the heap model, c92_sorted and c92_held about the slice with its backing arrays (KeysSlice); the content written is the tie between them.  Writes that are no reordering are in C93.  c92_depends_refuted and c92_aligned_refuted are findings."
  },
  {
   "property": "C93",
   "status": "proved",
   "theorems": [
    "c93_program",
    "c93_others",
    "c93_text",
    "c93_level",
    "c93_removed",
    "c93_set",
    "c93_written_refuted"
   ],
   "note": "The slice written is one that has just been taken; that a write to it changes that element of internal_keys and no other is c22_written_refuted (backing arrays), and for slices taken earlier see C22 and C92.  c93_text takes the texts of the values as given, so it applies at every depth; c93_others says when they are those of the program without the writes.  c93_written_refuted is a finding."
  },
  {
   "property": "C94",
   "status": "proved",
   "theorems": [
    "c94_program",
    "c94_alike",
    "c94_count",
    "c94_text",
    "c94_said_refuted"
   ],
   "note": "Joins C59 (lists of values) and C93 (names) in one program.  From c94_count: the test len(getKeys()) == 0 in setInternalValue never decides anything, even for such programs.  c94_said_refuted is a finding: GetKeys and Values can be made to say anything."
  },
  {
   "property": "C95",
   "status": "proved",
   "theorems": [
    "c95_adds",
    "c95_names",
    "c95_entries",
    "c95_deep",
    "c95_same_refuted"
   ],
   "note": "Joins C94 (such programs) with Clone.  c95_same_refuted is a finding: renaming in the slice of GetKeys makes Clone drop the entry and add nil under the new name.  c95_deep says the same of nested maps, arrays and Values at every depth; a nil pointer becomes nil, an instant stays the same and a list of errors keeps its length.  Of single errors, functions and values of other types it says nothing."
  }
 ]
}
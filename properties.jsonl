{"id": "C01", "title": "Serialise/parse round trip", "statement": "For every document built from nulls, booleans, integers of every Go width, finite decimals, strings, arrays and maps, Parse(ToJSONString(m)) returns a map with the same keys in the same order and the same values (integers come back with the narrowest type, decimals with the %f-rounded value), provided every string is ASCII and does not end in a backslash and keys of nested containers contain no double quote.", "quantifier": "all finite documents of any depth, width and string content meeting the stated side conditions", "why_tests_cant": "the space of documents is infinite and nesting depth is unbounded; tests only sample shapes", "anchors": ["json/JSON.go:Parse", "json/JSON.go:parseJSONMap", "json/JSON.go:parseJSONValue", "json/JSON.go:ConvertInterfaceValueToJSONStringValue", "json/Map.go:ToJSONString", "json/Array.go:ToJSONString"]}
{"id": "C02", "title": "Serialisation is stable after one round trip", "statement": "If a document free of float64 values round trips, serialising the parsed map yields byte for byte the text that was parsed.", "quantifier": "all round-trippable documents", "why_tests_cant": "needs the equality for every document and every decimal value", "anchors": ["json/JSON.go:Parse", "json/JSON.go:ConvertInterfaceValueToJSONStringValue"]}
{"id": "C03", "title": "Parse accepts every JSON object text and returns the document it denotes", "statement": "For every text of a JSON object (quoted keys, quoted or unquoted scalars, nested arrays and objects, arbitrary blanks between tokens) Parse terminates without panic and returns exactly the denoted document, or exactly the errors of the malformed scalars it contains.", "quantifier": "all object texts derivable in the grammar, every nesting depth and blank placement", "why_tests_cant": "grammar derivations are unbounded; a state machine bug may need a particular nesting to show", "anchors": ["json/JSON.go:Parse", "json/JSON.go:parseJSONMap", "json/JSON.go:parseJSONValue"]}
{"id": "C04", "title": "Blanks between tokens are irrelevant", "statement": "Two texts of the same object that differ only in spaces, tabs, CR and LF between tokens give the same result from Parse.", "quantifier": "all pairs of texts of one token tree", "why_tests_cant": "placement and amount of blanks are unbounded", "anchors": ["json/JSON.go:parseJSONMap"]}
{"id": "C05", "title": "Parse returns a map or errors, never both nor neither", "statement": "Whenever Parse returns, it returns either a non-nil map and nil errors, or a nil map and at least one error.", "quantifier": "all byte strings", "why_tests_cant": "callers rely on it for arbitrary untrusted input", "anchors": ["json/JSON.go:Parse"]}
{"id": "C06", "title": "Parse rejects texts not wrapped in braces", "statement": "If the text is empty, does not start with '{' or does not end with '}', Parse returns exactly one error per violated rule, in a fixed order, and no map; in particular leading or trailing blanks are rejected.", "quantifier": "all byte strings", "why_tests_cant": "universal over input", "anchors": ["json/JSON.go:Parse"]}
{"id": "C07", "title": "Brackets and quotes balance on success", "statement": "If Parse succeeds, the number of '{' outside quoted text equals the number of '}', likewise '[' and ']', and the text has an even number of unescaped quotes.", "quantifier": "all byte strings", "why_tests_cant": "an invariant of every run of the scanner", "anchors": ["json/JSON.go:Parse", "json/JSON.go:parseJSONMap"]}
{"id": "C08", "title": "Parse does not panic on malformed input", "statement": "Users expect Parse to return errors instead of panicking for every input text.  The code violates this: it panics on a text that starts with { and ends with } exactly when, reading from the left, a bracket closes with no container open, an array opens with no container open, or a value of an open container ends while it consists of a single double quote (possibly after one backslash) and blanks; on every other text it returns a map or errors.  In particular it never panics on a well-formed text or on a truncation of one.", "quantifier": "all byte strings", "why_tests_cant": "panic freedom is a claim about every input", "anchors": ["json/JSON.go:parseJSONMap", "json/JSON.go:parseJSONValue", "json/JSON.go:unquote_key_value"]}
{"id": "C09", "title": "Integer literals keep their exact value in the narrowest type", "statement": "Every unquoted decimal integer literal in [-2^63, 2^64-1], at any position of a document, is stored with its exact value: non-negative literals in the narrowest of uint8/16/32/64 and negative ones in the narrowest of int8/16/32/64; literals outside the range make Parse fail.", "quantifier": "all integer literals (including leading zeros) at all positions", "why_tests_cant": "2^65 values times all positions; boundaries only sampled by tests", "anchors": ["json/JSON.go:parseJSONValue"]}
{"id": "C10", "title": "Decimal literals are stored as the nearest float32 when that does not overflow", "statement": "A literal with one decimal point is stored as the float32 nearest to it (ties to even) unless it exceeds the float32 range, then as the nearest float64, and makes Parse fail if it exceeds that too or is malformed.  (That the literal keeps float64 precision is false.)", "quantifier": "all literals with a decimal point", "why_tests_cant": "real-valued input space", "anchors": ["json/JSON.go:parseJSONValue"]}
{"id": "C11", "title": "A malformed scalar anywhere fails the whole parse", "statement": "If any scalar in the text is malformed (misplaced or repeated '-', several '.', not a number, out of range), Parse returns no map and reports the errors of all malformed scalars in text order.", "quantifier": "all object texts with at least one malformed scalar at any depth", "why_tests_cant": "unbounded positions and token contents", "anchors": ["json/JSON.go:parseJSONMap", "json/JSON.go:parseJSONValue"]}
{"id": "C12", "title": "Literals true, false and null", "statement": "Unquoted true/false/null denote the booleans and nil at every position, whatever blanks surround or even interrupt them.", "quantifier": "all positions and blank insertions", "why_tests_cant": "unbounded positions", "anchors": ["json/JSON.go:parseJSONValue"]}
{"id": "C13", "title": "Quoted strings keep their content", "statement": "A quoted value is stored as its body with each \\\" replaced by \" and every byte below 0x80 unchanged; no other escape is decoded.  (Preservation of UTF-8 text is false: every byte >= 0x80 is re-encoded as if Latin-1.)", "quantifier": "all string bodies", "why_tests_cant": "infinite string space including all byte values", "anchors": ["json/JSON.go:parseJSONMap", "json/JSON.go:parseJSONValue"]}
{"id": "C14", "title": "Strings ending in a backslash", "statement": "A string value ending in a backslash serialises to text which Parse reads back as the same string.  (False; the exact side condition is 'does not end in a backslash'.)", "quantifier": "all strings", "why_tests_cant": "universal over strings", "anchors": ["json/JSON.go:ConvertInterfaceValueToJSONStringValue", "json/JSON.go:parseJSONMap"]}
{"id": "C15", "title": "Keys are unescaped like string values", "statement": "A key containing escaped quotes is stored unescaped whatever the type of its value.  (True for scalar values, false for nested maps and arrays.)", "quantifier": "all key bodies and value shapes", "why_tests_cant": "universal over keys", "anchors": ["json/JSON.go:unquote_key_value", "json/JSON.go:parseJSONMap", "json/JSON.go:parseJSONValue"]}
{"id": "C16", "title": "Duplicate keys: last value wins, first position kept", "statement": "When an object text repeats a key, the parsed map holds the last value at the position of the first occurrence.", "quantifier": "all member lists", "why_tests_cant": "any number and position of duplicates", "anchors": ["json/JSON.go:parseJSONMap", "json/Map.go:setInternalValue"]}
{"id": "C17", "title": "Array elements keep order and multiplicity", "statement": "Parsing an array yields exactly the sequence of its elements, nulls included; empty slots between commas are ignored.", "quantifier": "all arrays of any length and nesting", "why_tests_cant": "unbounded length", "anchors": ["json/JSON.go:parseJSONMap", "json/Array.go:AppendValue"]}
{"id": "C18", "title": "Lenient acceptance: missing values, missing or extra separators, junk between members", "statement": "Parse silently drops a key with no value, ignores extra commas, does not need commas after strings and containers, skips any non-structural bytes before a key, and accepts mismatched bracket kinds and trailing objects (the claim that it rejects them is refuted).", "quantifier": "all texts of the lenient grammar", "why_tests_cant": "universal acceptance claim", "anchors": ["json/JSON.go:parseJSONMap"]}
{"id": "C19", "title": "Map operations behave as an insertion-ordered dictionary", "statement": "For every sequence of Set*/SetNil/SetValue/RemoveKey/HasKey/GetValue/GetKeys calls on a map, each call returns what an insertion-ordered dictionary would, overwriting keeps the key's position, and re-adding a removed key puts it last.", "quantifier": "all finite histories of calls, all keys and values", "why_tests_cant": "histories are unbounded", "anchors": ["json/Map.go:NewMapOfValues", "json/Map.go:setInternalValue", "json/Map.go:removeKey", "json/Map.go:getKeys", "json/Map.go:hasKey"]}
{"id": "C20", "title": "Keys are unique and Values() is aligned with GetKeys()", "statement": "After every history of map operations GetKeys() has no duplicates, contains exactly the keys for which HasKey is true, and the i-th element of Values() is the value stored under the i-th key; Values() is the private list itself, not a copy.", "quantifier": "all reachable map states", "why_tests_cant": "reachability invariant", "anchors": ["json/Map.go:setInternalValue", "json/Map.go:removeKey", "json/Map.go:Values", "json/Array.go:SetValueAtIndex", "json/Array.go:RemoveValueAtIndex"]}
{"id": "C21", "title": "RemoveKey", "statement": "RemoveKey of a present key returns (true, nil), removes only that key and keeps the order of the others; of an absent key it returns (false, error) and changes nothing.", "quantifier": "all reachable maps and keys", "why_tests_cant": "universal over states", "anchors": ["json/Map.go:RemoveKey", "json/Map.go:removeKey"]}
{"id": "C22", "title": "Slices returned by GetKeys", "statement": "A slice obtained from GetKeys() keeps its contents under later calls.  (True for any sequence of Set calls; false as soon as RemoveKey is called, which shifts the shared backing array.)", "quantifier": "all histories after the call", "why_tests_cant": "aliasing depends on capacity growth and history", "anchors": ["json/Map.go:getKeys", "json/Map.go:removeKey"]}
{"id": "C23", "title": "Array operations behave as a list", "statement": "For every sequence of Append*/SetValueAtIndex/RemoveValueAtIndex/Len calls an array behaves as a list; an index that is negative or past the end returns (false, error) and changes nothing.", "quantifier": "all finite histories and indices", "why_tests_cant": "unbounded histories", "anchors": ["json/Array.go:NewArrayOfValues", "json/Array.go:SetValueAtIndex", "json/Array.go:RemoveValueAtIndex"]}
{"id": "C24", "title": "Set then get returns the stored value and disturbs no other key", "statement": "For every scalar type T, after SetT(k,v) or SetTValue(k,v) the getter GetT(k) returns v with no error, and every getter on every other key returns what it returned before.", "quantifier": "all values of all scalar types, all keys, all prior map states", "why_tests_cant": "value and state spaces are unbounded", "anchors": ["json/Map.go:SetInt", "json/Map.go:GetInt", "json/Value.go:GetInt64", "json/Value.go:GetUInt64", "json/Value.go:GetString", "json/Value.go:GetBool"]}
{"id": "C25", "title": "Integer getters never return a wrong number", "statement": "GetInt8/16/32/64/Int and their Value forms return the stored integer exactly when it fits the target type, and an error otherwise, whatever the stored integer type.  (False for a stored uint above 2^63-1, which GetInt64 wraps to a negative number.)", "quantifier": "all stored integer kinds and values, all target widths", "why_tests_cant": "10 source kinds x 10 getters x 2^64 values", "anchors": ["json/Value.go:GetInt64", "json/Value.go:GetInt8", "json/Value.go:GetInt16", "json/Value.go:GetInt32", "json/Value.go:GetInt"]}
{"id": "C26", "title": "Unsigned getters reject negatives and overflow", "statement": "GetUInt8/16/32/64 and Value forms return the stored integer exactly when it is non-negative and fits, and an error otherwise.", "quantifier": "all stored integer kinds and values", "why_tests_cant": "as above", "anchors": ["json/Value.go:GetUInt64", "json/Value.go:GetUInt8", "json/Value.go:GetUInt16", "json/Value.go:GetUInt32"]}
{"id": "C27", "title": "Numeric and boolean strings", "statement": "Integer getters on a stored string accept exactly the base-10 numerals in range (with NULL as nil for unsigned getters) and GetBool accepts exactly 1/true and 0/false; anything else is an error.", "quantifier": "all strings", "why_tests_cant": "infinite", "anchors": ["json/Value.go:GetInt64", "json/Value.go:GetUInt64", "json/Value.go:GetBool", "json/Value.go:GetBoolValue"]}
{"id": "C28", "title": "Missing and nil values", "statement": "For a missing key, a nil value or a typed nil pointer, pointer getters return (nil, nil), Value getters return the zero value with an error, type predicates return false and GetType returns \"nil\"; IsNull is true exactly then.", "quantifier": "all map states and keys, all getters", "why_tests_cant": "universal over states and getters", "anchors": ["json/Map.go:isValueNilForMap", "json/Map.go:GetType", "json/Value.go:IsNil"]}
{"id": "C29", "title": "Getters report a type mismatch as an error", "statement": "A getter applied to a value of an unsupported type returns an error and never panics.  (False for GetString/GetStringValue, which panic on every non-nil non-string value; true for the integer, float and bool getters, except on a Value holding a pointer to a nil error.)", "quantifier": "all stored values", "why_tests_cant": "universal over values", "anchors": ["json/Value.go:GetString", "json/Value.go:GetStringValue", "json/Array.go:GetArrayOfString"]}
{"id": "C30", "title": "GetFloat32 returns the stored float32", "statement": "SetFloat32Value(k,x) followed by GetFloat32(k) returns x.  (False: the value is re-read through a six-decimal text; it holds for every finite x with |x| >= 16 and for every x that is the nearest float32 of a six-decimal number below 16.)", "quantifier": "all float32 values", "why_tests_cant": "2^32 values and a real-analysis argument", "anchors": ["json/Value.go:GetFloat32", "json/Value.go:GetFloat32Value"]}
{"id": "C31", "title": "GetFloat64 converts integers to the nearest float64", "statement": "GetFloat64 on a stored integer of any type returns the nearest float64, which is the integer itself whenever |n| <= 2^53; on a stored float32 it returns exactly that number.", "quantifier": "all integers of all types", "why_tests_cant": "2^64 values", "anchors": ["json/Value.go:GetFloat64", "json/Value.go:GetFloat64Value"]}
{"id": "C32", "title": "ToJSONString appends exactly the rendering of the map", "statement": "ToJSONString(b) leaves the previous content of b as a prefix, appends the rendering of the map with members in key order, returns nil errors and changes no map; with a nil builder it returns an error.", "quantifier": "all acyclic maps, all builder contents", "why_tests_cant": "universal", "anchors": ["json/Map.go:ToJSONString", "json/Array.go:ToJSONString", "json/JSON.go:ConvertInterfaceValueToJSONStringValue"]}
{"id": "C33", "title": "ToJSONString output is valid JSON", "statement": "The text produced is valid RFC 8259 JSON.  (True when strings and keys contain no backslash and no control character and floats are finite; not in general. C71 gives the exact condition.)", "quantifier": "all documents", "why_tests_cant": "grammar membership for unbounded documents", "anchors": ["json/Map.go:ToJSONString", "json/JSON.go:ConvertInterfaceValueToJSONStringValue"]}
{"id": "C34", "title": "Clone is deep-equal", "statement": "Clone returns a map or array representing the same document: same keys, order, values and scalar types.", "quantifier": "all acyclic maps and arrays of supported types", "why_tests_cant": "unbounded structures", "anchors": ["json/Map.go:clone", "json/Array.go:clone", "json/Value.go:clone"]}
{"id": "C35", "title": "Clone is independent", "statement": "After Clone, no sequence of operations on the original (or anything reachable from it) changes the document represented by the clone, and vice versa.", "quantifier": "all structures and all later histories", "why_tests_cant": "aliasing bugs depend on arbitrary later mutations", "anchors": ["json/Map.go:clone", "json/Array.go:clone", "json/Value.go:clone"]}
{"id": "C36", "title": "Clone failure modes", "statement": "Clone of a structure holding an unsupported type returns nil and errors; it never panics.  (False for arrays holding a nil *Value, lists of errors with a nil error and pointers to a nil error.)", "quantifier": "all structures", "why_tests_cant": "universal", "anchors": ["json/Array.go:clone", "json/Value.go:clone"]}
{"id": "C37", "title": "GetArrayOf* is all-or-nothing and order preserving", "statement": "GetArrayOfT returns the element-wise conversions in order when every element converts, and otherwise no slice and the errors of every failing element in order.", "quantifier": "all arrays", "why_tests_cant": "unbounded length and contents", "anchors": ["json/Array.go:GetArrayOfInt8", "json/Array.go:GetArrayOfUInt64", "json/Array.go:GetArrayOfBool", "json/Array.go:GetArrayOfInt64Value"]}
{"id": "C38", "title": "Containers are shared by reference", "statement": "A map or array obtained by GetMap/GetArray or stored by SetMap/SetArray/AppendMap is live: later mutations through either handle are visible through the other.", "quantifier": "all states and mutations", "why_tests_cant": "aliasing across histories", "anchors": ["json/Value.go:GetMap", "json/Value.go:GetArray", "json/Map.go:SetMap", "json/Map.go:SetMapValue", "json/Array.go:AppendMap"]}
{"id": "C39", "title": "Parse results are fresh and tree shaped", "statement": "The structure returned by Parse shares no mutable state with any structure existing before the call nor between two of its own branches.", "quantifier": "all texts, all pre-existing program states", "why_tests_cant": "universal over heaps", "anchors": ["json/JSON.go:parseJSONMap"]}
{"id": "C40", "title": "Every value produced by Parse is well typed", "statement": "For every input on which Parse succeeds, every integer in the result is in the narrowest type, every decimal is a float32 or a float64 outside the float32 range, every string is the UTF-8 encoding of code points below 256, and every map has unique keys.", "quantifier": "all byte strings on which Parse succeeds", "why_tests_cant": "invariant of all runs, including malformed but accepted texts", "anchors": ["json/JSON.go:parseJSONMap", "json/JSON.go:parseJSONValue"]}
{"id": "C41", "title": "Every declared method can be called", "statement": "Each function-valued field of Map, Array and Value is set by the constructors.  (False: GetUInt, GetUIntValue, GetArrayOfInt, GetArrayOfUInt and others are left nil and panic when called.)", "quantifier": "all constructors and histories", "why_tests_cant": "needs all construction paths", "anchors": ["json/Map.go:NewMapOfValues", "json/Array.go:NewArrayOfValues", "json/Value.go:NewValue"]}
{"id": "C42", "title": "Serialisation terminates exactly on acyclic structures", "statement": "ToJSONString terminates on every acyclic map; on a map that contains itself it never does.", "quantifier": "all heaps", "why_tests_cant": "non-termination is not testable", "anchors": ["json/Map.go:ToJSONString"]}
{"id": "C43", "title": "Six-decimal printing of floats", "statement": "A finite float prints as the decimal with six fraction digits nearest to it (ties to even), and for float32 the printed text is stable: parsing and printing it again gives the same text.", "quantifier": "all finite float32/float64 values", "why_tests_cant": "2^64 values", "anchors": ["json/JSON.go:ConvertInterfaceValueToJSONStringValue"]}
{"id": "C44", "title": "Constructing from Go maps and slices", "statement": "NewMapOfValues contains exactly the entries of the Go map in some order (any iteration order gives the same lookups); NewArrayOfValues contains exactly the slice elements in order.", "quantifier": "all Go maps and all iteration orders", "why_tests_cant": "iteration order is random", "anchors": ["json/Map.go:NewMapOfValues", "json/Array.go:NewArrayOfValues"]}
{"id": "C45", "title": "Type predicates are mutually exclusive and agree with GetType", "statement": "For each stored non-nil scalar or container exactly one of IsInt..IsUInt64/IsFloat32/IsFloat64/IsBool/IsString/IsMap/IsArray holds, it is the one of the stored type, and IsInteger/IsFloat/IsNumber are the corresponding unions.", "quantifier": "all stored values", "why_tests_cant": "universal", "anchors": ["json/Value.go:IsMap", "json/Value.go:IsInteger", "json/Map.go:IsInt8"]}
{"id": "C46", "title": "Scalar to text conversion agrees with the getters", "statement": "ConvertInterfaceValueToStringValue of a stored integer is its decimal numeral, from which GetInt64/GetUInt64 recover it; of a string, the string itself.", "quantifier": "all integers and strings", "why_tests_cant": "2^64 values", "anchors": ["json/JSON.go:ConvertInterfaceValueToStringValue"]}
{"id": "C47", "title": "Error lists", "statement": "SetErrors(k, errs) makes ToJSONString emit the messages as an array of strings under that key, leaving the rest of the text as it was; parsing that text and calling GetErrors(k) returns the messages in order; and Clone preserves messages free of '%'.", "quantifier": "all maps, keys and error lists", "why_tests_cant": "maps and error lists are unbounded", "anchors": ["json/Map.go:SetErrors", "json/Value.go:clone", "json/JSON.go:ConvertInterfaceValueToJSONStringValue"]}
{"id": "C48", "title": "Concurrent use", "statement": "Goroutines setting keys on the same map leave the dictionary that some sequence of the same calls leaves.  (True when they take turns, as under a lock; false otherwise: the map has no synchronisation, keys can be listed twice or lost, and the Go map can be written by two goroutines at once.)", "quantifier": "all interleavings", "why_tests_cant": "schedule space", "anchors": ["json/Map.go:setInternalValue"]}
{"id": "C49", "title": "GetRunes decodes the string", "statement": "GetRunes on a stored string that is the UTF-8 encoding of code points returns exactly those code points in order, and on any other bytes returns the unique reading in which each maximal valid encoding is one rune and every other byte is U+FFFD; on anything else it reports an error.", "quantifier": "all strings of bytes, all stored objects", "why_tests_cant": "strings and code-point sequences are unbounded", "anchors": ["json/Value.go:GetRunes"]}
{"id": "C50", "title": "A change shows everywhere the object is stored and nowhere else", "statement": "A call that changes one map, array, value or variable (Set*, RemoveKey, Append*, SetValueAtIndex, RemoveValueAtIndex, SetObject, assignment through a stored pointer) replaces the document of that object by the old one with that one edit.  Every document that contains the object, at any depth and however many times, changes at exactly the places where it is stored; every other document, and every document after a call that only reads, is as before.", "quantifier": "all reachable states, structures of any depth and sharing, all calls", "why_tests_cant": "sharing patterns, depths and histories are unbounded; tests fix one aliasing shape", "anchors": ["json/Map.go:setInternalValue", "json/Map.go:RemoveKey", "json/Array.go:AppendValue", "json/Array.go:SetValueAtIndex", "json/Array.go:RemoveValueAtIndex", "json/Value.go:SetObject"]}
{"id": "C51", "title": "A single error stored as a value", "statement": "An error (or *error) stored under a key is written by ToJSONString as a string, its message, the rest of the text being as it was; parsing that text gives the message back as a string under the key.  Clone stores a *error in its place whose message is the old one passed through fmt.Errorf as a format; in general a successful Clone of a map holds, for each Go value that is not a container, exactly its documented image (a time.Time becomes a *time.Time).  GetErrors on an array reads every element as a message (strings as they are, errors as their messages, numbers and booleans as their JSON text) and, if some elements have no such reading (null, maps, arrays), reports one error for each of those instead.", "quantifier": "all maps, keys, messages and arrays", "why_tests_cant": "messages, maps and arrays are unbounded", "anchors": ["json/Value.go:SetErrorValue", "json/Value.go:GetErrors", "json/Value.go:clone", "json/JSON.go:ConvertInterfaceValueToJSONStringValue", "json/JSON.go:ConvertInterfaceValueToStringValue"]}
{"id": "C52", "title": "The text of any content", "statement": "ToJSONString of a map or array of finite depth writes exactly one text, determined by its content whatever Go values it holds: null for nil, numbers, booleans and strings as JSON, messages of errors and lists of errors or strings as strings, formatted times, the names of functions and of a few further types; a value of any other type leaves a hole in the text and is reported by one error each.  It panics exactly when some stored pointer is nil and the type function does not call it nil.", "quantifier": "all contents of finite depth over all Go values, all prefixes", "why_tests_cant": "values, depths and sizes are unbounded", "anchors": ["json/JSON.go:ConvertInterfaceValueToJSONStringValue", "json/Map.go:ToJSONString", "json/Array.go:ToJSONString"]}
{"id": "C53", "title": "Array elements by index", "statement": "GetStringValue(i) and GetMap(i) of an array return the string or map stored at i, report an error for an index outside the array and for an unset element; GetMap reports an error for any other element while GetStringValue panics on it.  Both panic on a nil *Value element.", "quantifier": "all arrays, all indices including negative ones, all elements", "why_tests_cant": "indices and elements are unbounded", "anchors": ["json/Array.go:GetStringValue", "json/Array.go:GetMap"]}
{"id": "C54", "title": "Comparison with strings", "statement": "IsValueEqualToString is equality of strings, with an unset value equal to a nil argument only; with a string argument it panics on a value that is not a string.  IsEmptyString holds for the empty string only and never panics.", "quantifier": "all stored objects, all arguments", "why_tests_cant": "universal", "anchors": ["json/Value.go:IsValueEqualToString", "json/Value.go:IsEmptyString", "json/Value.go:GetStringValue"]}
{"id": "C55", "title": "Functions as values", "statement": "GetFunc(k) returns the function SetFunc(k, f) stored, after any calls that do not write that key; nothing for a missing key or a nil pointer; an error for any other object; and never panics.  IsNil() of a map does not depend on the map.", "quantifier": "all maps, keys, functions and histories", "why_tests_cant": "histories are unbounded", "anchors": ["json/Value.go:GetFunc", "json/Map.go:GetFunc", "json/Map.go:SetFunc", "json/Map.go:IsNil"]}
{"id": "C56", "title": "Methods do what their names say", "statement": "For every scalar type T except uint (no getter) and float32 (its own property), SetT takes a *T and SetTValue a T on maps and values, AppendT and AppendTValue on arrays; afterwards GetT and GetTValue of the same name return the value, IsT is true, and IsU is false for every other scalar type U.  On a map, no method answers differently at another key or map.", "quantifier": "all scalar types, all values of them, all reachable states, all keys", "why_tests_cant": "110 methods times all values and states", "anchors": ["json/Map.go:NewMapOfValues", "json/Array.go:NewArrayOfValues", "json/Value.go:NewValue"]}
{"id": "C57", "title": "Pointers returned by getters", "statement": "The pointer returned by GetInt8..GetUInt64, GetFloat32 and GetFloat64 is the caller's own: writing through it changes no map, array or value.  The pointer returned by GetString or GetBool is the stored pointer itself when a *string or *bool is stored, which includes strings and booleans given by value to SetStringValue/SetBoolValue of a map and those in parsed maps; writing through it then changes what the map answers.  Otherwise it is the caller's own.", "quantifier": "all reachable states, all stored objects, all values written", "why_tests_cant": "aliasing over all states", "anchors": ["json/Value.go:GetString", "json/Value.go:GetBool", "json/Value.go:GetInt64", "json/Value.go:GetFloat64", "json/Map.go:SetStringValue"]}
{"id": "C58", "title": "What GetTime returns for every stored object, and when a stored time is lost", "statement": "For every map, key and state: GetTime(k) and GetTimeWithDecimalPlaces(k, n) return nil without an error for a key that holds nothing and for an object that counts as unset; for every other object they return exactly what the time library answers about that object, whatever else the program has done. After SetTime(k, t) and any later calls that do not write that slot, GetTime(k) is the library's reading of t if the library's type predicates know *time.Time; otherwise it is nil without an error, so the time is silently lost. GetTimeValue of a Value asks the library in all cases and returns the zero time without an error when there is no time.", "quantifier": "all time libraries, environments, states reachable through the API, maps, keys, stored objects, numbers of decimal places and later histories", "why_tests_cant": "Tests use one library and a few times; that nothing else in the state matters, and that the loss depends only on one type predicate, is a statement about all of them.", "anchors": ["json/Value.go:GetTime", "json/Value.go:GetTimeWithDecimalPlaces", "json/Value.go:GetTimeValue", "json/Value.go:IsNil", "json/Map.go:GetTime", "json/Map.go:SetTime"]}
{"id": "C59", "title": "Changing the list returned by Values() cannot damage a map", "statement": "Let a program append to, set and remove elements of the lists returned by Values() at any points between its other calls.  Every other call returns what it would return if the calls on those lists were left out, and afterwards every map and array answers every getter, lists its keys and writes its text as without them.  Values() itself shows the changed list: a new key appends to it, an overwritten or removed key changes the element at the key's position if there is one.  (That Values() stays aligned with GetKeys() is then false.)", "quantifier": "all reachable states and all finite programs that interleave API calls with calls on the lists", "why_tests_cant": "interleavings are unbounded", "anchors": ["json/Map.go:Values", "json/Map.go:setInternalValue", "json/Map.go:RemoveKey", "json/Array.go:SetValueAtIndex", "json/Array.go:RemoveValueAtIndex", "json/Array.go:AppendValue"]}
{"id": "C60", "title": "Reading a parsed text", "statement": "After Parse succeeds on an object text, GetKeys lists the distinct keys of the text in order of first occurrence.  Walking from the returned map to any position of the text with GetValue(k), GetMap(), GetArray() and GetValues() succeeds, and the getters of the value found there answer as the text at that position demands: a string its unescaped bytes, true/false the boolean, null nothing (pointer getters nil without errors, value getters one error), an integer literal the exact number from every integer getter that can hold it and one error from the others, and its nearest float64, a decimal the nearest float32 (or float64 where no float32 is near), an array its number of elements, an object its keys.  Getters of another kind report one error.  A key that an object of the text lacks gives nil.", "quantifier": "all states, all accepted object texts, all positions in them, all getters but GetUInt (there is none)", "why_tests_cant": "texts, depths and numbers are unbounded", "anchors": ["json/JSON.go:Parse", "json/Map.go:GetValue", "json/Map.go:GetKeys", "json/Value.go:GetMap", "json/Value.go:GetArray", "json/Value.go:GetString", "json/Value.go:GetInt64", "json/Value.go:GetFloat64", "json/Value.go:GetBool", "json/Array.go:GetValues", "json/Array.go:Len"]}
{"id": "C61", "title": "The getters after writing and reading back", "statement": "Write a map with ToJSONString and Parse the text in any state.  The new map has the same keys in the same order, and every value reachable from the old map with GetValue, GetMap, GetArray and GetValues is reachable along the same path from the new one.  There every integer, string, boolean, map and array getter answers as before (containers: with the same keys or length), with an error where there was an error; GetFloat64 answers as before unless a float is stored, then the float32 (float64 where that overflows) nearest to its six-digit decimal.  Errors read as their message, lists of errors or strings as arrays.  (A uint above MaxInt64 is an exception: GetInt64 answers a wrong number before and an error after.)", "quantifier": "all maps that represent a document C01 covers, all states, all paths, all getters", "why_tests_cant": "composes serialiser, parser and getters over unbounded structures and numbers", "anchors": ["json/Map.go:ToJSONString", "json/JSON.go:Parse", "json/Map.go:GetValue", "json/Value.go:GetMap", "json/Value.go:GetArray", "json/Value.go:GetInt64", "json/Value.go:GetFloat64", "json/Value.go:GetString", "json/Value.go:GetBool"]}
{"id": "C62", "title": "Parse depends on its text only", "statement": "Whatever was called before and whatever the helper library answers, the same text makes Parse panic, or report the same errors, or return a map of the same document.  Two maps parsed from the same text have the same keys in the same order, and every value reachable along a path in one is reachable along that path in the other; there every getter gives the same result or the same errors (containers: with the same keys or length).", "quantifier": "all texts, all pairs of reachable states, all environments, all paths, all getters", "why_tests_cant": "a statement about pairs of executions over unbounded histories and texts", "anchors": ["json/JSON.go:Parse", "json/Map.go:GetValue", "json/Value.go:GetMap", "json/Value.go:GetArray"]}
{"id": "C63", "title": "The getters of a clone", "statement": "When Clone of a map or array returns, the clone has the same keys in the same order or the same length, and every value reachable from the original with GetValue, GetMap, GetArray and GetValues is reachable along the same path from the clone.  If such a value holds nil, a scalar, a pointer to a scalar, a map or an array, every integer, float, string, boolean, map and array getter and IsNil gives the same result or the same errors on both (containers: with the same keys or length).  The same holds of a Value and its Clone.", "quantifier": "all reachable states, all maps, arrays and values for which Clone returns, all paths, all getters", "why_tests_cant": "structures, depths and contents are unbounded", "anchors": ["json/Map.go:Clone", "json/Array.go:Clone", "json/Value.go:Clone", "json/Map.go:GetValue", "json/Value.go:GetMap", "json/Value.go:GetArray", "json/Value.go:GetInt64", "json/Value.go:GetString"]}
{"id": "C64", "title": "The string any Go value is converted to", "statement": "ConvertInterfaceValueToStringValue gives null for nil and for nil pointers, a string as it is, another scalar or a pointer to one as its JSON text, an error as its message (also a *url.Error and an exec.ExitError), a *time.Time as its formatted time and a map[string]map[string][][]string as that type name.  For a Value it gives the text of what the Value holds; a Value inside a Value is printed with %s.  Every other value gives one error, in particular a Value that holds nil, a container, a list, a function or a time.Time.  It panics only for a Value that holds a nil pointer to a scalar, error or Value which the type function does not call nil.  GetErrors on an array gives these texts in order, or one error for each element without a text, or panics if one panics.", "quantifier": "all reachable states, all Go values of the modelled types, all arrays of any length", "why_tests_cant": "values, nesting and array lengths are unbounded, and every type combination matters", "anchors": ["json/JSON.go:ConvertInterfaceValueToStringValue", "json/Value.go:GetErrors", "json/Map.go:GetErrors"]}
{"id": "C65", "title": "Reading through a map and through the values it holds", "statement": "If GetValue(k) of a map returns a Value, then each of the getters and predicates that Map (with a key) and Value have in common, including GetRunes, GetTime and GetTimeWithDecimalPlaces, gives the same result, the same errors or the same panic on the map with k as on that Value.  If GetValue(k) returns nil they answer like a Value that holds nil.  (False for a Value holding a nil pointer whose type is not reported as nil: the predicates of the map say no, those of the Value may say yes.)", "quantifier": "all reachable states, maps, keys, stored objects and all 56 shared methods", "why_tests_cant": "every method must be compared on every kind of stored object in every state", "anchors": ["json/Map.go:GetValue", "json/Map.go:GetInt8", "json/Map.go:GetStringValue", "json/Map.go:GetMapValue", "json/Map.go:GetArrayValue", "json/Map.go:IsString", "json/Value.go:GetInt8", "json/Value.go:GetStringValue", "json/Value.go:GetMapValue", "json/Value.go:GetArrayValue", "json/Value.go:IsString"]}
{"id": "C66", "title": "Errors of any type in lists", "statement": "GetErrors returns the list SetErrors stored, nil errors and custom error types included (if the type predicates accept a list of errors).  ToJSONString writes the messages, null for a nil error, and nothing at all in place of an error whose type the library does not know (for instance one made by fmt.Errorf with %w), reporting an error for each: such a map is never written successfully.  Clone panics on a list with a nil error; otherwise every error in the clone is a plain one built from the message, so its type is lost.", "quantifier": "all reachable states, maps, keys, lists of errors (any types, messages, nil errors, any length)", "why_tests_cant": "lists are of any length and may hold any number of errors of types the library has never seen, at any position", "anchors": ["json/Map.go:SetErrors", "json/Map.go:GetErrors", "json/Map.go:Clone", "json/JSON.go:ConvertInterfaceValueToJSONStringValue", "json/Value.go:Clone"]}
{"id": "C67", "title": "Parse and RFC 8259", "statement": "Of the JSON texts of RFC 8259, Parse accepts objects only, without blanks around them.  If no string in it ends in a backslash (and exponents are below 10000), an object is accepted exactly when every number is an integer in the range of int64 or uint64, or has a decimal point and no negative exponent and does not overflow float64.  If moreover the strings are ASCII with no escapes but \\\", and keys of arrays and objects contain no quotation mark, the map holds what the text says: the keys in order of first occurrence, each with the value given last, strings decoded, integers exact, other numbers rounded to the nearest float32 (float64 if that overflows).  Without these conditions RFC 8259 texts are rejected (1e2, 1.0e-2, 18446744073709551616, \"\\\\\") or misread (\"\\n\", \"\\u0041\", a key \\\" of an array, any non-ASCII character).", "quantifier": "all reachable states, all texts of the RFC 8259 grammar (any nesting, any blanks, any length)", "why_tests_cant": "the grammar has infinitely many texts; that conforming texts are read as the RFC says is about all of them", "anchors": ["json/JSON.go:Parse", "json/JSON.go:parseJSONMap", "json/JSON.go:parseJSONValue", "json/JSON.go:unquote_key_value"]}
{"id": "C68", "title": "Counting with a map, and the counters of Parse", "statement": "Integers stored in a map can be used as counters: reading one with GetInt, incrementing the variable it points to and storing the pointer with SetInt, any number of times and for any keys in any order, never fails and leaves each key at its first number plus the number of increments, without any effect on other keys and other maps.  Parse keeps its six counters of brackets and quotation marks in such a map and compares them with GetInt at the end: its outcome (document, errors or panic) is the one given by plain numbers, and the counters' map is not visible in the result.", "quantifier": "all reachable states, maps, sequences of increments of any length within the range of int; all texts not longer than the largest int", "why_tests_cant": "the number and order of increments is unbounded, and they interleave with the building of the parsed document in the same heap", "anchors": ["json/JSON.go:Parse", "json/JSON.go:parseJSONMap", "json/Map.go:GetInt", "json/Map.go:SetInt"]}
{"id": "C69", "title": "Parse calls that run at the same time do not disturb each other", "statement": "Any number of goroutines may be inside Parse at the same time, and other goroutines may meanwhile use the API on any objects a running Parse call has not created.  Each Parse call returns what it returns when nothing else runs on that text: the same errors, or a map with the same document, free of sharing and made only of objects that call created, so no two results have an object in common.  A call panics only on a text that makes Parse panic alone.  While it runs, a call changes no object it did not create, it never waits for another call, and what it returned stays as it was until somebody changes one of its objects.", "quantifier": "all numbers of goroutines and texts, all reachable starting states, all interleavings of iterations of the parse loops, of other API calls and of new Parse calls", "why_tests_cant": "tests run a handful of schedules; the claim is about all interleavings of unboundedly many calls on texts of any length", "anchors": ["json/JSON.go:Parse", "json/JSON.go:parseJSONMap", "json/JSON.go:parseJSONValue"]}
{"id": "C70", "title": "Pointers in the lists returned by GetArrayOf*", "statement": "The list of pointers that GetArrayOfString, GetArrayOfBool, GetArrayOfInt8 and the like return points, position by position, to the values C37 describes, and building it changes nothing.  Writing through a pointer of the list changes the array only where an element holds a *string (for GetArrayOfString) or a *bool (for GetArrayOfBool): there the stored pointer itself is handed out.  In all other cases, in particular for all numbers, the pointer is new: nothing that existed changes and the other positions of the list keep their values.  Two positions share a pointer only if both elements hold it.  So the list is in general not a copy (refuted by witness).", "quantifier": "all reachable states, arrays, element types and positions, all values written", "why_tests_cant": "which of the pointers alias stored data depends on how each element was stored; tests look at a few arrays", "anchors": ["json/Array.go:GetArrayOfString", "json/Array.go:GetArrayOfBool", "json/Array.go:GetArrayOfInt8", "json/Array.go:GetArrayOfFloat32", "json/Map.go:GetArrayOfString", "json/Value.go:GetString", "json/Value.go:GetBool"]}
{"id": "C71", "title": "What other JSON readers get from ToJSONString", "statement": "An RFC 8259 text has one reading.  If the text that ToJSONString writes for a map or array is JSON at all, a reader finds in it exactly the members and elements of the document, in order, with every number and string at its place as it was written: no string, however chosen, can add, hide or change members (no injection).  The text is JSON exactly if all floats are finite and every string and key is a JSON string as written.  A reader gets the document itself back - strings and keys decoded, integers exact, floats rounded to six decimals - exactly if floats are finite and strings and keys are UTF-8 without backslashes and control characters.  That every text which is JSON says the document is refuted (a string of a backslash and an n).", "quantifier": "all reachable states, maps and arrays representing a document, all strings, all builders", "why_tests_cant": "hostile strings can be combined in unboundedly many ways; no test suite settles that none of them changes the structure", "anchors": ["json/Map.go:ToJSONString", "json/Array.go:ToJSONString", "json/JSON.go:ConvertInterfaceValueToJSONStringValue"]}
{"id": "C72", "title": "The result of Parse comes from its text and is not larger", "statement": "Of every byte string that Parse accepts, well-formed or not: every key and every string in the result stands between quotation marks in one piece of the text (as it is, or with quotation marks preceded by backslashes), every integer is the value of an integer literal, every boolean and null a word, every float a number with one point in one piece of the text from which blanks and backslashes are dropped (nearest float if it is a decimal fraction).  The result has at most as many scalars, containers and bytes of keys and strings together as the text has bytes (bytes above 127 counting twice) and at most as many arrays and objects as there are opening brackets outside quotations.  That strings come only from quotations is refuted: {\"a\":\\\"b\\\"} gives the string b.", "quantifier": "all reachable states, all byte strings", "why_tests_cant": "ranges over all malformed texts; amplification or invented content would show only on inputs nobody thought of", "anchors": ["json/JSON.go:Parse", "json/JSON.go:parseJSONMap", "json/JSON.go:parseJSONValue"]}
{"id": "C73", "title": "Parsing and writing brings a text into a normal form", "statement": "Call it rewriting to Parse a text and write the result with ToJSONString.  Every accepted text whose document is writable (ASCII strings and keys that do not end in a backslash, no quotation mark in keys of objects and arrays) is rewritten to exactly one text, the text of its document; rewriting that again gives the same text, whatever floats it holds.  Two such texts are rewritten to the same text exactly when their documents come back as the same document; without floats and negative zeros, exactly when they have the same document.  That rewriting always settles is refuted: a quotation mark in the key of an object gains a backslash every time, without end.", "quantifier": "all reachable states, all accepted texts with writable documents; for the refutation all numbers of rounds", "why_tests_cant": "ranges over all texts and pairs of texts, and over all numbers of rounds", "anchors": ["json/JSON.go:Parse", "json/Map.go:ToJSONString"]}
{"id": "C74", "title": "Object texts inside other texts", "statement": "Call an object text whole when the object opened by its first byte is closed by its last byte and not before.  Wherever a value may begin in a text, a whole accepted object text may be replaced by any other whole text with the same document, in particular by what parsing and writing makes of it: Parse gives the same result, the same errors or panics as before.  Whole accepted texts put together with quoted keys, colons and commas, or in an array, are accepted and whole again, and give the documents put together (of equal keys the last one counts).  All texts of the grammar and all texts written by ToJSONString are whole.  That the texts need not be whole is refuted: {\"a\":1}{\"b\":2} is accepted as {\"a\":1}, but gives two elements inside an array and panics as a member of an object.", "quantifier": "all reachable states, all texts before and after, all whole texts, all numbers of members and elements", "why_tests_cant": "ranges over all contexts and all texts put into them", "anchors": ["json/JSON.go:Parse", "json/JSON.go:parseJSONMap"]}
{"id": "C75", "title": "Every unquoted scalar", "statement": "For every text of the grammar of C03, whatever bytes its unquoted scalars are made of, Parse returns exactly the outcome that the meanings of the scalars give, and every scalar means exactly one thing: nothing, a value or errors.  White space at its ends, blanks and backslashes inside it do not count.  Beyond JSON, a number with one point may have a plus sign, underscores between digits, an empty part before or after the point, and may be hexadecimal with a binary exponent; its value is rounded to float32, or to float64 when it overflows float32, or is an error when it overflows that too.  Digits of an exponent are ignored once its value has reached 10000.  Everything else with one point, and everything else without a point, is an error.", "quantifier": "all reachable states, all texts of the grammar, all byte strings as scalars", "why_tests_cant": "the scalars are arbitrary byte strings of any length; that exactly these forms are accepted, with exactly this value, ranges over all of them", "anchors": ["json/JSON.go:Parse", "json/JSON.go:parseJSONValue"]}
{"id": "C76", "title": "What Parse makes of every text", "statement": "For every byte string, well-formed or not, the result of Parse is determined by a short description.  A reader that keeps no documents runs over the text and reports keys, beginnings and ends of containers and the bytes of values.  Parse panics exactly on the texts on which this reader stumbles.  On every other text the result is what the reports add up to: a value goes into the innermost open container under the last key, unescaped; a container goes into the one around it, under its key as written; what is still open at the end is closed; the first outermost container is the result.  The errors are, in this order of precedence, those of missing outer braces, those of values outside containers and of values that mean nothing, and those of brackets and quotes that do not add up.  Every value means exactly one thing.  A text is accepted exactly if it has outer braces, the reader does not stumble, brackets and quotes outside quotations add up, and every value stands inside a container and is not an error.", "quantifier": "all reachable states, all byte strings as texts", "why_tests_cant": "the texts are arbitrary byte strings, most of them outside every grammar; tests can only sample them", "anchors": ["json/JSON.go:Parse", "json/JSON.go:parseJSONValue"]}
{"id": "C77", "title": "Programs see the content of objects and nothing else", "statement": "A program is any function that chooses the next call from everything it has seen so far; it can call every method of Map, Array and Value that has been assigned, the constructors, Parse and the two conversions, and it sees every result, every error, every panic and which results are the same object.  If a program is given objects with the same content and the same sharing in two states, it sees the same in both, however the objects were made, where they lie in memory, in which order and with which detours, and whatever other objects exist.  In particular a program that starts with nothing sees the same in every state, so the package keeps no hidden state between calls.  A program does not notice what another one did before it, if the objects of the two do not hold each other.  All this needs that the text fmt prints for a pointer is not used; otherwise a program can see addresses.", "quantifier": "all environments that print no addresses, all pairs of reachable states, all links between their objects, all programs, all numbers of calls", "why_tests_cant": "quantifies over all programs and all pairs of states; tests run a few programs in a few states", "anchors": ["json/Map.go:newMap", "json/Map.go:setInternalValue", "json/Array.go:newArray", "json/Value.go:newValue", "json/JSON.go:Parse", "json/JSON.go:ConvertInterfaceValueToStringValue"]}
{"id": "C78", "title": "Programs that run at the same time", "statement": "Any number of programs (as in C77) use the library and take turns call by call in any order.  If the objects two programs can reach do not hold each other, or both programs only read, then each program sees exactly what it sees when it runs alone for the same number of calls.  Reading includes every getter, the writers of texts, Parse, Clone and the constructors: they change no object that exists already.  A program that shares an object with one that changes it can notice.", "quantifier": "all environments that print no addresses, all reachable states, all teams of programs of any size, all schedules", "why_tests_cant": "quantifies over all programs and all schedules", "anchors": ["json/Map.go:newMap", "json/Map.go:setInternalValue", "json/Array.go:newArray", "json/Value.go:newValue", "json/JSON.go:Parse", "json/Map.go:Clone"]}
{"id": "C79", "title": "The texts of Parse's errors", "statement": "The messages in the error list of Parse are, for every text: the faults of the ends of the text (empty, no brace at the start, no brace at the end), each once and in this order; if there are none, the messages about its values in the order in which they are read; if there are none, which kinds of brackets and quotes do not add up outside quotations, with both counts.  A value outside every container gives 'error: list is empty' (so two objects separated by a comma do), a value with stray quotes is shown unescaped in single quotes, too many minus signs or points are counted, and a value that is no number is shown quoted by strconv with 'invalid syntax' or, when its leading digits exceed 64 bits, 'value out of range'; bytes that are not ASCII are shown as Latin-1.  No message is ever about a key.  The messages correspond one to one and in order to the kinds of errors of the other properties.", "quantifier": "all texts, all reachable states", "why_tests_cant": "quantifies over all texts; the message depends on the whole text read so far", "anchors": ["json/JSON.go:Parse", "json/JSON.go:parseJSONMap", "json/JSON.go:parseJSONValue", "json/JSON.go:unquote_key_value"]}
{"id": "C80", "title": "The texts of the getters' errors", "statement": "For every object a Value can hold and every getter, the messages in the error list are determined by the object and the getter: the range of the type that was asked for if the number is out of it, the uint64 that is greater than int64, negative numbers, the text that is no number (with strconv's reason when it comes from a json.Value), the word that is no boolean, the Go type that is not supported, or that there is no value; nothing for values that fit.  A map says the same as the Value under the key, and its own message if there is none; it never names the key, so equal objects give equal messages under any keys of any maps.  A getter of a whole array says the messages of all elements in order with its own for nil elements; the map's getters of arrays do the same for the array under a key and say when there is none; a getter of one element wraps its message; changes by index and removal of a key give one message or none.  There are always as many messages as errors, and panics are the same.", "quantifier": "all getters, all reachable states, all objects, all maps, keys, arrays and indices", "why_tests_cant": "quantifies over all states and all objects, including all numbers and texts", "anchors": ["json/Value.go:newValue", "json/Map.go:newMap", "json/Array.go:newArray"]}
{"id": "C81", "title": "The texts of the errors of ToJSONString, of the conversions and of Clone", "statement": "ToJSONString of a map or an array and the conversion of a Value to JSON give one message for each value that has no text, in the order of the text, and each names the Go type: 'error: JSON.ConvertInterfaceValueToJSONStringValue: type T is not supported please implement'; in a list of errors one for each error of an unknown type.  There are as many messages as holes in the text, the content determines them, and a nil builder gives exactly 'error: *strings.Builder is nil'.  A key that common.EscapeString rejects ends the messages of its map with the message of EscapeString.  ConvertInterfaceValueToStringValue gives one message with the type of what is held, or none.  Clone gives one message for each leaf it does not copy, in order: the Go type that Value.Clone or, for lists the environment calls arrays, Value.GetArray does not support, or that a map or an array is nil; the type named is Array if the nil pointer is an element, and Value, never Map, if it is under a key.  There are always as many messages as errors, and panics are the same.", "quantifier": "all reachable states, all contents, all environments, all messages of EscapeString", "why_tests_cant": "quantifies over all states and all nested contents; the order and number of messages depend on the whole content", "anchors": ["json/JSON.go:ConvertInterfaceValueToJSONStringValue", "json/JSON.go:ConvertInterfaceValueToStringValue", "json/Map.go:newMap", "json/Array.go:newArray", "json/Value.go:newValue"]}
{"id": "C82", "title": "Programs can see all of the content of objects", "statement": "For the objects a program holds in some state there is a program that recognises them: given other objects of the same types in any state, it only calls GetKeys, Values, GetValues, GetObject and reads variables, never fails, changes nothing, and if it sees the same as with the first objects then the two have the same content and the same sharing, however deep.  So programs that use all of the API tell objects from each other exactly when their content or their sharing differs.  ToJSONString alone does not: a shared array and two equal arrays have the same text.", "quantifier": "all reachable states, all lists of handles, all other states and handles of the same types, all programs, cyclic contents included", "why_tests_cant": "asserts the existence of a distinguishing program for every pair of states that differ, and that no program distinguishes all others", "anchors": ["json/Map.go:newMap", "json/Array.go:newArray", "json/Value.go:newValue"]}
{"id": "C83", "title": "The project's tests and main program succeed in every state", "statement": "Each test of the project passes, on the model, whatever the library was used for before, so the tests pass in every order and however often they are run.  The main program returns in every environment and leaves all objects as they are.", "quantifier": "all states of the library, reachable or not, all 198 tests, all environments", "why_tests_cant": "a test run starts in one state; this ranges over all states, that is over everything that may have run before", "anchors": ["main.go:main", "tests/JSON_test.go:ParseJSONSuccessfully", "json/JSON.go:Parse"]}
{"id": "C84", "title": "Removing in a loop skips entries; over a copy or backwards it does not", "statement": "A program that ranges over GetKeys and calls RemoveKey for the keys it selects removes them all exactly if no two selected keys follow each other (the last two keys may): behind every removed key one key is not looked at, except the last.  A loop meant to empty the map leaves every second key.  Ranging over a copy of the keys removes exactly the selected ones.  Calling RemoveValueAtIndex for the indexes 0, 1, 2, ... of an array leaves every second element; going from the end removes exactly the selected elements.", "quantifier": "all reachable states, all maps and histories of their keys, all selections, all growth strategies of append, all arrays", "why_tests_cant": "the loop reads memory that RemoveKey changes while it runs, for every number of keys, selection and capacity", "anchors": ["json/Map.go:GetKeys", "json/Map.go:RemoveKey", "json/Array.go:RemoveValueAtIndex"]}
{"id": "C85", "title": "Slices copied from GetValues: what they show after the array changes", "statement": "A program that copies the slice behind GetValues, for example by ranging over it, never sees appended elements, sees every element set as long as nothing is appended or removed, and after a removal sees the following elements moved up with the last one twice, where the next appended element then shows up.  After more appends than the slice has room for it sees no change any more.  Whether it sees a change made after an append therefore depends on capacities that no method shows.  A loop over the elements that removes the selected ones by index leaves the element behind every removed one unlooked at, so it is right exactly if no two selected elements follow each other.", "quantifier": "all histories of an array before and after the copy, all growth strategies of append, all reachable states, all selections", "why_tests_cant": "the effect depends on the capacity of a hidden backing array, for every history and every growth strategy", "anchors": ["json/Array.go:GetValues", "json/Array.go:AppendValue", "json/Array.go:SetValueAtIndex", "json/Array.go:RemoveValueAtIndex"]}
{"id": "C86", "title": "Texts of errors show the content of objects and nothing else", "statement": "A program that reads the text of every error it gets, and chooses its further calls by these texts, sees the same whenever it is given objects with the same content and the same sharing, however they were made and wherever they lie.  A program that starts from nothing reads the same texts in every state, and no text tells it what another program did with objects of its own.  Every call that returns errors has a text for each of them.", "quantifier": "all programs of calls that depend on earlier replies and texts, all pairs of reachable states with linked objects, all calls but Clone for the number of texts (Clone is in C81)", "why_tests_cant": "it speaks about every program and every pair of histories, and about every text a call can produce", "anchors": ["json/JSON.go:Parse", "json/Map.go:RemoveKey", "json/Map.go:GetInt64", "json/Map.go:Clone", "json/Array.go:GetStringValue", "json/Value.go:GetMap", "json/JSON.go:ConvertInterfaceValueToJSONStringValue"]}
{"id": "C87", "title": "Programs that share objects none of them changes", "statement": "Any number of programs may share objects, in any order of their calls, as long as none of them, run alone, changes an object that another one can reach; each may clone the shared objects, put them into objects of its own, and change what it made itself and what no other program can reach.  Each program then sees what it sees when it runs alone, and whoever looks at its objects afterwards sees what that one run would have left.", "quantifier": "all teams of programs that depend on earlier replies, all schedules of their calls, all reachable states", "why_tests_cant": "the number of schedules and programs is unbounded, and sharing is not visible in a single result", "anchors": ["json/Map.go:Clone", "json/Map.go:SetMap", "json/Map.go:RemoveKey", "json/Map.go:GetValue", "json/Array.go:AppendValue"]}
{"id": "C88", "title": "Which calls on one map may run at the same time", "statement": "Two calls on one map, by goroutines without a lock, can race exactly when one of them sets a key, or removes one that is there, and the other one reads or writes what it changes: updating a key that is there disturbs everything except GetKeys, adding or removing a key disturbs everything, and removing a key that is not there only reads.  Any number of calls that do not disturb each other answer as they do alone, in every schedule, and leave the map as if made one after the other; any number of goroutines that only read, making any number of calls each, never race and see what they see alone.  Calls that disturb each other can panic, or show a new key with the value null.", "quantifier": "all contents of the map, all lists of calls, all goroutines choosing calls from earlier answers, all schedules of their accesses", "why_tests_cant": "the number of schedules grows exponentially and races show rarely", "anchors": ["json/Map.go:SetValue", "json/Map.go:RemoveKey", "json/Map.go:HasKey", "json/Map.go:GetKeys", "json/Map.go:GetValue", "json/Map.go:Values", "json/Map.go:ToJSONString", "json/Array.go:SetValueAtIndex", "json/Array.go:RemoveValueAtIndex"]}
{"id": "C89", "title": "Strings from strangers that end in a backslash", "statement": "A program writes a map that holds strings it was given and reads the text back with Parse.  If an odd number of the strings, keys, errors and texts in the document end in a backslash, Parse never accepts the text.  With at most one of them, whatever Parse accepts is the document that was written.  Otherwise nothing is guaranteed: one such string followed by two ordinary members makes Parse panic, two such strings can drop a member without an error, and two such strings can add a member of another type with a value of the giver's choice.", "quantifier": "all documents with keys and strings of any length at any depth, all states in which the text is written and read; for the findings all surrounding members, all keys and strings without structural bytes and all numbers, booleans and null as the chosen value", "why_tests_cant": "the effect depends on how many strings in the whole document end in a backslash and on what stands between them", "anchors": ["json/Map.go:ToJSONString", "json/JSON.go:ConvertInterfaceValueToJSONStringValue", "json/JSON.go:Parse", "json/JSON.go:parseJSONMap", "json/JSON.go:parseJSONValue"]}
{"id": "C90", "title": "Which calls on one array may run at the same time", "statement": "Goroutines may call SetValueAtIndex at different indexes of one array at the same time, and read other elements or the length meanwhile, without a lock: two calls race exactly when they set, or one sets and the other reads, one element that is there, or one changes the length by appending or removing and the other looks at the array.  Calls with an index out of range only look at the length.  A loop over a copy of the slice made earlier never races with an append, but does with setting its elements and with removals that move elements into it.  Any number of calls that do not disturb each other answer as alone in every schedule and leave the array as if made one after the other; goroutines that each use elements of their own, with any number of calls, never race, see what they see alone, and every element ends as its owner alone would leave it.  Of two appends at the same time one can be lost, and SetValueAtIndex can panic, despite its check, while an element is removed.", "quantifier": "all contents, lengths and capacities of the array, all lists of calls, all goroutines choosing calls from earlier answers, all ways to divide the elements among them, all schedules of their accesses", "why_tests_cant": "the number of schedules grows exponentially, races show rarely, and the outcome depends on the capacity that append chose", "anchors": ["json/Array.go:NewArrayOfValues", "json/Array.go:SetValueAtIndex", "json/Array.go:RemoveValueAtIndex", "json/Array.go:Len", "json/Array.go:AppendValue", "json/Array.go:GetValues", "json/Array.go:GetStringValue", "json/Array.go:GetMap", "json/Array.go:ToJSONString", "json/Array.go:Clone"]}
{"id": "C91", "title": "Programs that write into the slice behind GetValues", "statement": "GetValues hands out the slice itself, so a program can write into it, append to copies of it and assign another slice through the pointer.  Whatever it writes, the methods of the array go on doing to its elements what they do to a list, and every state it makes is one that the methods could have made.  Setting an element of a copied slice changes the array exactly if the array still uses the memory of the copy and has that element.  Appending to a copied slice overwrites an element of the array exactly if there is room behind the copy and the array, in the same memory, has become longer: after s := *a.GetValues(); a.AppendValue(y); s = append(s, x) the array has lost y and holds x if there was room, and holds y if there was none.  A slice that the program made itself and the array never affect each other before it is assigned through the pointer, which makes the array hold its elements.", "quantifier": "all programs of calls, copies, cuts, writes, appends and assignments on any number of slices, all growth strategies of append, all reachable states", "why_tests_cant": "the effect depends on hidden capacities and on which slices share memory, for every program and every growth strategy", "anchors": ["json/Array.go:GetValues", "json/Array.go:AppendValue", "json/Array.go:SetValueAtIndex", "json/Array.go:RemoveValueAtIndex"]}
{"id": "C92", "title": "Sorting the slice returned by GetKeys sorts the map", "statement": "GetKeys returns the slice of the map itself, so a program that sorts it, as sort.Strings(m.GetKeys()) does, or brings it into any other order, changes the order of the keys of the map and nothing else: at any points between other calls, every later call returns what it returns for a map with the same entries in the new order, and every getter, the list of keys and the text of every object are those of a state that the methods reach with such a map.  Values() alone keeps the old order, and from then on setting or removing a key changes the value of another one in it.  Sorting a slice that was taken before more keys were set sorts the older keys among themselves or changes nothing, depending on capacities that no method shows.", "quantifier": "all reachable states, all finite programs that interleave API calls, calls on lists returned by Values() and reorderings of slices of keys, all growth strategies of append", "why_tests_cant": "the programs are unbounded, and the effect of an older slice depends on hidden capacities", "anchors": ["json/Map.go:getKeys", "json/Map.go:setInternalValue", "json/Map.go:removeKey", "json/Map.go:toJSONString", "json/Map.go:Values"]}
{"id": "C93", "title": "Writing other names into the slice returned by GetKeys changes what a map lists and writes, not what it holds", "statement": "A program that writes strings into m.GetKeys(), for example to put the names into capitals, changes the list of names of the map only.  At any points between other calls, HasKey, GetValue and every getter answer about every key as after the same program without the writes; GetKeys, Values and the error of RemoveKey follow the list as written.  ToJSONString writes one member for every listed name, as often as it is listed, with null when the map holds nothing under it, and leaves out what is held under names that are not listed; maps and arrays that contain no such map are written as before.  When k2 has been written over the key k, RemoveKey(k) returns true and an error and k2 stays listed, setting k again does not list it, and setting k2 lists it twice.  GetKeys and Values stay equally long.", "quantifier": "all reachable states, all finite programs that interleave API calls and in-range writes to slices of keys of any maps", "why_tests_cant": "the programs are unbounded, and what is lost shows only in the text, not in any getter", "anchors": ["json/Map.go:getKeys", "json/Map.go:hasKey", "json/Map.go:setInternalValue", "json/Map.go:removeKey", "json/Map.go:toJSONString", "json/Map.go:Values"]}
{"id": "C94", "title": "Nothing done to the slice of GetKeys and the list of Values changes what a map holds", "statement": "GetKeys and Values hand out the slice of names and the list of values of the map itself.  A program that writes strings into slices of keys and appends to, sets in and removes from lists of values, at any points between other calls, leaves every map holding what it holds after the other calls alone: HasKey, GetValue and every getter answer about every key in the same way, and two programs with the same calls on their maps, arrays and values cannot be told apart by them.  The texts do not depend on the lists of values, and those of objects in which every map lists the keys it holds are the same as without the changes.  GetKeys lists at least as many names as the map holds keys.", "quantifier": "all reachable states, all pairs of finite programs that interleave API calls, in-range writes to slices of keys and calls on lists of values of any maps", "why_tests_cant": "the programs are unbounded, and the property compares two executions", "anchors": ["json/Map.go:getKeys", "json/Map.go:Values", "json/Map.go:hasKey", "json/Map.go:setInternalValue", "json/Map.go:removeKey", "json/Map.go:isValueNilForMap"]}
{"id": "C95", "title": "A clone holds what its original lists, not what it holds", "statement": "Clone copies a map name by name from the slice that GetKeys hands out.  After a program that has also written into such slices, and changed lists that Values hands out, the clone of a map lists every name that the original lists once, in the order of their first places, and holds exactly what it lists; its list of values is in line with the names again.  Under each name it has a new Value: nil when the original holds nothing there, and else a copy of what the original holds (the same scalar, a new variable with the same content, a new map or array).  So it is at every depth: a nested map is copied with the names it lists, an array Value by Value in order, a nil pointer becomes nil, an instant stays the same and a list of errors keeps its length.  What the original holds under a name that is not listed is lost.  Whatever the state, Clone of a value, map or array changes nothing that is there already.", "quantifier": "all reachable states, all finite programs that interleave API calls, in-range writes to slices of keys and calls on lists of values of any maps, all maps, and every run of Clone that returns a map; for the last sentence all states whatsoever, proper or not", "why_tests_cant": "the programs and the maps are unbounded, and that nothing else changes ranges over the whole memory", "anchors": ["json/Map.go:Clone", "json/Map.go:getKeys", "json/Map.go:setInternalValue", "json/Value.go:Clone"]}

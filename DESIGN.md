# Design: a Rocq model of holistic_json

The model covers the package `json` (`JSON.go`, `Map.go`, `Array.go`, `Value.go`).
Everything is stdlib Coq 8.16.1; every theorem is "Closed under the global context".

## Layers of the model

1. **Go library** (`GoStr`, `GoNum`, `GoFloat`, `RunesModel`).  Go strings are lists of
   bytes (`ascii`).  `strings.TrimSpace/Replace/Count/HasPrefix/HasSuffix/Contains`,
   `string(byte)`, `strconv.ParseInt/ParseUint/FormatInt/FormatUint/ParseFloat`,
   `fmt.Sprintf("%f")` and the conversion `[]rune(s)` are computable functions.  Floats
   are exact (sign, mantissa, exponent) triples with an explicit round to nearest even.
2. **Heap** (`Heap`, `Common`, `ValueModel`, `ArrayModel`, `MapModel`, `GetterModel`,
   `JsonModel`, `ParserModel`, `MainModel`, `MetricsModel`, `NamedModel`, `PtrModel`, `PtrListModel`, `TimeModel`, `ValuesModel`,
   `ReadModel`).  `Map`, `Array` and `Value` are structs of
   closures over private variables, so copying a struct aliases its state: the model is a
   heap of cells (scalar behind a pointer, `Value`, `Map`, `Array` and key-slice state).
   Methods are state transformers that return `Ok`, `Panic` (a run-time panic of Go),
   `Stuck` (ill-typed heap; proved unreachable) or `NoFuel` (only the traversals that may
   diverge: serialise, clone).  The parser is modelled over this heap byte by byte.
3. **Separate views of the same code.**  `KeysSlice` models the slice returned by
   `GetKeys` with backing arrays, lengths and capacities (C22), `LoopModel` loops over that slice (C84), `ElemSlice` the slice behind `GetValues` of an array (C85), `PokeModel` programs that write into it (C91), `OrderModel` programs that sort the slice of keys (C92), `RelabelModel` programs that write other names into it (C93), `HandedModel` programs that also change the list of `Values` (C94).  `ConcModel` models
   goroutines running `setInternalValue` as interleaved steps (C48), `AccessModel` goroutines
   setting, removing and reading keys, any number of calls each (C88), `CellModel` goroutines
   using one array, with the slice header and every element as variables of their own (C90);
   `ParseConcModel` is any number of goroutines inside `Parse`, interleaved between the
   iterations of its loop, together with other API calls (C69).  `MethodTable` lists
   the declared and the assigned methods (C41); `NamedModel` maps each name to what it
   does (C56).  `ClientModel` is any program that uses the library: it chooses each call
   from what it has seen (C77); `CoverModel` lists the method each call stands for.  `TeamModel` is any number of such programs, interleaved
   between calls (C78), sharing objects that none of them changes (C87).  `MessageModel` adds the texts of Parse's errors to the parser
   (C79), `SaysModel` those of the getters' errors (C80), `ToldModel` those of the writer,
   of the conversions and of Clone (C81); `TextModel` is a program that reads all of them (C86).
4. **Proof devices.**  `TreeParser` is the parser on pure trees; `ParseRefine` proves that
   the heap parser computes it from every heap.  `World`/`Inv`/`Reach` prove that the heap
   refines the world of `SpecWorld` (maps are ordered dictionaries, arrays lists, values
   and variables single cells) for every call and every history.

## Specifications

`Spec*.v` hold the vocabulary of the statements and do not mention the functions of the
model: `SpecDict` ordered dictionaries, `SpecWorld` what each call does, `SpecDoc`
documents and representation, `SpecText` grammars of object texts with the documents they
denote, `SpecToken` unquoted scalars, `SpecParse`, `SpecPanic` texts that make Parse panic,
`SpecNum` integer ranges and numerals, `SpecFloat` nearest floats, `SpecRound` six-decimal
rounding, `SpecRender` the text of a document, `SpecWrite` the text of any content, `SpecConvert` the string of any value,
`SpecJson` RFC 8259, `SpecRfc` what its texts say, `SpecMetrics` counting, `SpecParseConc` results of concurrent Parse calls, `SpecUtf8`, `SpecClone` contents and copies, `SpecHistory`, `SpecArray`
arrays read whole, `SpecKeys`, `SpecConc`, `SpecAccess` and `SpecCell` calls at the same time, `SpecPoke` writes into the slice of an array, `SpecOrder` sorting slices of keys, `SpecRelabel` writing other names into them, `SpecHanded` that and changing lists of values, `SpecReclone` clones after that, `SpecHostile` strings that end in a backslash, `SpecJoint` teams sharing objects, `SpecEdit` edits of documents, `SpecErr`,
`SpecTell` (objects a program can be given in place of others), `SpecString`, `SpecNamed`, `SpecPtr`, `SpecPtrList`, `SpecReader` (what RFC 8259 readers get from a written text), `SpecOrigin` (where the parts of a result stand in the text, and its size), `SpecNormal` (rewriting a text), `SpecNest` (object texts inside other texts), `SpecScalar` (every unquoted scalar), `SpecEvery` (the result on every text), `SpecAlike` (objects with the same content), `SpecMessage` (the texts of Parse's errors), `SpecSays` (the texts of the getters' errors), `SpecTold` (those of the writer, the conversions and Clone), `SpecTime`, `SpecValues`, `SpecRead` (what the getters of a value
answer for a piece of text), `SpecTrip` (two values read alike) and `SpecRepeat` (exactly
alike), which name the getters themselves.

`Prop*.v` hold the property theorems with an example beside each group that meets the
hypotheses, and `Print Assumptions`.  `Example*.v` are the concrete states and texts.  All
other files are proofs.

## The program states quantified over

`reachable X h`: the heaps obtained from the empty one by any sequence of API calls with
handles of the right kind (`ok_call`), parses of any text and clones.  Statements that say
`reachable` hold after every history; statements about documents quantify over every
document the state represents.

## External dependency

`github.com/matehaxor03/holistic_common` is not in the sandbox.  Assumed:

* `IsNil(x)` is true exactly for a nil interface and for a typed nil pointer.
* `GetType(x)` is the `%T` name, "nil" for a nil interface.
* `IsMap/IsArray/IsString/IsBool/IsInt8/.../IsFunc` look only at the type, accept `T` and `*T`.
* `CloneString` copies the string.

What the uses do not determine is a field of the record `ext`, over which every theorem
quantifies: `x_is64` (`strconv.IntSize`), `x_typed_nil` (does `GetType` of a typed nil
pointer say "nil"), `x_known` and `x_is_array` (predicates on types outside the JSON ones),
`x_escape` (`EscapeString`), `x_time` (`time.Time.Format`), `x_sprint` (`fmt.Sprintf("%s")`
of a nested value, and the message of a `url.Error` or `exec.ExitError`), `x_errorf` (`fmt.Errorf` with a text as format).  Theorems that need
`EscapeString` to replace each `"` by `\"` say `escape_ok X`; `std_ext` satisfies it.

## What is modelled, what is not

Modelled, by file:

* `JSON.go`: `Parse`, `unquote_key_value`, `parseJSONMap`, `parseJSONValue`,
  `ConvertInterfaceValueToJSONStringValue`, `ConvertInterfaceValueToStringValue` (28-1106).
* `Map.go`, `Array.go`, `Value.go`: the constructors and all methods they assign except
  those listed next.

Not modelled:

* The reading of an object as a time (`common.GetTime` and its relatives): a parameter
  (`timelib`, TimeModel.v) of the models of `GetTime`, `GetTimeWithDecimalPlaces` and
  `GetTimeValue`.
* `getTimeNow`, which nothing calls, and `cloneString`, which copies the initial mode.
  `Parse` of ParserModel.v keeps the counters of the metrics map as numbers;
  MetricsModel.v has the map itself, and C68 shows that the results are the same.
* Nil slices: a nil `[]error` or `[]string` is the empty list.  Errors in lists and behind
  pointers are nil, plain (`errors.New`) or have a type name and a message; their methods
  are not modelled beyond `Error()`.
* Go's memory model: accesses (C48) and iterations of the parse loop (C69) are atomic
  steps.
* Texts of the errors of the time getters, which come from package time.  Errors are tags
  that say where they were raised (C11 counts and locates them); their texts are computed
  beside: `MessageModel` has those of Parse (C79), with `strconv.Quote` for code points
  below 256; `SaysModel` those of the getters (C80), with `strconv.Quote` as a parameter;
  `ToldModel` those of the writer, the conversions and Clone (C81), with the message of
  `common.EscapeString` as a parameter.
* Memory exhaustion and stack overflow, except that unbounded recursion on cyclic
  structures is shown to exceed every fuel (C42).
* Map iteration order of Go: the constructor from a Go map takes the entries in any
  order (C44 holds for each).

## Check of the model against the project's tests

`TestSuiteValues.v` and `TestSuiteArrays.v` restate all 198 tests of `/repo/tests` on the
model, one definition per test with the test's name, generated from the Go source by
translating each condition; `TestKit.v` has the vocabulary.  A test is a function of the
state it starts in.  `TestFacts.v` shows that the state does not matter, and C83 that all
tests pass in every state.

## Properties and how each is treated

| id | model and proof |
|----|-----------------|
| C01, C02 | heap serialiser and heap parser; C03 applied to the text of a document; refuted variants give the side conditions |
| C03, C04, C12, C17 | induction on the grammar derivation over the tree parser, transferred by refinement |
| C05, C06, C07 | invariant of the byte loop for every byte string |
| C08 | refuted in general; the exact set of texts that panic (`SpecPanic`) |
| C09, C10, C11, C13, C15, C16, C18 | classification of scalars, positions in the text; refuted parts by witnesses |
| C14 | refuted by witness; every other string round-trips |
| C19, C20, C21 | refinement of maps to ordered dictionaries, induction on histories |
| C22 | slices with backing arrays; refuted parts by witnesses |
| C23, C44 | refinement of arrays to lists |
| C24-C29, C45, C46 | case analysis over stored types, integer range arithmetic |
| C30, C31 | correct rounding; C30 refuted in general, exact outcome proved |
| C32, C33, C42, C43 | fuelled serialiser, induction on the represented document |
| C34, C35, C36 | fuelled clone, all cells of a clone are fresh; exact failure modes |
| C37 | induction on the element list |
| C38, C39, C50 | frame properties; edits of documents under any sharing |
| C40 | invariant of the parser loop |
| C41, C56 | tables of methods generated from the source; lookup by name |
| C47, C51 | errors and lists of errors in the writer, the parser, clone and getters |
| C48 | interleaving semantics; refuted, and proved for goroutines that take turns |
| C49 | decoder against the UTF-8 specification, every byte string |
| C52 | the writer on every Go value, with holes and panics |
| C53, C54 | exact outcome for every index and object |
| C55 | functions as opaque numbers |
| C57 | getters that return pointers, with the pointers in the heap |
| C58 | time getters around a library that is a parameter; loss of stored times refuted |
| C59 | simulation between the heap with changed value lists and the heap without |
| C60 | induction on the path, positions in the text, getters of the represented object |
| C61 | C01 and C60's path lemmas in both directions |
| C62 | refinement of Parse to the tree parser, which sees the text only |
| C63 | C34's contents, followed along a path on both sides |
| C64 | the conversion on every Go value, case by case; C51's elements without restriction |
| C65 | the method tables of C56 compared name by name |
| C66 | lists of errors over all error types, from the writer (C52) and clone (C36) theorems |
| C67 | structure of RFC texts mapped to the texts of C03, numbers to the lexemes of SpecToken, then the outcome of Parse |
| C68 | the parser with its metrics map refines the same tree parser: every increment changes only a map below the base of the parse, and no step of the parser writes Values or variables |
| C69 | the refinement of the parser is proved for an arbitrary set of objects owned by the call; steps of others leave owned objects alone (sinv_keep), own steps leave all others alone; invariant over runs |
| C70 | the getters of C57 run along the elements; relation between elements, scalars, pointers and new variables |
| C71 | a wider unambiguous grammar containing both the grammar of RFC 8259 and the written texts; a scanner of quotation marks that never recovers once it is out of step |
| C72 | an invariant of the parser loop: the pending key and value are pieces of the part read so far, and a measure of everything built is paid for by the bytes read |
| C73 | what Parse makes is typed, so float64 values are integers beyond float32 and are written exactly; shows and comes_back are functions; growing keys by induction-free computation of the outcome of an object text |
| C74 | a run of the parser on a whole text above a stack of open containers is the run above nothing, lifted; then by induction on the members and elements |
| C75 | the model's number reader is cut into mantissa, exponent and underscore check, each proved equal to its specification in both directions; totality by case distinction, uniqueness because the model is a function |
| C76 | step by step simulation of the tree machine by the reports: the stack corresponds to the open containers, the key buffer to the last key, the value buffer to the bytes of the value; closing at the end by induction on the stack |
| C77 | a relation between heaps that links cells one to one, including the hidden lists of maps; every operation of the model is shown to preserve it and to return linked results, by unfolding of the monadic code; frame: cells that are not linked do not change |
| C78 | each program of the team is linked with the same program running alone, by the relation of C77; a turn of one program leaves the cells linked for the others alone, because of the frame of C77 or because it only reads |
| C79 | the messages of one step are computed beside the step of the parser; on trees they are what the reports of C76 say, with the messages of each value in place of its meaning |
| C80 | the messages of each getter are computed beside its model; the specification classifies objects (number, text, container, nil) and is proved equivalent case by case |
| C81 | the messages are computed beside the writer and Clone; both are proved equal to functions of the content by induction on the content |
| C82 | the program reads every object of its table, in rounds, until nothing new is found (the number of objects bounds the rounds), and stops at the first reply that differs; equal replies make the two tables a link of the worlds |
| C83 | a test reads only what its own Parse made, and two parses of a text in any two states give linked objects (C77); the result in the empty state is computed |
| C84 | the slice held by the loop reads as the keys followed by copies of the last key; an induction over the rounds keeps that |
| C85 | the backing array and the length of the array evolve together until an append finds no room; a copied slice is a prefix of that backing array |
| C86 | each function that computes texts gives equal texts in linked states; the number of texts follows from C80 and C81 call by call |
| C87 | the links of C78 may now overlap on shared objects; a turn that leaves a shared object alone also leaves it in the team, because the links are the identity there |
| C88 | the trace of a goroutine alone; while no two traces conflict, each goroutine is where it is alone after as many accesses, and a first conflicting pair can be scheduled because nothing before it conflicts |
| C89 | reading a quoted string changes whether a quotation is open exactly if the string ends in a backslash, so the parity of the whole text is the parity of their number; the findings follow the parser through the members before the string, the comma and quote it swallows, and what is left of the next member |
| C90 | as C88, with one variable for each element; what a call reads and writes alone is computed from the header, and goroutines with elements of their own touch only those and read the header |
| C91 | invariant: every slice, of the array and of the program, lies within its backing array; a write changes one element of one backing array, so what every slice shows afterwards is computed; slices with different backing arrays stay different |
| C92 | the simulation of C59, with one more step: the heap of the reference is brought into the new order by removing and setting the keys, and then its hash table into the old order by setting them again |
| C93 | a simulation with the program without the writes: heaps that differ in the lists of names and of values only; tables are the same, so are the answers of getters |
| C94 | the simulation of C93 with one more step; the count by an invariant of the specification |
| C95 | a Hoare-style frame of Clone without any invariant of the heap (RecloneFacts.v), and a loop invariant that the clone under construction is a proper map; for every depth an invariant that what is cloned so far stays as it is while the rest is cloned (RecloneDeep.v) |

A theorem ending in `_refuted` shows that the plain English property is false of the code
and carries a witness; the exact or restricted property is proved beside it.

## Trusted base

* Coq 8.16.1's kernel, including `vm_compute` (used for concrete witnesses and examples).
* Axioms: none.  `Print Assumptions` after each property theorem prints "Closed under the
  global context".  (`coqchk` lists three constants of `Coq.ssr.ssrunder`, a standard
  library module loaded by the tactic plugins; no theorem uses them.)
* The correspondence between the definitions and the Go source; each cites file and lines.
* The assumptions about `holistic_common` above.
* `strconv.ParseFloat` and `%f` are correctly rounded; `%f` prints the exact decimal value
  rounded to six digits.
* Go's specification of slices (`append` writes in place when capacity allows), maps and
  closures, as written in `Heap`, `KeysSlice`, `ElemSlice`, `PokeModel`, `ConcModel`, `AccessModel` and `CellModel`.

## Wrong programs

`seeded/LOG.jsonl` records edits of the model, each the image of a plausible bug, made in a
scratch copy; for each, the theorems that stopped being provable.

# A Rocq model of golisp

Source modelled: `/repo` (SteelSeries/golisp, pinned).  The code was read as text; nothing of it was built or
executed.  Coq 8.16.1; libraries used: the standard library, std++ and (in one file) Flocq.  `rocq/theories` maps to
the logical name `Verif`.

Contents: 1 trusted base, 2 shape of the model, 3 what is modelled, 4 simplifications, 5 what is not modelled,
6 specifications and proofs, 7 findings, 8 how the model and the theorems were tested, 9 decisions.

## 1. Trusted base

1. Coq's kernel (and `vm_compute`, used only for closed boolean computations: examples, refutation witnesses and
   checks on the initial state).
2. **What `Print Assumptions` lists.**  Every property theorem has `Print Assumptions` below it in its `Prop*.v`
   file.  All are *Closed under the global context* except

   | theorems | assumptions listed |
   |---|---|
   | `C09_integers`, `C27_exact`, `C27_monotone`, `C29_interval_step`, `C29_wrong_direction`, `C56_sign`, `C56_abs`, `C56_float_and_back`, `C57_floor`, `C57_ceiling`, `C64_refused`, `C64_accepted`, `C64_null_refuted`, `C64_exact`, all of C66 but `C66_negate_refuted`, and all of C67 but `C67_one_meaning` and `C67_same_value`, `C71_accounts`, all of C72, C73, C74, C75 and C76, and `C77_value`, `C77_session`, `C77_unevaluated` | `ClassicalDedekindReals.sig_not_dec`, `ClassicalDedekindReals.sig_forall_dec`, `FunctionalExtensionality.functional_extensionality_dep`, `Classical_Prop.classic` |

   These are the axioms of the standard library's real numbers.  They come in through Flocq's correctness theorem for
   rounding, needed because golisp compares integers by way of `float32`.  A tool that lists the axioms of every
   *loaded* module also reports `Coq.ssr.ssrunder.Under_rel.*` (a sealed module of the standard library's ssreflect,
   loaded by Flocq/std++) and `Rdefinitions.*` (sealed definitions of the real numbers).  No theorem depends on the
   former.  No axiom, `Parameter`, `Admitted`, functor, module type or kernel switch is used in this development.
3. **The reading of the Go code**: the definitions of the model files (section 3) with the simplifications of
   section 4.  Each definition cites the file and lines it stands for.
4. **The specifications** (`Spec*.v`), which give the words used in the theorems their meaning.
5. **Contracts of Go's libraries** that were written down as definitions: `strconv`/`fmt` for integers and `float32`,
   `strings.*`, UTF-8 decoding, `encoding/json`, `sort.Slice` (as insertion sort), channels and `sync` locks.

## 2. Shape of the model

* **Values** (`Values.v`): Go's `*Data` as a sum type.  Go `nil` is the explicit value `VNil`; cons, alist and
  alist-cell data are `VCell tag loc`; strings, bytearrays, functions, macros, environments, bindings, frames,
  channels, processes and atomic integers live in separate heaps of one `state` record, with addresses from one
  counter.  Integers are `Z` with explicit `wrap64`; floats are `SpecFloat` binary32; Go strings are byte strings.
* **Programs** (`Prog.v`): every Go function that touches the heap or can call back into the evaluator is a term of
  `prog A`: `Ret`, `Panic` (a Go run-time panic), `Vis` (one operation on the state), `Call` (a recursive request:
  eval, apply, equality, copy, printing, ...), `Iter` (a Go `for` loop).  `denote : req X -> prog X` (`Interp.v`) ties
  the recursion.  Nothing is bounded.
* **Semantics**: `run denote n p s`, a fuelled evaluator (`None` = out of fuel or blocked, different from every
  result), monotone in the fuel; `runs p s o s'` = some fuel suffices.  For goroutines: `Pool.v`, any number of
  threads that execute programs over one state, one operation per step, in an order chosen by a scheduler.
* **Nondeterminism**: map iteration order, time, random numbers, file contents, libm and timers are answers of oracle
  streams in the state, universally quantified.  The Unicode tables are a parameter of the state.
* **Built-ins** take their arguments as a Gallina list.  This is exact: `PrimitiveFunction.Apply` and
  `ApplyWithoutEval` rebuild the argument list with `ArrayToList` (primitive_function.go 226-274, util.go 10-22), a
  fresh nil-terminated spine without Go nil.
* **Errors**: `res A := Ok a | Err msg` is Go's `(result, err)`.

## 3. What is modelled

| Go file | model |
|---|---|
| data.go, list_access.go, util.go | `Values.v`, `Prog.v`, `FloatText.v`, `Data.v` |
| symbol_table_frame.go, binding.go, frame.go | `SymTab.v` (and `Locks.v` at the level of locks) |
| primitive_function.go | `ArgSpec.v`, `Apply.v` |
| function.go, macro.go, evalHelper and FunctionCall of data.go | `Apply.v` |
| prim_special_forms.go, prim_macros.go | `PrimSpecial.v` |
| prim_list_access.go, prim_list_functions.go, prim_list_manipulation.go, prim_list_set.go, prim_alist.go, prim_mutators.go | `PrimList.v` |
| prim_math.go, prim_binary.go, prim_bytearray.go, prim_relative_logical.go, prim_type_predicates.go | `PrimMath.v` |
| prim_frame.go, prim_environment.go | `PrimFrame.v` (JSON built-ins in `Json.v`) |
| tokenizer.go, parser.go | `Reader.v` |
| prim_string.go, prim_system.go, prim_io.go, prim_debug.go | `PrimString.v` |
| prim_channel.go, prim_concurrency.go | `PrimConc.v` |
| json_support.go, json_frame_support.go | `Json.v` (with `encoding/json`'s text layer) |
| prim_setup.go | `Interp.v`: table of all built-ins, initial state |
| Intern, SetSymbol, frame Get/Set/Remove/HasSlot with their `sync.RWMutex` and the goroutines' access to Go maps | `Locks.v` |

All built-ins registered by `prim_*.go` are in the table of `Interp.v`.

## 4. Simplifications

Stated at the definitions concerned; collected here.

* Error messages: interpolated values are left out in some messages, and so is the `Evaling ...` prefix chain.  The
  illegal-character message at the end of the input shows 0 instead of -1.
* The identity of a frame's `Data` and of its `FrameMap` are one.  Opaque addresses are not printed.
* NaN payloads are not represented; `int64(f)` of a float out of range is the smallest integer (amd64).
* `Previous`, debugger, tracing and profiling state are left out.
* `ArrayToList` allocates its cells in one go, last cell first; the list made by a `:`-shortcut is linked when it is
  created; `min`/`max` read their list once.
* Operations on one frame or environment are atomic in the main model.  Their locks are the subject of `Locks.v`, in
  which every lock operation and every map access is a step of its own; locks taken while printing, comparing or
  converting frames to JSON are not in `Locks.v`.
* Creating a process, noting its parent and starting the goroutine is one action (`OSpawn`).  Timers may fire at any
  moment.  The gensym counter is unbounded.
* `sort.Slice` is insertion sort; `math.*` and `**` on floats are answered by the oracle.
* The reader tokenizes the whole text first (the Go tokenizer is called token by token; it does not depend on the
  parser).
* Ports and files: contents come from the oracle; opening (with the mode), every text written, every text read and closing are
  recorded as events.  The tokenizer that is kept between two reads of the same port is
  computed from this history; the text of a port is taken as a whole when the port is first read (or read again after
  another port), so a file that grows while it is being read is not covered.  `quit` is assumed to be called
  outside the interactive debugger.
* Members of a JSON object are converted in the order of the text (Go: map order, which only changes addresses).
  Go structs and other types that cannot come from decoding are not converted.  No depth limit.
* Memory and stack exhaustion are not modelled, `make-list` with an absurd length excepted (panic of `make`).
* Reads of an address that was never allocated give a default and writes to it do nothing.  C53 shows that no
  execution makes use of this.

## 5. What is not modelled

The REPL and readline, the interactive debugger, profiling and logging, `main/golisp.go`; the effects of files and of
external commands beyond being recorded (and forbidden in sandboxes); conversion of Go structs; the Lisp libraries in
`lisp/`; Go's memory model below the granularity of a map access; garbage collection.

## 6. Specifications and proofs

`Spec*.v` holds vocabulary that speaks about states, values and executions, not about the helpers of the model.
`Prop*.v` holds the theorems and nothing else; each is closed by one lemma of a `Proof*.v` file, with `Print
Assumptions` and, per property, an `Example Cnn_cases` in which a program runs and the hypotheses are met.

| properties | specification | proofs | statements |
|---|---|---|---|
| C01-C04 access, sandboxes, unchanged data | SpecAccess | Safety, Policy, SafeWalk, ProofWf, ProofAccess | PropAccess |
| C05, C06 lists | SpecCall, SpecList | RunFacts, ProofList | PropList |
| C07-C09 functions on lists, sort | SpecHigher | ProofHigher, ProofSort | PropHigher |
| C10-C12 sets, equality, copy | SpecTree, SpecSet | ProofTree, ProofSet | PropTree |
| C13-C15 reading, printing | SpecRead | ProofRead, ProofPrint | PropRead |
| C16-C19, C21, C22, C36, C45-C47, C51 evaluation | SpecEval | ProofArgs, ProofEval, ProofCall, ProofEnv, ProofForm, ProofApply, ProofNot | PropEval, PropNot |
| C20 quasiquotation | SpecQuasi | ProofQuasi, ProofFill | PropQuasi |
| C23, C24, C49 frames | SpecFrame | ProofFrame | PropFrame |
| C25-C31 arithmetic | SpecMath | NumText, ProofFloat, ProofMath | PropMath |
| C32-C35, C50 bytes, strings, alists, predicates | SpecData | StrFacts, ProofData, ProofBytes, ProofAlist, ProofPairs | PropData |
| C37-C41 goroutines | SpecConc | ProofConc, ProofProc, ProofChan, ProofPerform, ProofSchedule | PropConc |
| C42, C48 locks | SpecLock | ProofLock | PropLock |
| C43 JSON | SpecJson | ProofJson | PropJson |
| C44 format | SpecFormat | ProofFormat | PropFormat |
| C52, C53 reachability | SpecReach | ProofReach | PropReach |
| C54, C55 panics, bytes | SpecCrash | ProofCrash | PropCrash |
| C56, C57 one-argument arithmetic | SpecNum | ProofNum | PropNum |
| C58 trimming and case | SpecTrim | ProofTrim | PropTrim |
| C59 threading, eval, code as data | SpecThread | ProofThread | PropThread |
| C60 environments as values | SpecReflect | ProofReflect | PropReflect |
| C61 output, text of values | SpecOut | ProofOut | PropOut |
| C62 flattening, paths, rassoc, make-frame | SpecMore | ProofMore | PropMore |
| C63 program texts, load | SpecText | ProofText | PropText |
| C64 json->lisp on all strings | SpecJsonText | ProofJsonNum, ProofJsonText | PropJsonText |
| C65 equality with floats and frames | SpecEqual | ProofEqual | PropEqual |
| C66 arithmetic with floats | SpecArith | ProofArith | PropArith |
| C67 functional core | SpecCore, SpecPower, SpecOwn, SpecRewrite | ProofCore, ProofCoreRun, ProofPower, ProofOwn, ProofRewrite | PropCore, PropPower, PropOwn, PropRewrite |
| C68 apply-slot, super | SpecSuper | ProofSuper | PropSuper |
| C69 Unicode strings | SpecUnicode | ProofUnicode | PropUnicode |
| C70 ports, files, system functions | SpecPort | ProofPort | PropPort |
| C71 functions with private state | SpecState | ProofState | PropState |
| C72 errors in the functional core | SpecFail | ProofFail, ProofFailRun | PropFail |
| C73 going on after errors | SpecSession | ProofSession | PropSession |
| C74 objects with a shared prototype | SpecObject | ProofObject | PropObject |
| C75 handling errors | SpecRescue | ProofRescue | PropRescue |
| C76 defining again | SpecRedefine | ProofRedefine | PropRedefine |
| C77 macros as abbreviations | SpecMacro | ProofMacro | PropMacro |

Three proof methods:

* *Invariants of every execution* (C01-C04, C52-C55).  `safe p Q` (`Safety.v`) says that program `p` respects a
  policy whatever it is told; a general theorem turns a policy respected by all requests into an invariant of every
  execution of any number of goroutines under any scheduler.  `Policy.v` defines one family of policies and
  `SafeWalk.v` walks once through every function of the interpreter.
* *Functional specifications*: total correctness over `runs` (termination included) with representation predicates
  (`list_of`, `is_list`, `tree`, `holds`), by induction over the represented data; what must not change is stated
  (`grows`, `kept`, `only_frame`).  Theorems about forms whose parts are arbitrary expressions are equivalences: the
  form finishes in a way if and only if its parts, evaluated as described, do.
* *Histories* (C37-C42, C48): actions of all goroutines in the order in which they happen, compared with small
  abstract machines.

## 7. Findings

Places where the code does not do what one expects.  Those with a theorem name are proved (`..._refuted`, a witness
executed by the model); the others were met while modelling.

| finding | theorem |
|---|---|
| `environment-assign!` overwrites protected bindings | `C01_environment_assign_refuted` |
| a restricted environment is left through `procedure-environment` of an unrestricted function | `C02_unrestricted_function_refuted` |
| `complement`/`intersection` change an existing association list | `C04_complement_refuted` |
| `take`/`drop` of a bytearray crash on a negative count | `C06_negative_bytes_refuted` |
| errors of a callback can be replaced or lost (`sort`, `find`) | `C08_error_refuted` |
| NaN elements survive removal | `C10_nan_refuted` |
| `equal?` on improper lists and association lists: ignores tails, not symmetric | `C11_improper_refuted`, `C11_symmetric_refuted` |
| `copy` shares strings and empty cells, reverses association lists | `C12_alist_refuted`, `C12_empty_refuted`, `C12_strings_refuted` |
| strings with backslashes or quotes in symbols do not survive printing and reading; `(quote a b)` prints as `'a` | `C13_backslash`, `C13_backslash_refuted`, `C13_quote_refuted`, `C13_symbol_refuted` |
| a text that ends after `'`, a backquote, `,` or `.` is silently dropped; `)` alone reads as a symbol | `C14_dangling_refuted`, `C14_closing_refuted` |
| a lone rest parameter is never bound | `C16_rest_only_refuted` |
| a closure made in an initialiser of `let*` sees the bindings made after it | `C18_let_star_scope_refuted` |
| splicing a list that ends in an empty cell adds `()`; a dotted template loses its tail | `C20_splice_refuted`, `C20_dotted_refuted` |
| an error in a `do` step is swallowed | `C22_do_step_refuted` |
| a parent slot that does not hold a frame crashes slot lookup | `C23_bad_parent_refuted` |
| `%`/`modulo` by zero crash | `C25_modulo_zero_refuted` |
| `**` with a negative exponent answers 1 | `C26_negative_refuted` |
| integers beyond 2^24 can compare as equal | `C27_large_refuted` |
| `interval` up to the largest integer never ends | `C29_max_refuted` |
| `extract-bytes` accepts an overflowing range | `C32_extract_overflow_refuted` |
| `substring` with a negative start crashes | `C34_substring_negative_refuted` |
| `dissoc` with a repeated key changes another key's value | `C35_dissoc_repeated_refuted` |
| `pairlis` refuses as its third argument an association list made by `acons`, `alist` or `pairlis` itself | `C35_pairlis_alist_refuted` |
| `reset-timeout` can answer OK after the task has run | `C39_reset_refuted` |
| a user's symbol can equal a generated one | `C41_user_symbol_refuted` |
| two first calls of `Intern` can give two objects for one name (unlocked gap) | `C42_one_object_refuted` |
| JSON: trailing colons lost, integers beyond 2^53 changed, `null` lost or crashing | `C43_colon_refuted`, `C43_large_refuted`, `C43_null_refuted` |
| `format`: crash on a directive cut short; `@` holds for all later directives | `C44_cut_refuted`, `C44_at_refuted` |
| `apply` of a built-in evaluates `quote` in the caller's environment | `C46_builtin_refuted` |
| frames that are their own ancestors can deadlock; a panic inside `Get` keeps the lock | `C48_cycle_refuted`, `C48_panic_refuted` |
| methods reached through `send-super` do not see the receiver's slots | `C49_send_super_refuted` |
| 21 built-ins can panic, three of them only when another goroutine changes the code being evaluated | `C54_each`, `C54_parent_refuted` |
| `abs` of an integer beyond 2^24 can be wrong, even negative; `float` loses large integers | `C56_abs_large_refuted`, `C56_abs_negative_refuted`, `C56_float_large_refuted` |
| capitalizing the empty string crashes | `C58_capitalize_empty_refuted` |
| `->` and `=>` evaluate a value that is a symbol or list once more | `C59_evaluated_again_refuted` |
| `general-car-cdr` with a negative path number never returns | `C62_path_negative_refuted` |
| `flatten` and `flatten*` turn an empty list that ends a sublist into an element and lose the last atom of a dotted sublist | `C62_flatten_refuted` |
| An empty list between the expressions of a program silently ends it; what follows is not run and no error is given | `C63_empty_refuted` |
| `(json->lisp "null")` crashes the program for every layout of the text, although null is JSON | `C64_null_refuted` |
| A slot holding `()` equals a missing slot, so `(eq? {a: ()} {b: ()})` is #t and `eq?` on frames is not symmetric | `C65_empty_slot_refuted` |
| NaN is not `eq?` to itself, although a list holding it is `eq?` to itself | `C65_nan_refuted` |
| Comparing two different frames that each hold themselves never ends: the Go stack overflows and the process dies | `C65_cyclic_refuted` |
| After the first float, arithmetic takes what is not a number as 0: `(+ 1.5 "x")` is 1.5 | `C66_not_a_number_refuted` |
| `(- 1.5)` is 1.5: minus with one operand does not negate | `C66_negate_refuted` |
| capitalizing a text that starts with a non-ASCII character destroys that character | `C69_capitalize_refuted` |
| reading two ports in turn loses the buffered text of the first: its next read gives end-of-file | `C70_alternate_refuted` |
| `(set-car! nil 1)` changes the shared global empty list | |
| floats of one digit >= 1e6 print as `1e+06.0` | |
| `->` and `=>` evaluate values again | |
| a second `fork` from a process overwrites the parent of the first | |
| `general-car-cdr` loops on negative paths; `abs` goes through `float32`; a float after the first one is not noticed in mixed arithmetic | |
| `ParseAndEvalAll` stops at the first `()` | |
| `{]` reads as an empty frame, `[-1]` as byte 255 | |

## 8. Testing the model and the theorems

* *Model against the repository's own tests*: `tools/run_lsp_tests.py` evaluates the assertions of `/repo/tests/*.lsp`
  in the model (by `vm_compute`); it is a test of the reading of the code, not a proof.
* *Theorems against wrong programs*: `tools/mutate.py` applies an edit to a definition in a scratch copy, rebuilds the
  interfaces, rechecks the proofs below the theorems of the claim, replaces broken proofs so that all are found, and
  reports the theorems that depend on a broken lemma.  `tools/seedlog.py` turns the results into `seeded/LOG.jsonl`.
  There `lemmas_broken` is what was observed in the run; `theorems_failed` is inferred from it by textual dependency on the
  present sources, so it also names theorems added after the run, which were not themselves rebuilt with the edit.
  A proof script can also break on a harmless edit, so some harmless edits are in the list; surviving edits that
  falsify a claim led to tightened theorems (field `theorems_tightened`).
* *Statements against themselves*: `Example Cnn_cases` beside the theorems.

`tools/manifest.py` regenerates `MANIFEST.json` from the `Prop*.v` files; `tools/props.py` writes `properties.jsonl`.

## 9. Decisions

* Where the code violates the property as first imagined, the property is stated with the exact boundary at which it
  holds, and the violation is a `_refuted` theorem.
* Theorems about evaluation quantify over all states with the invariant `wf` (addresses below the counter) or
  `no_dangling`; both hold initially and are preserved (`C53`).
* Callbacks of list functions are arbitrary; the only hypothesis is that they do not change the cells of the list
  being walked while the walk goes on, and C52 says when that is so.

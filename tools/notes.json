{
 "C01": "Holds for every execution that does not enter environment-assign!, which ignores protection (finding).",
 "C02": "Holds whenever no unrestricted environment or function is reachable; a reachable unrestricted function leaks (finding).",
 "C04": "Holds for every execution that enters none of the listed writing built-ins; complement and intersection are on the list because they can change an existing association list (finding).",
 "C06": "A negative count crashes take and drop on a bytearray (finding).",
 "C08": "For callbacks that do not themselves change the cells of the lists being walked. find and find-tail replace the callback's error; filter, remove, find call the callback without arguments on a Go nil element, which only json->lisp produces (finding).",
 "C09": "sort.Slice is modelled by insertion sort. C09_integers uses the axioms of the standard library's real numbers (< goes through float32).",
 "C10": "For lists of trees without frames or floats; NaN escapes removal (finding).",
 "C11": "For trees without frames or floats. Improper lists and association lists break it (findings).",
 "C12": "Includes frames. Strings and the cells of empty lists stay shared, association lists come back reversed (findings).",
 "C13": "Trees of int64 integers, booleans, UTF-8 strings without backslash, writable symbols, bytearrays and nested proper or dotted lists. A string with a backslash never comes back (C13_backslash, finding); (quote a b) and symbols that cannot be written do not either (findings).",
 "C14": "An unclosed text is an error unless its last token is a quote, backquote, comma or point (finding); closing parentheses alone read as symbols (finding).",
 "C15": "Decimal, negative, #x, 0x and #b literals of any length followed by a blank, bracket, quote, comment or the end.",
 "C16": "For parameter lists other than a lone rest parameter, which is never bound (finding).",
 "C20": "C20_template: every template and any expressions, order of evaluation, errors and assembly. C20_fills and C20_copy: the resulting data when the expressions leave existing data alone. Findings: splicing a list that ends in an empty cell adds a (), a dotted template loses its tail.",
 "C22": "Propagation is part of the theorem of each form; errors in do steps are swallowed (finding).",
 "C23": "All prototype graphs (cycles included) and all visiting orders. C23_inherited also says that an override on the way hides the value. Finding (C23_bad_parent_refuted): a '*:'-slot holding a non-frame value makes the search crash with a nil dereference.",
 "C24": "only_frame says that nothing else in the whole state changed. C24_clone gives a new address, so updates of original and clone are independent by C24_set and C24_remove.",
 "C25": "% and modulo by zero crash (finding).",
 "C26": "A negative exponent answers 1 (finding).",
 "C27": "Exact up to 2^24, monotone for all 64-bit integers; larger integers may compare as equal (finding). Uses the axioms of the standard library's real numbers.",
 "C29": "The loop never ends when the bound is the largest integer (finding). C29_interval_step, C29_wrong_direction use the axioms of the standard library's real numbers (sign test through float32).",
 "C32": "An overflowing position + count passes the range check of extract-bytes and fewer bytes come back (finding).",
 "C33": "Strings are byte sequences. Also with an empty separator for split-then-join.",
 "C34": "A negative start crashes substring (finding). Case folding uses the Unicode tables, which are a parameter of the state; the -ci comparisons are tied to string-downcase.",
 "C35": "Atomic keys. dissoc needs unique keys: with a repeated key it changes what another key leads to (finding). pairlis is proved for a third argument without any of the keys; one made by acons is refused (finding).",
 "C37": "Every history of any number of goroutines, from the creation of the channel on. C37_machine gives the exact machine, the others its consequences in terms of accepted writes and requests; C37_write, _read, ... tie the built-ins to the actions.",
 "C38": "C38_result: the value left and delivered is what the call of the function produced (nil after an error or panic). C38_join covers calls whose other actions are interleaved with anything. A join by the process on itself answers nil at once, by design of the code.",
 "C39": "C39_at_most_once and C39_progress give the only shapes of a scheduled process. Finding (C39_reset_refuted): reset-timeout answers OK for a task that has already run.",
 "C40": "Linearizable because each built-in is exactly one action (C40_load ... C40_compare_and_swap) and the actions form a run of one integer (C40_linear).",
 "C41": "Finding (C41_user_symbol_refuted): a program that writes GENSYM-0 itself gets the symbol gensym returns; the property only speaks of generated symbols.",
 "C42": "Equality of symbols follows the names in every interleaving; two first calls of Intern for a name can answer two different objects (finding). Proved on the lock-level model (Locks.v).",
 "C43": "Texts are those of RFC 8259 with any white space, escapes and member order. Reading gives data standing for the document, writing gives a text of it, and both round trips hold; a text has one meaning. Floats are outside the fragment. Findings: a trailing colon of a name is lost, integers beyond 2^53 change, null vanishes, becomes a string or crashes. The text layer (encoding/json) is library code and is modelled by json_encode and json_decode.",
 "C44": "The control string decides the result of format: literal text, ~a/~s with column widths, ~%, ~~, line continuation, errors and crashes; every control string is covered. Findings: a control string that ends inside a directive crashes; an @ modifier holds for all later directives.",
 "C46": "Built-ins: nil-terminated list, at least one argument, quote not rebound (otherwise findings).",
 "C47": "do: every execution described by the specification is what do does; steps must have two or three parts and bind unprotected names.",
 "C48": "Proved on the lock-level model (Locks.v): mutual exclusion and no lost updates for all interleavings, no deadlock for acyclic prototypes; a frame that is its own ancestor can deadlock, and a panicking Get keeps its lock (findings).",
 "C49": "Receiver, self and slot visibility for send. Finding (C49_send_super_refuted): methods reached through send-super do not run in the receiver's context and do not see its slots.",
 "C50": "The kinds are listed in SpecData.v; channels, processes and atomics satisfy none of the predicates, a Go nil is list?, pair? and alist?.",
 "C54": "Quantifies over all goroutines and schedules; the host must hand in only built-ins of the table. C54_each shows that every listed built-in except union does crash in some execution, C54_parent_refuted that ill-formed parent slots do (findings). No crash of union is known: its result list is private to it, which the policy argument does not see. Stack and memory exhaustion and Go's concurrent-map check are outside the model.",
 "C55": "Invariant of all executions of any number of goroutines, from any state and host values that satisfy it. In Go the element type byte enforces the range; the theorem shows that the model, whose bytes are integers, needs no such truncation anywhere.",
 "C56": "Findings: abs of an integer beyond 2^24 can be wrong or negative, float loses integers beyond 2^24. Go leaves out-of-range float-to-integer conversions to the implementation; the model has the amd64 result (the smallest integer).",
 "C57": "floor and ceiling use the axioms of the standard library's reals through Flocq. Float arguments are assumed to be binary32 floats where stated; all NaNs are one value in the model.",
 "C58": "Sets and converted texts are ASCII; the trimmed text is arbitrary bytes. Capitalizing the empty string crashes (C58_capitalize_empty_refuted).",
 "C59": "-> and => insert the value as code, so a symbol or list is evaluated again (C59_evaluated_again_refuted). The elapsed time is an arbitrary 64-bit integer; the clock is not modelled. C59_expand is stated for macros whose parameter list is a list (see C16_rest_only_refuted for the other case).",
 "C60": "C60_bound_names, C60_macro_names and C60_bindings assume that the environment's bindings were made under symbols (string parameters are possible in Go) and, for C60_bindings, that values refer to existing cells (C53).",
 "C61": "The console is one event; standard output, standard error (where write-line goes) and the loggers are not told apart. Float texts are not part of C61_text.",
 "C62": "Findings: a negative path number loops for ever; flatten keeps an empty list that ends a sublist and loses the last atom of a dotted one. rassoc is for keys and values without frames.",
 "C63": "The grammar of SpecText.v leaves out floats, computed bytearrays and expressions written without any separator after a closing parenthesis. Finding: an empty list ends the program silently.",
 "C64": "encoding/json is modelled by json_decode (Json.v): that model is proved to accept exactly the texts of the grammar in SpecJsonText.v. The wording of encoding/json's error, printed after the complaint, and the nesting limit of Go 1.15 and later are not modelled. Uses the axioms of the real numbers. Finding: null alone crashes.",
 "C65": "Trees are finite and a frame's slot names are distinct (Go maps). Extends C11 to floats and frames. Findings: slots holding (), NaN, frames that hold themselves.",
 "C66": "The specification speaks of exact real values and the nearest of all float32 numbers; the theorems use the axioms of the standard library's real numbers. Values are int64 integers and float32 numbers.",
 "C67": "Names are those a programmer may choose: not reader shortcuts, not self, not words of the language. Comparisons are of numbers of at most 24 bits (C27). Quoted data are trees of integers, truth values, strings, symbols and lists; filter and reverse are applied to lists without empty lists among their elements (finding on callbacks given the empty list); let* is left out because a closure made in one of its initialisers sees the bindings made after it. Nothing is said about programs that the rules give no value (errors, endless recursion); memory and the Go stack are unlimited in the model.",
 "C68": "Methods whose parameter list is a single rest symbol are excluded (as in C49). That a method reached by send-super does not see the receiver's slots is the finding C49_send_super_refuted.",
 "C69": "Texts that are not valid UTF-8 are outside (C58 covers ASCII sets on arbitrary bytes). The case tables of Go's unicode package are a parameter. C69_capitalize_refuted: what comes out for a non-ASCII first character follows current Go; older releases leave the bytes alone, which does not capitalize either.",
 "C70": "The operating system is the oracle: whether it refuses, what a file delivers, the clock and chance are arbitrary; whether it stores what it accepted is outside. The tokenizer that is kept between reads follows from the history of reads; the text of a port is taken as a whole (Go: in pieces of 4096 bytes), so a file that grows while it is read is outside. C70_alternate_refuted: reading two ports in turn loses what was buffered of the first.",
 "C71": "The argument expressions and the computations in between are those of C67 (they do not themselves call the accounts). The value is that of the last call; since the sequence is arbitrary, this covers every call.",
 "C72": "Excluded because they do not give errors in this implementation: taking car, cdr or length of something that is not a list, names without a value, and % by zero, which is a Go panic (recorded as a finding). For a filter predicate with a wrong answer the theorem asks that the predicate has a value for every element.",
 "C73": "Redefining a function that is already defined and the REPL's own line editing are not covered; unchanged means keeps [] of SpecCore.v, which lets the note on function objects whether they were last found in a frame change, as the code does.",
 "C74": "One level of prototypes and a method of this shape; lookup through any graph of prototypes is C23. Amounts are evaluated in the caller's environment and contain no messages themselves.",
 "C75": "Handlers are lambdas of one parameter whose body is an expression of the functional core; on-error stands at the top of a text (nested on its guarded side), not inside the functions of the core. The third argument of on-error and handlers that are not functions are C22. The messages of the interpreter's own errors are not pinned.",
 "C76": "Definitions are of the form (define (f x ...) body), at top level. Built-in functions can not be redefined (C16) and are not among the names. Names that the state already binds before the session are not redefined (their bindings could be shared with other names).",
 "C77": "Templates use ,p for parameters only: ,@p and unquoted expressions are covered by C20, not by these theorems; macros have no rest parameter and are defined at top level. Value statements (C77_value, C77_session) are for uses whose filled-in template is an expression of the functional core; C77_expansion has no such restriction. Macros are not hygienic: names in the fixed text also mean what they mean at the use, which C77_expansion says too."
}
# Source of /verif/properties.jsonl (run: python3 tools/props.py)
import json, os
P=[]
def p(id,title,statement,quantifier,why,*anchors):
    P.append(dict(id=id,title=title,statement=statement,quantifier=quantifier,why_tests_cant=why,anchors=list(anchors)))

p("C01","Protected bindings never change",
 "Every binding that InitLisp creates with BindToProtected (all primitives, nil, pi, ...) keeps the same name, value and protected flag in every state reachable by evaluating any expression whatsoever (define, set!, let, lambda parameters, environment-define, defmacro, load order, other goroutines), as long as environment-assign! is not called. environment-assign! itself bypasses the protection (finding).",
 "all programs, all environments they build, all executions of any length and all interleavings of goroutines",
 "A test can only try finitely many ways of overwriting a builtin; the claim excludes every program.",
 "symbol_table_frame.go: BindTo, BindToProtected, SetTo, BindLocallyTo","prim_special_forms.go: DefineImpl","prim_environment.go: EnvironmentAssignBangImpl, EnvironmentDefineImpl")
p("C02","Restricted environments are confined",
 "A program evaluated in a restricted environment from which only primitives, data and functions closed over restricted environments are reachable can never execute a restricted primitive (load, exec, open-output-file, global-eval, ...), whatever it does, including creating functions, macros, processes and evaluating data it builds. Reaching one unrestricted user function breaks confinement through procedure-environment (finding).",
 "all programs run in the sandbox, all execution lengths and all goroutine interleavings",
 "Confinement is a claim about the absence of an escaping program.",
 "primitive_function.go: Apply, ApplyWithoutEval","symbol_table_frame.go: NewSymbolTableFrameBelow, NewSymbolTableFrameBelowWithFrame","prim_environment.go: RestrictEnvironmentImpl, ProcedureEnvironmentImpl","prim_system.go: RegisterSystemPrimitives")
p("C03","The restricted flag is monotone",
 "Once an environment is restricted no program can make it unrestricted again, and every environment created below a restricted environment is restricted.",
 "all programs, environments and executions",
 "The flag must survive every later operation sequence.",
 "symbol_table_frame.go: NewSymbolTableFrameBelow, NewSymbolTableFrameBelowWithFrame","prim_environment.go: RestrictEnvironmentImpl")
p("C04","Non-destructive code never changes existing data",
 "An execution that enters none of set-car!, set-cdr!, set-nth!, append!, acons, pairlis, dissoc, alist, copy, union, intersection, complement, replace-byte!, append-bytes!, string-upcase!, string-downcase!, string-capitalize! leaves every cons cell, string and bytearray that existed before exactly as it was; one that enters none of set!, append!, set-slot!, remove-slot! leaves every existing frame as it was. (That intersection and complement are on the list is a finding.)",
 "all programs, all heaps, all aliasing patterns, all executions",
 "Aliasing makes mutation observable through arbitrarily distant references; tests cannot enumerate heaps.",
 "data.go: Copy, AppendBang, RemoveFromListBang, Acons","prim_list_set.go: IntersectionImpl, ComplementImpl","prim_list_manipulation.go")
p("C05","List constructors and selectors obey the list laws",
 "For every list: car/cdr of cons return its parts, list builds exactly its arguments in order, append concatenates its arguments in order (so length is additive and append is associative with () as unit), reverse is an involution that reverses the order, nth (from 1), list-ref (from 0) and first..tenth select the same elements and answer nil outside the list, and none of these changes its arguments.",
 "all proper lists of arbitrary values and all heaps",
 "Lists are unbounded and elements arbitrary.",
 "data.go: Cons, Append, AppendList, Reverse, Length","list_access.go: Nth, WalkList","prim_list_manipulation.go: AppendImpl, ListImpl, ConsImpl","prim_list_access.go: NthImpl, ListRefImpl")
p("C06","take/drop/list-head/list-tail/sublist split a list consistently",
 "(append (take n l) (drop n l)) has the elements of l, take returns the first min(n,len) elements, list-head/list-tail do the same with swapped arguments (no error beyond the end), sublist i j returns elements i..j-1 (1-based) and last-pair the final cell; bytearrays are split the same way for counts >= 0 (a negative count crashes on a bytearray: finding).",
 "all lists, all bytearrays and all integer positions",
 "Boundary cases grow with every length.",
 "prim_list_access.go: TakeImpl, DropImpl, ListHeadImpl, ListTailImpl, LastPairImpl","prim_list_manipulation.go: SublistImpl")
p("C07","partition",
 "(partition n l) yields consecutive chunks whose concatenation is l, every chunk but the last of exactly n elements and no chunk empty; (partition pred l) yields the elements satisfying pred and the others, each in original order.",
 "all lists, all positive chunk sizes, all predicates that terminate with a boolean",
 "Chunk arithmetic must hold for every length/size pair.",
 "prim_list_manipulation.go: partitionBySize, partitionByPredicate")
p("C08","map/for-each/filter/remove/find/any/every/reduce/fold specifications",
 "For an arbitrary callback (with side effects), the higher-order list functions call it exactly on the expected arguments in the expected order, stop at the first error (returning it; find and find-tail report an error of their own instead), stop at the shortest list, and return the mathematical result: map the pointwise results, filter/remove the elements whose test was #t/#f in order, find the first, any/every #t or #f, fold-left/fold-right/reduce the left/right nested applications.",
 "all callbacks (as arbitrary state transformers), all lists, all number of lists",
 "The callback is arbitrary code.",
 "prim_list_functions.go: MapImpl, ForEachImpl, AnyImpl, EveryImpl, ReduceLeftImpl, ReduceRightImpl, FoldLeftImpl, FoldRightImpl, FilterImpl, RemoveImpl, FindImpl, FindTailImpl")
p("C09","sort returns an ordered permutation",
 "(sort l less) returns a list that is a permutation of l and is ordered with respect to less whenever less is a strict weak order, and leaves l untouched.",
 "all lists and all strict weak orders",
 "Orders and lists are unbounded.",
 "prim_list_manipulation.go: SortImpl, sortCompare")
p("C10","Set operations on lists",
 "(union a b ...) contains each element of the arguments once, in first-occurrence order; (intersection a b ...) keeps exactly the elements of a present in all others; (complement a b ...) keeps exactly the elements of a in none of the others; order of a preserved, arguments not modified. Elements that are not equal to themselves (NaN) escape removal (finding).",
 "all lists of elements on which equality is an equivalence, any number of lists",
 "Needs induction over both lists; the implementation mutates a copy while iterating it.",
 "prim_list_set.go: UnionImpl, IntersectionImpl, ComplementImpl","data.go: RemoveFromListBang, Copy")
p("C11","eq?/equal? is structural equality on data",
 "On proper list data (integers, booleans, strings, symbols, characters of bytearrays, nested lists) equality answers #t exactly when the two values denote the same tree; it is therefore reflexive, symmetric and transitive there, always terminates there and changes nothing. Outside this fragment it is not an equivalence: the tail of an improper list is ignored and alists are compared asymmetrically (findings).",
 "all pairs and triples of values representing finite trees, however shared in memory",
 "An equivalence law ranges over all triples of unbounded trees.",
 "data.go: IsEqual","prim_relative_logical.go: EqualToImpl")
p("C12","copy produces an equal, disjoint structure",
 "copy of a tree of lists, bytearrays and frames returns a value denoting the same tree, and the two share no list cell, bytearray or frame except the cells of empty lists, so whatever later happens to the cells, bytearrays and frames of one is invisible through the other. Strings and empty list cells stay shared, and an association list comes back reversed (findings).",
 "all finite trees and all later mutations",
 "Isolation quantifies over all future mutations.",
 "data.go: Copy")
p("C13","Printing then reading returns the same data",
 "For every value made of integers, booleans, strings without backslash, symbols and (nested, possibly dotted) lists, parsing the printed text gives back an equal value. Strings containing a backslash do not round-trip (finding).",
 "all data trees of any depth, all strings",
 "The printer and tokenizer interact character by character.",
 "data.go: String, PrintString, escapeQuotes","tokenizer.go: Tokenizer","parser.go: parseExpression, Parse")
p("C14","The reader is total",
 "Tokenizing any input text terminates, each token consumes at least one character or is EOF, and Parse on any input returns an expression, an error or end-of-input without panicking; unbalanced parentheses are reported as errors.",
 "all input strings",
 "Every string is a possible input.",
 "tokenizer.go: readNextToken, ConsumeToken","parser.go: parseExpression, parseConsCell, parseBytearray, parseFrame, Parse, ParseAll")
p("C15","Reading numbers",
 "Decimal, #x/0x hexadecimal and #b binary literals denote exactly the written integer whenever it fits in int64 and are errors otherwise.",
 "all digit strings of any length",
 "Unbounded digit strings.",
 "tokenizer.go: readNumber, readHexNumber, readBinaryNumber","parser.go: makeInteger, makeHexInteger, makeBinaryInteger")
p("C16","Lexical scope and argument evaluation order",
 "Calling a user function evaluates the operator once, checks the number of arguments before evaluating any of them, evaluates arguments left to right in the caller's environment exactly once, and evaluates the body in a fresh environment whose parent is the definition environment and which binds exactly the parameters; the caller's bindings are invisible to the body. A rest parameter receives the remaining values (a function whose only parameter is a rest parameter never binds it: finding).",
 "all functions, argument expressions, environments and side effects",
 "Arguments and bodies are arbitrary code.",
 "function.go: makeLocalBindings, internalApply","data.go: evalHelper")
p("C17","Conditional forms evaluate only the selected branch",
 "if/when/unless/cond/case/and/or evaluate tests in order, stop at the first decisive one, evaluate exactly the selected body in the current environment, return its value, and propagate the first error immediately; no other subexpression is evaluated. not, also called !, gives #t exactly for what these forms count as false.",
 "all subexpressions (arbitrary effects, errors, non-termination)",
 "Non-evaluation must hold for all possible subprograms.",
 "prim_special_forms.go: IfImpl, WhenImpl, UnlessImpl, CondImpl, CaseImpl","prim_relative_logical.go: BooleanAndImpl, BooleanOrImpl, BooleanNotImpl")
p("C18","let, let*, letrec and named let scoping",
 "let evaluates the initialisers in order in the outer environment, where none of the new bindings is visible; in let* each sees the previous bindings, in letrec all names are bound before the first is evaluated; a named let binds its name to a function of the body and calls it with the initial values. Bindings are made in a fresh environment and leave every other environment untouched.",
 "all binding lists and expressions",
 "Initialisers are arbitrary code.",
 "prim_special_forms.go: bindLetLocals, LetCommon, namedLet")
p("C19","define and set! affect exactly one binding",
 "define binds the name in the current environment only; set! changes the innermost visible binding (or frame slot) of the name and nothing else, and fails without any change when the name is undefined or protected.",
 "all environment chains, names and values",
 "Environment chains are unbounded.",
 "symbol_table_frame.go: SetTo, BindLocallyTo, FindBindingFor","prim_special_forms.go: DefineImpl","prim_mutators.go: SetVarImpl")
p("C20","Quasiquote",
 "Quasiquoting a template (proper lists and atoms) without unquote returns an equal copy of it; ,e is replaced by the value of e and ,@e by the elements of its value; the expressions are evaluated once each, left to right, and the first error ends it; nested levels are respected. Splicing a list built by cons onto () inserts a spurious (), and a dotted template loses its tail (findings).",
 "all templates of any depth",
 "Templates are unbounded trees.",
 "prim_macros.go: processQuasiquoted","data.go: Flatten")
p("C21","Macro calls expand once and evaluate the expansion in the caller's environment",
 "A macro call binds the unevaluated operands, evaluates the body in the macro's definition environment, then evaluates the expansion in the caller's environment.",
 "all macros, operands and environments",
 "Macro bodies are arbitrary programs.",
 "macro.go: Expand, internalApply")
p("C22","Errors propagate and on-error catches them",
 "An error raised anywhere in a subexpression of a non-catching form aborts the enclosing evaluation and reaches the nearest on-error, whose handler is called exactly once with the message; without an error the handler is not evaluated. Errors in do-loop steps are swallowed (finding).",
 "all error sites and surrounding programs",
 "Error sites are arbitrary.",
 "prim_system.go: OnErrorImpl, ErrorImpl","prim_special_forms.go: DoImpl, BeginImpl, evaluateBody")
p("C23","Slot lookup follows prototypes and terminates on cycles",
 "has-slot?/get-slot on a frame answer in finite time for every prototype graph, including cyclic ones; has-slot? is #t exactly when the frame or some frame reachable through '*:'-slots has the key; get-slot returns the frame's own value when present and otherwise a value stored under that key in a reachable ancestor.",
 "all prototype graphs (arbitrary cycles) and all parent visiting orders",
 "Graphs are unbounded and the order is chosen by the Go map.",
 "frame.go: hasSlotHelper, getHelper, HasSlot, Get, Parents")
p("C24","Frame updates are local",
 "set-slot! makes get-slot return the new value and changes no other key and no other frame; remove-slot! removes only the frame's own slot; clone gives an independent frame with the same own slots; writes through an object never modify its prototypes.",
 "all frames, keys, values and sharing patterns",
 "Sharing patterns are unbounded.",
 "frame.go: Set, Remove, Clone","prim_frame.go: SetSlotImpl, RemoveSlotImpl, CloneImpl")
p("C25","Integer arithmetic is exact modulo 2^64",
 "+, -, * on integers return the mathematical result reduced to int64 by wrap-around, are therefore commutative/associative/distributive with the expected units; / truncates towards zero and reports division by zero; % has the sign of the dividend and a = (a/b)*b + a%b.",
 "all int64 operand lists of any length",
 "2^64 operands and unbounded argument lists.",
 "prim_math.go: addInts, subtractInts, multiplyInts, quotientInts, RemainderImpl")
p("C26","pow computes the power modulo 2^64",
 "(pow b e) for integers with e>=0 equals b^e reduced to int64; for negative e it answers 1 (finding).",
 "all int64 bases and exponents",
 "The loop invariant must hold for all exponents.",
 "prim_math.go: PowImpl")
p("C27","Comparisons are exact up to 2^24",
 "<,>,<=,>= on integers agree with the mathematical order whenever both absolute values are at most 2^24; beyond that they compare float32 roundings, so they are monotone (never answer > when <) but may answer 'equal' for different integers (finding).",
 "all pairs of integers",
 "Rounding must be characterised for all int64.",
 "prim_relative_logical.go: LessThanImpl, GreaterThanImpl","data.go: FloatValue")
p("C28","Bit operations",
 "binary-and/or agree with bitwise and/or of the two's complement representations, binary-not is an involution that flips exactly the low 32 bits, left-shift multiplies modulo 2^64 and right-shift is a logical (zero fill) shift.",
 "all int64 values and shift counts",
 "2^64 values.",
 "prim_binary.go: BinaryAndImpl, BinaryOrImpl, BinaryNotImpl, LeftShiftImpl, RightShiftImpl")
p("C29","interval",
 "(interval a b [step]) returns exactly a, a+step, ... up to and including the bound; for end = MaxInt64 it does not terminate (finding).",
 "all int64 starts, ends and steps of matching sign for which the next value does not overflow",
 "Unbounded lengths and overflow boundaries.",
 "prim_math.go: IntervalImpl")
p("C30","number->string and string->number are inverse",
 "For every integer and base 2, 8, 10 or 16 string->number returns the integer number->string was given.",
 "all int64 values and the four bases",
 "2^64 values.",
 "prim_math.go: NumberToStringImpl, StringToNumberImpl")
p("C31","min and max",
 "min/max of a non-empty integer list return an element of the list that bounds all others.",
 "all non-empty lists of integers",
 "Unbounded lists.",
 "prim_math.go: MinImpl, MaxImpl")
p("C32","Bytearrays hold only bytes and index operations are safe",
 "list->bytearray accepts exactly lists of integers in 0..255 (and bytearrays); extract-byte/replace-byte/extract-bytes succeed exactly for in-range positions and never read outside; replace-byte and append-bytes leave the original unchanged whereas the ! versions update it in place; bytearray->list inverts list->bytearray.",
 "all byte sequences, positions and counts",
 "Index arithmetic (including overflow) over all int64.",
 "prim_bytearray.go: ListToBytesImpl, BytesToListImpl, internalReplaceByte, ExtractByteImpl, ExtractBytesImpl, internalAppendBytes")
p("C33","string-split and string-join are inverse",
 "(string-join (string-split s sep) sep) equals s for every s and non-empty sep, and no piece contains sep; splitting the join of pieces not containing a one-character sep returns the pieces.",
 "all strings and separators",
 "Unbounded strings.",
 "prim_string.go: StringSplitImpl, StringJoinImpl")
p("C34","substring and string predicates",
 "substring returns exactly the requested bytes for 0<=start<=end<=length; substring?/string-prefix?/string-suffix? hold exactly when the string decomposes accordingly; string=?, <?, >? form a total order; a negative start panics (finding).",
 "all strings and positions",
 "Unbounded strings.",
 "prim_string.go: SubstringImpl, SubstringpImpl, StringPrefixpImpl, StringSuffixpImpl, StringEqualImpl, StringLessThanImpl")
p("C35","Association lists behave as maps",
 "assoc after acons returns the new value for that key and the old one for every other key; acons on an existing key updates that pair in place and keeps the keys unique; dissoc removes the key and keeps the others; alist makes from a list of pairs a new association list with the same meaning and every key once; pairlis pairs keys with values, the last value of a repeated key counting, and refuses lists of different lengths.",
 "all alists with atomic keys, all keys and values",
 "Unbounded alists; in-place update makes aliasing matter.",
 "data.go: Acons, Alist, Assoc, Dissoc","prim_alist.go: AconsImpl, AssocImpl, DissocImpl, AlistImpl, PairlisImpl")
p("C36","Argument count specifications",
 "A primitive registered with specification *, n, >=n, (lo,hi) or alternatives separated by | is applied iff the number of arguments satisfies one of the terms; otherwise it is not entered and an error is returned before any argument is evaluated.",
 "all specifications in the grammar, all argument counts",
 "All counts and all specification strings.",
 "primitive_function.go: parseNumArgs, checkArgumentCount, Apply")
p("C37","Channels are FIFO and respect capacity",
 "In every interleaving, values are read from a channel in the order they were written, each exactly once; never more than capacity values are buffered; after close reads drain the buffer and then answer (nil #f); writing to or closing a closed channel is an error, not a crash.",
 "all interleavings of any number of goroutines and all histories",
 "Schedules cannot be enumerated.",
 "prim_channel.go: ChannelWriteImpl, ChannelReadImpl, ChannelTryWriteImpl, ChannelTryReadImpl, CloseChannelImpl")
p("C38","join delivers a process result exactly once",
 "Across all interleavings at most one join on a process succeeds, it returns the value the process function returned, every later join is an error, and a process's final send never blocks.",
 "all interleavings of forks, joins and process steps",
 "Race between joiners.",
 "prim_concurrency.go: ForkImpl, JoinImpl, ScheduleImpl")
p("C39","Scheduled processes run at most once",
 "A scheduled function is run at most once; abandoning before it fires prevents it when the abort is received first; wake signals coalesce into at most one pending wake. reset-timeout may answer OK although the task already completed (finding).",
 "all interleavings of schedule, abandon, reset-timeout, timer firing and wake",
 "Timer and message races.",
 "prim_concurrency.go: ScheduleImpl, AbandonImpl, ResetTimeoutImpl, WakeImpl, ProcSleepImpl")
p("C40","Atomic counters are linearizable",
 "Concurrent atomic-add!/swap!/compare-and-swap!/store!/load behave as if executed one at a time: no update is lost (n concurrent additions add exactly their sum modulo 2^64), and compare-and-swap succeeds iff the value was the expected one.",
 "all interleavings and operand values",
 "Schedules cannot be enumerated.",
 "prim_concurrency.go: AtomicAddImpl, AtomicSwapImpl, AtomicCompareAndSwapImpl, AtomicLoadImpl, AtomicStoreImpl")
p("C41","gensym never repeats",
 "In any history of gensym/gensym-naked calls with arbitrary prefixes, in any interleaving, all symbols returned have pairwise different names.",
 "all histories and prefixes",
 "The prefixes may themselves end in -digits.",
 "prim_system.go: gensymHelper, GensymImpl, GensymNakedImpl")
p("C42","Symbols are interned by name",
 "Two symbols are equal exactly when they have the same name, in every interleaving of Intern calls, even though the race in Intern may create two symbol objects for one name (finding).",
 "all names and interleavings",
 "Race.",
 "symbol_table_frame.go: Intern","data.go: IsEqual")
p("C43","JSON round trip with frames",
 "Converting a JSON text of any layout, made of objects, arrays, strings, booleans and integers up to 2^53, to Lisp frames and back gives a text of the same JSON value, and so does the way from Lisp data to JSON and back, when no member name ends in a colon. Names that end in a colon lose it, larger integers and nulls do not survive, and the text null crashes (findings).",
 "all JSON values of the fragment, any nesting",
 "Unbounded trees.",
 "json_frame_support.go","json_support.go")
p("C44","format",
 "format copies literal text, substitutes ~a/~s arguments in order padded to the column width, ~~ and ~% literally, prints () for a missing argument, and is an error when arguments are left over or a directive is unknown; a control string ending in ~ panics and @ leaks to later directives (findings).",
 "all control strings and argument lists",
 "Unbounded control strings.",
 "prim_io.go: FormatImpl")
p("C45","Evaluation of literals and symbols",
 "Numbers, strings, booleans, naked symbols, frames and functions evaluate to themselves without effect; a symbol evaluates to the innermost visible binding, and to () when unbound.",
 "all values, all environment chains",
 "Chains unbounded.",
 "data.go: evalHelper","symbol_table_frame.go: ValueOfWithFunctionSlotCheck")
p("C46","apply passes exactly the listed arguments",
 "(apply f a ... lst) calls f with a ... followed by the elements of lst; for built-ins this needs a nil-terminated list, at least one argument and quote not rebound (otherwise: findings, e.g. applying a built-in to the empty list passes one ()).",
 "all functions, lists",
 "Unbounded lists, arbitrary functions.",
 "prim_special_forms.go: ApplyImpl","data.go: Apply, ApplyWithoutEval, QuoteAll")
p("C47","do loops and begin",
 "begin evaluates its forms in order and returns the last value; do evaluates inits outside, then repeats test/body/step with all steps computed before any rebinding, and returns the result forms' value at the first true test.",
 "all loop bodies and iteration counts",
 "Iteration counts unbounded.",
 "prim_special_forms.go: BeginImpl, DoImpl, rebindDoLocals")
p("C48","Frame locks: readers and writers",
 "Frame slot reads and writes are mutually excluded by the frame's lock in every interleaving (no torn or lost slot updates); the nested read lock taken by send-super on a frame that is its own ancestor can deadlock with a waiting writer (finding).",
 "all interleavings of readers and writers",
 "Schedules cannot be enumerated.",
 "frame.go: Get, Set, Remove, HasSlot","prim_frame.go: getSuperFunction")
p("C49","send runs the method with self bound to the receiver",
 "(send f key: args) applies the function found by slot lookup with self bound to f and the arguments already evaluated; methods inherited from a prototype see the receiver's slots.",
 "all frames, prototypes, methods",
 "Arbitrary methods and graphs.",
 "prim_frame.go: SendImpl, SendSuperImpl, ApplySlotImpl","function.go: makeLocalBindings, internalApply")
p("C50","Type predicates partition values",
 "Every value satisfies exactly the type predicates of its kind: the primitive predicates never fail, and integer?/float?/string?/symbol?/boolean?/function?/macro?/frame?/environment?/bytearray?/port? are pairwise disjoint.",
 "all values",
 "All values of all types.",
 "prim_type_predicates.go","data.go: PairP, ListP, SymbolP")
p("C51","Call expressions",
 "A call expression evaluates its operator first and then applies it; a built-in function gets its operands evaluated from left to right, once each, in the current environment, a special form gets them unevaluated; a restricted built-in in a restricted environment is refused before anything is evaluated.",
 "all call expressions, operators, operands and states",
 "Operators and operands are arbitrary code.",
 "data.go: evalHelper, Apply","primitive_function.go: Apply")
p("C52","Evaluation changes only what it can get at",
 "Objects (list cells, strings, bytearrays, functions, environments, bindings, frames, channels, processes, atomics) that cannot be reached by following references from the environment, the expression, the global environment and the named top-level environments are left exactly as they were by any evaluation, in any number of goroutines. In particular a Go host can keep data away from scripts.",
 "all programs, all states, all interleavings, all unreachable objects",
 "Needs an argument about every built-in and every execution.",
 "data.go: Eval, Apply","symbol_table_frame.go","prim_*.go")
p("C53","No dangling references",
 "In every state any execution can reach, every reference held by an object points to an object that has been created, and evaluation returns only references to existing objects; so a newly created object is never already referred to by older data.",
 "all programs, all states, all interleavings",
 "Needs an argument about every built-in and every execution.",
 "data.go","symbol_table_frame.go")
p("C54","Only the listed built-ins and ill-formed prototypes can panic",
 "No goroutine of the interpreter ever panics as long as none of 22 named built-ins (set-car!, set-cdr!, set-nth!, append!, union, apply, take, drop, make-list, cons*, modulo, %, interval, apply-slot, apply-slot-super, string-capitalize, string-capitalize!, substring, panic!, format, make-channel, json->lisp) is entered and every parent slot (name ending in *:) holds a frame or nothing: any other program text, value or function call, in any number of goroutines, ends in a value or a Lisp error, or does not end. Each of these built-ins except union can panic (cons*, apply-slot and apply-slot-super only when another goroutine changes the code being evaluated). Exhaustion of memory or stack is not considered.",
 "all program texts, values, states and interleavings",
 "A crash needs a particular argument or interleaving somewhere in the whole interpreter.",
 "data.go","primitive_function.go: Apply","prim_*.go","frame.go","symbol_table_frame.go")
p("C55","Bytearrays hold bytes",
 "In every reachable state every element of every bytearray is between 0 and 255, whichever built-ins and literals produced or changed it, and every built-in function value is one of the interpreter's table.",
 "all programs, all states, all interleavings",
 "Needs an argument about every built-in and every execution.",
 "prim_bytearray.go","parser.go: parseBytearray","data.go")
p("C56","One-argument functions on integers",
 "succ and pred add and subtract one modulo 2^64; even? and odd? tell the parity of every integer; sign, zero?, positive? and negative? are right for every 64-bit integer although they compare through 32-bit floats; abs and the way through float and back are exact up to 2^24 (beyond that they can be wrong, and abs can even be negative); everything that is not a number is refused.",
 "all integers, all other values",
 "64-bit integers and their rounding to 24-bit significands cannot be enumerated.",
 "prim_math.go: IncrementImpl, DecrementImpl, EvenImpl, OddImpl, SignImpl, AbsImpl, ToFloatImpl, ToIntImpl","data.go: FloatValue, IntegerValue")
p("C57","One-argument functions on floats",
 "floor and ceiling give the greatest integer not above and the least not below every finite float; integer truncates towards zero below 2^63; abs drops the sign and nothing else; zero?, positive?, negative? and sign agree with each other and with the value, and none holds of NaN; float->bits and bits->float are inverse on all 32-bit patterns (up to NaN payloads); inf? and nan? recognise exactly the special values.",
 "all binary32 floats, all 32-bit patterns",
 "All 2^32 floats, including signed zeros, subnormals, infinities and NaN.",
 "prim_math.go: FloorImpl, CeilingImpl, ToIntImpl, AbsImpl, SignImpl","prim_math.go: FloatToBitsImpl, BitsToFloatImpl, IsInfImpl, IsNaNImpl")
p("C58","Trimming and letter case",
 "string-trim, string-trim-left and string-trim-right remove the longest runs of characters of an ASCII set (blanks by default) from the chosen ends and nothing else, giving the unique such string as a fresh object; string-upcase, string-downcase and string-capitalize convert ASCII text letter by letter; the versions with ! change exactly the given string. Capitalizing the empty string crashes.",
 "all strings, all ASCII trim sets, all ASCII texts",
 "All texts and all sets of characters.",
 "prim_string.go: StringTrimImpl, StringTrimLeftImpl, StringTrimRightImpl, StringUpcaseImpl, StringDowncaseImpl, StringCapitalizeImpl")
p("C59",
 "Threading, evaluation and code as data",
 "(-> e step ...) evaluates e and hands the value through the steps as first operand, (=> e step ...) hands it to every step and gives it back; a failing step stops everything. eval, eval with an environment and global-eval evaluate exactly once in the current, the given and the global environment; error fails with the printed form of its argument; time evaluates once. named-lambda and defmacro make closures of the current environment and evaluate nothing; expand gives the code a macro call would evaluate; definition-of gives code with the function's own parameters and body.",
 "all expressions, steps, environments and states",
 "Steps, operands and macro bodies are arbitrary code.",
 "prim_special_forms.go: ChainImpl, TapImpl, NamedLambdaImpl, DefmacroImpl, DefinitionOfImpl",
 "prim_macros.go: ExpandImpl",
 "prim_system.go: EvalImpl, GlobalEvalImpl, ErrorImpl, TimeImpl")
p("C60",
 "Environments as values",
 "The environment-... functions answer for the innermost binding visible from the given environment and change nothing; environment-assign! changes that binding, environment-define binds in the environment itself; environment-bound-names, -macro-names and -bindings list exactly the environment's own bindings, each once, in some order; the-environment works exactly at top level; make-top-level-environment makes a fresh environment below the global one with exactly the given bindings, and find-top-level-environment finds the environment registered last under a name.",
 "all environments, names, values and states, every order in which Go walks a map",
 "Environment chains and map orders are unbounded.",
 "prim_environment.go",
 "symbol_table_frame.go: FindBindingFor, BindLocallyTo")
p("C61",
 "Output and the text of values",
 "write-line, write-log, write-string, write and newline write exactly one text to the console (or make one write to the given port) and change nothing else; wrong arguments are an error and nothing is written. str gives the display forms of its arguments run together as a fresh string. The text of integers, booleans, strings, symbols, bytearrays and (dotted) lists of any depth is the one grammar describes, and there is only one; a frame shows its slots sorted by name whatever order they were made in; functions, macros, built-ins and environments show kind and name. intern gives the symbol of a string.",
 "all argument lists, trees of any depth, frames of any size, all states",
 "Trees and frames are unbounded, and an absence of other effects cannot be observed by a test.",
 "prim_system.go: concatStringForms, WriteLineImpl, WriteLogImpl, MakeStringImpl, InternImpl",
 "prim_io.go: WriteStringImpl, WriteImpl, NewlineImpl",
 "data.go: String, PrintString, escapeQuotes")
p("C62",
 "Flattening, access paths, lookup by value, frames from keys and values",
 "flatten gives a new list of the elements with sublists replaced by what they hold, flatten* does so at every depth; what is not a list is given back. general-car-cdr follows the path its positive number encodes and changes nothing; zero and non-numbers are refused; a negative number never returns. rassoc gives the first pair with an equal value, or nil. make-frame makes a new frame with exactly the given slots, the last value of a repeated key counting, and refuses odd argument counts and things that are not keys; frame-keys and frame-values list the frame's own slots once each.",
 "all values, trees of any depth, all numbers, association lists and frames of any size, all states",
 "Lists, depths and path numbers are unbounded, and non-termination cannot be observed by a test.",
 "data.go: Flatten, RecursiveFlatten",
 "prim_list_manipulation.go: FlattenImpl, RecursiveFlattenImpl",
 "prim_list_access.go: GeneralCarCdrImpl",
 "prim_alist.go: RassocImpl",
 "prim_frame.go: MakeFrameImpl, FrameKeysImpl, FrameValuesImpl")
p("C63",
 "Running the text of a program",
 "ParseAndEvalAll reads a text, however it is laid out (blanks, comments, the spellings of literals, string escapes, quote marks, dotted pairs, brackets, braces), into fresh memory and evaluates its expressions one after the other in the given environment: the result is the last value, or the first error or crash, and nothing else happens. A text that breaks off inside a list gives an error after all complete expressions have been evaluated. An empty list between expressions silently ends the program. ParseAndEval evaluates the first expression only, parse gives it as data, load runs a file's text in the global environment wherever it is called.",
 "all program texts of the grammar, of any length and nesting depth, all Unicode tables, environments and states",
 "There are unboundedly many layouts of a program and programs of every length; a test tries a few.",
 "parser.go: ParseAndEvalAllInEnvironment, ParseAndEvalInEnvironment, ProcessFileInEnvironment, parseExpression, parseConsCell, parseBytearray, parseFrame",
 "tokenizer.go: readNextToken",
 "prim_string.go: ParseImpl",
 "prim_system.go: LoadFileImpl")
p("C64",
 "json->lisp on good and bad texts",
 "json->lisp ends for every string. A string that is not a JSON text gives a new empty frame and one complaint on the console that quotes the string; a JSON text gives a value, changes nothing that existed and prints nothing, except null alone, which crashes the program. What counts as JSON is the grammar of RFC 8259, with numbers below the overflow limit of float64.",
 "all strings, all states and environments",
 "The texts that must be refused are as numerous as the strings; tests try a few of either kind.",
 "json_frame_support.go: JsonStringToLispWithFrames, jsonToLispWithFramesReflect",
 "prim_frame.go: JsonToLispImpl")
p("C65",
 "equality of data with floats and frames",
 "On data made of integers, floats, booleans, strings, symbols, byte arrays, lists and frames, nested in any way, ==, eqv?, eq? and equal? answer #t exactly when the two are the same data, and != and neq? the opposite: numbers of the same kind and value (zeros of either sign are one number), the same characters or bytes, lists of the same length with the same elements, frames with the same slots in any order holding the same data. The comparison always ends and changes nothing. This holds when no float is NaN and no slot holds an empty list; outside of that, equality is neither reflexive nor symmetric.",
 "all pairs of finite trees of data, all representations of them that may share parts, all iteration orders of Go maps",
 "Go iterates over a frame in random order and trees have no bound on depth; tests compare a few literals in one order.",
 "data.go: IsEqual",
 "prim_relative_logical.go: EqualToImpl, NotEqualImpl")
p("C66",
 "Arithmetic and comparison with floats",
 "When at least one operand is a float, +, -, *, / and quotient work through the operands from left to right in IEEE 754 single precision: an integer counts as the nearest float, every step gives the float nearest to the exact result, ties going to the even significand, results too large become infinity, and infinities, NaN and the two zeros behave as the standard says. Division by a zero of either sign is an error. <, >, <=, >= compare the exact values, and all are false with NaN. min and max of a list with a float and no NaN answer one of its numbers, as a float, with none beyond it. These rules determine the result. After the first float what is not a number counts as 0 instead of being refused, and minus with one operand does not negate (findings).",
 "all lists of operands (int64 integers and all float32 values), all states",
 "there are 2^32 floats per operand and rounding errors occur only at particular pairs; tests try a few short decimal fractions.",
 "prim_math.go: AddImpl, SubtractImpl, MultiplyImpl, QuotientImpl, anyFloats, MinImpl, MaxImpl",
 "prim_relative_logical.go: LessThanImpl, GreaterThanImpl, LessThanOrEqualToImpl, GreaterThanOrEqualToImpl")
p("C67",
 "Programs of the functional core mean what they say",
 "For programs made of integers, truth values, strings, quoted data, names, lambda, calls, if, cond, and, or, begin, let, named let, top-level function definitions (recursive and mutually recursive) and the built-ins + - * % < > <= >= == list cons car cdr null? length append string-length not succ pred even? odd? zero? positive? negative? quotient reverse map filter fold-left: whenever the evaluation rules of the language (arguments by value, lexical scope, #f and the empty list false, arithmetic modulo 2^64) give the program a value, running its text gives exactly that value and changes nothing that existed before. The rules give at most one value. Corollaries: the recursive factorial program computes n! modulo 2^64 for every n up to 2^24, a map function written in Lisp works with closures on lists of every length, quicksort written with cond, filter and append sorts every list, and (fold-left + 0 (map square l)) is the sum of the squares modulo 2^64, a named let with an accumulator reverses every list, Euclid's algorithm gives the greatest common divisor of all natural numbers of 64 bits, repeated squaring gives all powers modulo 2^64, recursive functions written in place of map and fold-left give what those give for every function and every list, let and cond and if over and, or and not may be rewritten into lambda and if without changing the value, and two functions that call each other decide whether a number is even or odd.",
 "all programs of that language, of every size and recursion depth, all layouts of the text, all well-formed states with the built-ins",
 "a test runs one program on one input; here programs, inputs, recursion depth and surrounding state are arbitrary.",
 "data.go: Eval, Apply",
 "function.go: makeLocalBindings, internalApply",
 "prim_special_forms.go: LambdaImpl, LetImpl, IfImpl, CondImpl, BeginImpl, DefineImpl","prim_list_functions.go: MapImpl, FilterImpl, FoldLeftImpl","prim_relative_logical.go: BooleanAndImpl, BooleanOrImpl",
 "symbol_table_frame.go: ValueOf, BindLocallyTo")
p("C68",
 "Calling methods with spread arguments and through a prototype",
 "apply-slot evaluates its operands from left to right, finds the method as slot lookup does and calls it as a method of the frame with the values before the last operand followed by the elements of the last, none evaluated a second time; a last operand that is no list, a missing slot, a slot that is no function and a failing operand are errors reported as such. send-super and apply-slot-super look for the method only in the prototypes of the frame the running method belongs to, whatever that frame has under the name, and call it from an environment where self is that frame; outside a method they are errors.",
 "all frames, prototype graphs (also cyclic), slot names, operand expressions, argument lists of every length, states and map iteration orders",
 "tests call one method of one small object; argument lists, prototype graphs and the effects of evaluating operands are unbounded.",
 "prim_frame.go: ApplySlotImpl, SendSuperImpl, ApplySlotSuperImpl, getSuperFunction")
p("C69",
 "Strings are sequences of Unicode characters",
 "On text in UTF-8, string-split with the empty separator gives the characters in order, one string each; string-trim, -left and -right with any set of characters remove exactly the leading and trailing characters of the set; string-upcase, -downcase, -capitalize (and the ! versions) convert character by character: ASCII letters by themselves, the others by the Unicode tables. The exception is capitalizing a text that starts with a character outside ASCII: that character is destroyed.",
 "all texts of Unicode characters of every length, all sets of characters, all Unicode case tables, all states",
 "tests try a few words, nearly all ASCII; texts, sets and case tables are unbounded, and mistakes sit where a byte is taken for a character.",
 "prim_string.go: StringSplitImpl, StringTrimImpl, StringUpcaseImpl, StringDowncaseImpl, StringCapitalizeImpl, capitalize")
p("C70",
 "Ports deliver and receive exactly what was written, and the system functions do one thing",
 "Opening a file gives a new port and asks the operating system once, for reading, replacing or appending as requested; a refusal is an error. Each successful write to a port adds exactly its text at the end of what that port received and nothing to any other port; a failing one adds nothing. successive reads give the data of the text the port delivers one after the other, the end-of-file object when nothing is left, an error where the text breaks off, as long as no other port is read in between (then buffered text is lost); what write sent, read gives back. list-directory, random-byte, millis, sleep, quit, panic! and profile do what their names say and touch no data.",
 "all file names, modes, bytearrays, values, texts, all data of every depth, all answers of the operating system, all states",
 "tests write a few values to a scratch file on a working disk; refusals, other ports and other texts are not tried.",
 "prim_io.go: OpenOutputFileImpl, OpenInputFileImpl, ClosePortImpl, WriteBytesImpl, ReadImpl, EofObjectImpl, ListDirectoryImpl",
 "prim_system.go: SleepImpl, MillisImpl, QuitImpl, PanicImpl, ProfileImpl")
p("C71",
 "A function can keep private state between calls, and two such functions do not share it",
 "When a program defines two functions by (define x (let ((balance z)) (lambda (p) (begin (set! balance (+ balance p)) balance)))), then after any sequence of calls of either function, mixed with other computations of the functional core, a call gives the initial balance of that function plus everything passed to that same function so far, wrapped to 64 bits: nothing passed to the other one counts, and no computation in between disturbs it. The program, laid out in any way, ends with this value and with no other.",
 "all function, variable and parameter names that are not reserved, all initial balances, all sets of defined functions, all sequences of calls of every length with arbitrary argument expressions that have an integer value, all layouts of the source text, all well-formed states",
 "tests make one counter and call it two or three times; isolation between closures and from unrelated computations concerns every sequence of calls.",
 "prim_mutators.go: SetVarImpl",
 "symbol_table_frame.go: SetTo",
 "prim_special_forms.go: LetImpl, bindLetLocals",
 "function.go: Apply, makeLocalBindings")
p("C72",
 "An error stops a program of the functional core, and nothing recoverable turns into a crash or a value",
 "In the functional core of C67, evaluation ends with an error (never with a value and never with a crash) when something that is reached goes wrong: a call of something that is not a function, a call of a Lisp function or of a built-in with the wrong number of arguments, arithmetic, a numeric predicate or a comparison on something that is not a number, quotient by zero, a predicate given to filter that does not answer #t or #f, or any of these inside an operator, an argument, a function body, a test, the branch taken, the clause reached, an initial value of let or named let, a loop body, or the function given to map, filter or fold-left. 'Reached' means that everything evaluated before it has a value; what comes after it does not matter. A program, laid out in any way, stops with an error at the first expression that goes wrong, whatever follows it.",
 "all programs of the functional core that go wrong in this sense, with any number of global functions, any recursion depth before the error, any data and any text after the failing expression; all well-formed states",
 "tests check a few error messages of single built-ins; that an error deep inside recursion, loops and higher-order functions always comes out as an error, and that what follows is irrelevant, concerns every program.",
 "data.go: Apply, evalHelper",
 "function.go: Apply, makeLocalBindings",
 "primitive_function.go: checkArgumentCount, Apply",
 "prim_math.go: AddImpl, anyFloats",
 "prim_relative_logical.go: LessThanImpl",
 "prim_list_functions.go: MapImpl, FilterImpl, FoldLeftImpl",
 "parser.go: ParseAndEvalAllInEnvironment")
p("C73",
 "After an error the interpreter goes on as if nothing had happened",
 "Texts given to ParseAndEvalAll one after the other, each a definition of a new global function or an expression of the functional core, give the answers one expects from each of them alone: definitions take effect, expressions that have a value give that value, and expressions in which something goes wrong (in the sense of C72) give an error. Expressions, those that fail too, leave everything that was there before unchanged: lists, strings, bytearrays, variables, functions, frames, channels, processes; nothing is printed and no goroutine is started. So whatever failed before, at whatever depth, later texts mean the same.",
 "all sequences, of any length, of definitions and expressions of the functional core, with failing ones anywhere between, laid out in any way; all well-formed states with the built-ins",
 "a test runs one failing expression; that no failure, at whatever depth of calls, loops, let scopes and higher-order functions, leaves a trace that changes what later texts mean concerns all sequences.",
 "parser.go: ParseAndEvalAllInEnvironment",
 "data.go: evalHelper, Apply",
 "function.go: internalApply, makeLocalBindings",
 "symbol_table_frame.go: NewSymbolTableFrameBelow, BindLocallyTo")
p("C74",
 "Objects that share a prototype have a state of their own",
 "A program makes a prototype frame with a method (lambda (p) (set! y (+ y p))) and a slot y: z, and two objects (make-frame class*: prototype) that have nothing of their own. After any sequence of (send object method: e), to either object and mixed with other computations, sending the message to an object gives z plus everything that was paid into this object (modulo 2^64): the method found in the prototype acts on the receiver, reads the inherited slot until the receiver has its own, and assigns in the receiver, so neither the prototype nor the other object is affected.",
 "all sequences of messages and computations of any length; all amounts that are expressions of the functional core; all names, initial balances, layouts of the program and global functions; all well-formed states with the built-ins",
 "a test sends a few messages to one or two objects; that no assignment in a method ever reaches the prototype or a sibling, whatever messages and computations came before, concerns all sequences.",
 "prim_frame.go: MakeFrameImpl, SendImpl",
 "frame.go: Get, getHelper, HasSlot, Set",
 "symbol_table_frame.go: SetTo, ValueOfWithFunctionSlotCheck, NewSymbolTableFrameBelowWithFrame",
 "function.go: internalApply, ApplyWithoutEvalWithFrame")
p("C75",
 "Handlers catch every error of the functional core and nothing else",
 "(on-error e (lambda (m) h)), where e is an expression of the functional core, (error x), or such an on-error again, to any depth: if e has a value, that is the result and the handler is not called; if something goes wrong in e, at whatever depth of calls, loops and higher-order functions, the handler is called with the message and its value is the result; if the handler goes wrong, so does the whole. (error 'x) has exactly the message x. Raising and handling errors leave everything that was there before unchanged, and texts entered afterwards mean what they would have meant.",
 "all expressions of the functional core, all nestings of error and on-error, all handlers; all sequences of definitions and such expressions, laid out in any way; all well-formed states with the built-ins",
 "a test raises an error at a few places; that no place in a program is out of a handler's reach, that handlers never run without an error, and that neither leaves a trace, concerns all programs.",
 "prim_system.go: OnErrorImpl, ErrorImpl",
 "data.go: evalHelper, Apply",
 "function.go: internalApply, makeLocalBindings",
 "parser.go: ParseAndEvalAllInEnvironment")
p("C76",
 "A function defined again is replaced everywhere",
 "When texts are entered one after the other, each defining a global function of the functional core (a new name or one that was defined before, with any parameters) or evaluating an expression (which may fail), every expression gives the answer that the latest definition of each name gives it. Functions defined earlier that call a redefined one use the new definition at once; the old one is never called again; no other name is affected by a redefinition. For instance (twice k), which calls base twice, gives k + 2, then k^4 modulo 2^64, then an error, as base is defined as (+ n 1), then as (* n n), then with two parameters.",
 "all sequences of definitions, redefinitions and expressions of the functional core, of every length, laid out in any way; all well-formed states with the built-ins in which the names are new",
 "a test redefines one function and calls it; that every earlier caller, at any depth, uses the latest definition, for all sequences of redefinitions and errors in between, concerns all sessions.",
 "prim_special_forms.go: DefineImpl",
 "symbol_table_frame.go: BindLocallyTo, BindTo, ValueOf",
 "data.go: evalHelper",
 "function.go: internalApply",
 "parser.go: ParseAndEvalAllInEnvironment")
p("C77",
 "Macros written with a template are abbreviations",
 "A macro defined by (defmacro (name p ...) `template), where the template is fixed text with parameters ,p in it, is an abbreviation: a use (name d ...) with as many operands as parameters, wherever the macro's name is not hidden by a local one, is replaced by the template filled in with the operands as they are written, not evaluated, and the result is evaluated in the place of the use. So names in the operands mean what they mean where the macro is used, operands that the filled-in code does not evaluate are never evaluated, and nothing that was there changes by the expansion. A use with a wrong number of operands is an error that changes nothing. Templates may use other macros: code is evaluated as what it unfolds to. (expand name d ...) gives the filled-in code as data. Defining the macro binds its name and nothing else.",
 "all templates of any nesting, all parameter lists of distinct names, all operands; all well-formed states with the built-ins, all environments of the functional core; all sequences of definitions of macros and functions, expressions and uses of macros, of every length, laid out in any way",
 "a test expands one macro with one set of operands; that every use is the template with the operands put in unevaluated, for all templates, operands and environments, concerns all programs.",
 "macro.go: MakeMacro, makeLocalBindings, Expand, internalApply",
 "prim_macros.go: QuasiquoteImpl, processQuasiquoted, ExpandImpl",
 "prim_special_forms.go: DefmacroImpl",
 "data.go: evalHelper")
if __name__=="__main__":
    here=os.path.dirname(os.path.abspath(__file__))
    with open(os.path.join(here,"..","properties.jsonl"),"w") as f:
        for x in P: f.write(json.dumps(x)+"\n")
    print(len(P))

# Design

Formal model of jespa007/zetscript (C++ in /repo) in Rocq 8.16.1.
Everything in `rocq/theories`, logical name `Verif`.

## Method

* Each C++ function in scope is transcribed to a total Gallina function. The comment
  above a definition cites the file and lines and lists simplifications.
* A thrown exception / script error is an explicit error outcome. Undefined behaviour
  (out-of-bounds read, use after free, signed overflow, non-termination) is a distinct
  outcome, never a silent default.
* Specifications are small, independent of the model's helpers (mathematical lists,
  finite maps, big-step semantics).
* If the code falsifies a property, a theorem `..._refuted` gives the witness and a guarded
  theorem states the largest natural domain where the property does hold. Such properties
  are `partial` in MANIFEST.json with the note REFUTED.

## Plan per property (written before the proofs)

* **C01** Vector behaves as a mathematical sequence. Vector model: record (items: list of optional cells of length capacity, count). Operations transcribed incl. growth and limits. Proof: abstraction function = first `count` cells; refinement per operation, then induction on histories.
* **C02** Vector rejects every out-of-range index. Same model, `stale` cells distinct. Expected FALSE in the gap count<=i<capacity: prove `_refuted`, and the guarded theorem (rejected iff i<0 or i>=capacity).
* **C03** Vector assignment copies the source. Same model; `copy`. Expected FALSE for empty source and self-assignment: `_refuted` + guarded theorem.
* **C04** Doubly linked list keeps insertion order and link consistency. Heap model: finite map node -> (prev,next) plus first/last. Invariant `list_rep` (circular segment). Induction on histories.
* **C05** String map is a finite map. MapString model: sorted table (array) + linked node heap. Representation invariant, refinement to association list, induction on histories.
* **C06** String map iterates in insertion order, each live key exactly once. Same model; traversal as the iterator does; refinement to insertion-ordered list.
* **C07** A failed map insertion leaves the map unchanged. Same model with capacity as a parameter of the model; expected FALSE (node is linked before the check): `_refuted`, for every full map.
* **C08** Integer map is a finite map within its counter range. MapInt model parametrised as MapString with other key order; 16-bit counter explicit.
* **C09** indexOf returns the first occurrence. String model on lists of bytes; `find` transcribed loop; proof by induction.
* **C10** find honours its start position. Same; expected FALSE (`pos` ignored): `_refuted`.
* **C11** split then join with the same single-character delimiter is the identity. split(char) loop transcribed; proof by induction with accumulator generalised.
* **C12** split by a string delimiter loses no text and terminates. split(String) loop transcribed with fuel and proof that fuel suffices.
* **C13** startsWith / endsWith / contains decide prefix / suffix / substring. Transcribed; compared with list prefix/suffix/infix relations.
* **C14** substring returns exactly the requested slice and never reads outside the string. Transcribed on Z; slices by firstn/skipn.
* **C15** replace substitutes every non-overlapping occurrence, left to right. Transcribed loop (find/setSubstring on the mutated buffer); relational specification of left-to-right replacement.
* **C16** Case conversion changes letters only and preserves length. Transcribed with the 16-bit loop variable as a modelled divergence/UB bound.
* **C17** Unescape inverts escaping. Transcribed loop; escape function is a specification.
* **C18** insertAt/eraseAt on strings are splice operations with bounds checks. Transcribed; errors as a distinct outcome.
* **C19** Integer text round-trip. parse/toString on Z; expected FALSE for negative numbers in parse: guarded + refuted.
* **C20** Integer literals denote their positional value. isInteger scan transcribed; positional value as a specification.
* **C21** Calendar: leap years and month lengths. DateTime validation transcribed; calendar specification separate.
* **C22** addMonths lands on a valid calendar date. addMonths transcribed; expected FALSE for negatives: `_refuted` + guarded.
* **C23** TimeSpan comparisons agree with total duration. TimeSpan transcribed; expected FALSE for mixed signs: `_refuted` + guarded.
* **C24** Arithmetic operator typing and values. Value model with int (Z in 64-bit range, overflow outcome UB), float as SpecFloat binary64 (pure Gallina, no axioms).
* **C25** Division or modulus by zero is always an error. Same model.
* **C26** Inequality is the negation of equality. Same model.
* **C27** Equality is symmetric and reflexive. Same model; type-values may break symmetry.
* **C28** Ordering on integers and strings is a total order consistent with equality. Same model; strcmp model.
* **C29** Compound assignment equals the spelled-out assignment. Same model of vm_operation_assign.h with bit reinterpretation (own bits_of_float). Expected FALSE for int op= float.
* **C30** Pre/post increment and decrement. Same model.
* **C31** Operator priority and associativity. Token-list compiler (recursive split at the last operator of the lowest group present) and stack machine; specification: priority-respecting tree relation and its evaluation.
* **C32** Parentheses override priority. Same with nested token lists inlined.
* **C33** Logical operators short-circuit. Same with JNT/JT placeholders and patch pass; specification: big-step evaluator with a trace of evaluated operands.
* **C34** Ternary operator evaluates exactly one branch. Same with ternary layout.
* **C35** Constant folding does not change results. Folding function vs. value model; expected FALSE for int/float mixes; guarded.
* **C36** Register-immediate optimisation does not change results. ILOAD fusing vs. execution: jump-free correct; `_refuted` with jumps inside operands.
* **C37** Assignment chains and multiple assignment are simultaneous. Assignment compile + vm_store model over a store of variables.
* **C38** Statically computed stack requirement is sufficient. Linear accumulation function + interpreter; expected to need a structured-code argument because the accumulation ignores jumps.
* **C39** if / else-if / else executes exactly the first true branch. Structured statement compiler to flat code; big-step semantics; simulation proof.
* **C40** Loops implement their textbook semantics. Same.
* **C41** break and continue target the innermost enclosing loop. Same (break/continue as outcomes).
* **C42** switch selects the matching case, falls through and honours break/default. Same.
* **C43** Scopes are pushed and popped in balance on every path. Scope depth is part of the machine state.
* **C44** Argument binding. Function model of the argument adjusting code in vm_call.cpp on lists.
* **C45** Multiple return values are padded or truncated. Same for RET.
* **C46** Parameter and return counts survive instruction encoding. Macros on Z with land/lor/shift.
* **C47** Runaway recursion is stopped with an error. Call-depth counter semantics over arbitrary call trees.
* **C48** Reference counting frees an object exactly once and never while referenced. Share manager: state machine over objects/scopes; invariants by induction over operation histories.
* **C49** The reference count equals the number of references. Same; 16-bit wrap expected FALSE at 65536.
* **C50** Leaving a scope releases every unreferenced object created in it. Same; the do/while removal loop on the circular list.
* **C51** Array erase/insert validate the index. Array object over the Vector model with freed cells as UB; expected FALSE.
* **C52** Array concatenation and contains. Array object on lists.
* **C53** Array equality is element-wise equality. Array equality vs value model.
* **C54** Object concatenation overrides left to right. Object concat over the abstract map.
* **C55** for-in visits each element exactly once in order. Iterator state machines.
* **C56** JSON serialise/deserialise round-trip. JSON printer/parser on bytes; guarded + refuted.
* **C57** JSON parsing is total. Same parser with fuel bound by the text length.
* **C58** instanceof is the reflexive-transitive inheritance relation. Type registry as a list with base indices; invariant base<id.
* **C59** Failed type registration leaves the registry unchanged. Same; expected FALSE.
* **C60** Name resolution finds the innermost visible declaration. Scope tree model.
* **C61** Local variable renumbering is a consistent bijection. Lookup-table construction.
* **C62** Comments and blanks are insignificant. Lexer model.
* **C63** Operator tokens are recognised by longest match. Lexer model.
* **C64** String format substitutes placeholders. Format model, if time permits.
* **C65**-**C66**, **C80** Further vector and list operations (bulk insertion, detaching): as C01, C04.
* **C67**-**C69** Further string and integer text operations: as C09-C19.
* **C70**-**C74**, **C81** Calendar arithmetic and printing of dates: day numbers as a specification, fields by inversion.
* **C75**-**C79** Further laws of the value model of C24-C30.
* **C82** delete statement: on top of the share manager of C48; expected FALSE.
* **C83**-**C87** Keywords, numbers, strings, identifiers: the scanner of C62-C63 on character lists that know where the text ends; grammars as inductive predicates.
* **C88**-**C89** Arrays as sequences over histories, elements as memory blocks; pop over the share manager.
* **C90** Objects as finite maps over histories, on the map model of C05; storing a held object again over the share manager.
* **C91** Method lookup, call sites, this and super calls on the type registry, against an inductive relation on class tables.
* **C92** Member registration on the same model.
* **C97**-**C99** On the model of C56 and C57.
* **C100**-**C102** Assignment and argument passing: variables holding addresses of string
  objects, programs as trees of assignments and calls, isolation as an invariant on programs.
* **C103**-**C107** Native calls: type tables and overload sets as finite lists, one call
  instruction with the function it remembers, argument conversion by declared type; a relation
  of declared C++ types and values as specification.
* **C123**-**C128** Elements, fields and characters: memory of containers and string objects,
  mutually recursive evaluation of expressions and literals, against big-step relations over
  values; the invariant that no string object has two owners.
* **C93-C96** Names after their block, symbols of instructions, functions without code and
  failed scripts, on the scope model: the session of scripts refines a session of environments.
* **C129**-**C142** Operators, properties and setters of script classes: the machine stack with
  the aliasing of operands; classes as built by their declarations; bodies of functions are
  arbitrary. Claims about operands, results, inheritance, stores and errors.
* **C143**-**C149** Containers in containers: heap of containers, elements and slots, the stores,
  the destruction and the collector of clear.  Invariant: the count of a container is the number of its
  slots plus the variables that hold it, each element holds its own slot, no list refers to
  something destroyed.  The programs are compared with a semantics that never destroys.
* **C150**-**C155** System::eval: the text is unescaped, compiled by the compiler of Stmt*, its code
  changed so that it returns, and run by a native function that calls a script function.  The stack of the
  caller is a map from positions; the copying of parameters and results is done position by position.
* **C156**-**C162** Reading expressions: from characters to trees of operands and operators.  The texts of
  an expression are given by a relation without reading order; completeness by induction on it, soundness
  and termination by induction on the nesting of the reading functions.
* **C163**-**C166** From the text of a formula to its value: the trees that are read (Parse*) are turned into
  the expressions that are compiled (Expr*), so that claims about characters and claims about running code
  meet in one theorem; induction on the writings of a formula.
* **C167**-**C170** Array and object literals, new and conditions: texts as inductive relations beside those of
  expressions; reading is exact in both directions; a small machine for the emitted code shows the order of
  evaluation and which pair decides.
* **C171**-**C172** The operator `in`: operands by the way they are reached, membership by lists; the stack with
  the local variables below shows what a missing answer does to a condition.
* **C173** Path: the three functions over the proved findLastOf (C68) and getSubstring; the parts as lists.
* **C174**-**C176** Math: max, min and abs by the order of doubles; pow, sin, cos and random by rounding to
  binary32, proved in general for whole numbers of up to 31 digits.
* **C177**-**C178** Files that import each other: compileFile and import over any file system; what an import
  stands for as an inductive relation, the files needed as a closure, the end of circles by counting names.
* **C179**-**C180** Pieces of the source that go through a buffer of 4096 bytes (strings, conditions of while,
  names of imports): how long they can be; which statements are taken for an import.
* **C181**-**C182** File: exists, size and readText over the bytes of a file; sizes through an int of 32 bits.

## Out of scope (cannot be expressed or settled here)

* What native functions do (C++ templates calling user functions), wall-clock time, files, console.
* The locale of the C library. `strtof` and `sprintf("%f")` are taken to round to nearest, ties
  to even, on plain decimal texts (Json*).
* Thread schedules: the engine is single threaded and offers no synchronisation.

## Trusted base

* Coq's kernel (8.16.1), with `vm_compute` as part of it, and the checker `coqchk`.
* `Print Assumptions` follows every property theorem in the `*Props.v` files. Every one
  prints "Closed under the global context": no axiom is used.
* The transcription of the C++ text to Gallina, function by function as cited in the
  comments. Nothing was compiled or run.
* `zs_int` is a 64-bit two's complement integer, `zs_float` an IEEE-754 binary64
  (Config.h.in). The C++ operations on doubles are those of `Coq.Floats.SpecFloat`
  (round to nearest even), `fmod` is exact, there is one NaN.
* Memory allocation never fails.

## What is modelled

| Files in rocq/theories | Code in /repo/src | Not modelled |
| --- | --- | --- |
| Vector* | base/Vector.tcc | allocation failure |
| List* | base/List.tcc | |
| Map* | base/MapString.cpp, MapInt.cpp and their iterators | |
| String* | base/String.cpp | allocation, 16-bit positions beyond what the comments say |
| Integer* | base/Integer.cpp | |
| DateTime* | base/DateTime.cpp, TimeSpan.cpp | clock, time zones of the C library |
| Float* | zs_float as binary64 | NaN payloads |
| Value* | core/StackElement.h, vm/vm_operation.h, vm/vm_operation_assign.h, vm/vm_store.cpp (plain variables), parts of vm/vm_call_metamethod.cpp | user metamethods, container slots, setters, text of floats |
| Expr*, Vm* | compiler/compiler_expression.cpp, compiler_expression_optimize.cpp, compiler_operator.*, the instruction loop of vm/vm_script_function.cpp | parsing of characters into operands (see Parse*); calls, member and array access are opaque instructions |
| Fold*, ExprZs | constant folding of compiler_expression_optimize.cpp; the machine with the operators of Value* | |
| Call* | argument binding, result delivery and nesting limit of vm/vm_call.cpp and vm/vm_script_function.cpp, INSTRUCTION_*_COUNT of core/Instruction.h | native functions, constructors, member lookup |
| Share* | vm/vm_share_manager.cpp, vm_pop_scope of vm/vm.tcc, vm_delete_object | script destructors, native objects (collector of cycles: see Slot*) |
| Array* | core/object/ArrayScriptObject.cpp, ArrayScriptObjectZs.cpp (except join), stackElementAssign of core/ScriptEngine.cpp | toString, join, references held by elements (see Share*) |
| Object* | core/object/ObjectScriptObject.cpp, ObjectScriptObjectZs.cpp | toString, member properties of classes, references held by fields (see Share*) |
| Type* | core/type/ScriptTypesFactory.cpp:377-700, core/type/ScriptType.cpp (member registration and lookup), newFunction, member/this/super calls of vm/vm_container.cpp, vm/vm_call.cpp, compiler/compiler.cpp | static functions, metamethods, native members, member properties |
| Scope* | core/scope/ScriptScope.cpp, ScriptScopesFactory.cpp, local registration of core/function/ScriptFunction.cpp, scopes, name loads and local variable renumbering of compiler/compiler.cpp, compiler_symbol.cpp, compiler_keyword_var.cpp, compiler_keyword_function.cpp, registers of compiler_expression_optimize.cpp, name linking of ScriptFunction.cpp | the rest of the emitted code, default values and references of parameters, import, class scopes (a class is a name; member functions are functions), 16-bit slots |
| Lex* | compiler/compiler_data.cpp:299-935 (blanks, comments, operators, keywords, numbers, names), token scanning of compiler_symbol.cpp and compiler_expression_token_symbol.cpp | what is done with the tokens; directives |
| Stmt* | compiler/compiler_keyword_{conditional,loop,var,return}.cpp, block handling of compiler/compiler.cpp, END_FUNCTION, scopes | function and class definitions, delete |
| Stack* | instruction_num_required_stack of core/Instruction.cpp, its accumulation in compiler/compiler.cpp:545-754, the check of vm/vm_script_function.cpp:77-80 | operands inside array and object literals and member calls; what native functions push |
| Iter* | core/object/{Array,String,Object}IteratorScriptObject.cpp, base/MapStringIterator.cpp, vm/vm_iterator.cpp:6-125, return values of native calls (vm_native_function.cpp:931-947, vm_call.cpp:603-637) | iterators written in the script (`_iter` of a class); containers are identified by numbers, lengths below 2^31 |
| Json* | module/JsonModule.cpp, JsonDeserializeModule.cpp, JsonSerializeModule.cpp for plain values, base/Float.cpp | strtof on texts other than [-]digits[.1-6 digits] is a parameter; member properties and functions of serialised objects; line numbers of messages |
| Pass* | vm/vm_store.cpp:16-380 for variables, argument passing of vm/vm_call.cpp:288-420, loads of vm/vm_script_function.cpp | returned values, default and variable arguments, constants, members, container slots; branches and loops (a run is a list of statements) |
| Access* | vm/vm_container.cpp:387-664, vm/vm_store.cpp:34-80 and 205-382 for elements, fields and characters, core/object/ArrayScriptObject.cpp:55-103, ObjectScriptObject.cpp:57-100 | objects of classes, compound and multiple assignments, reference counts, bytes behind the end of a text, texts with the byte 0 |
| Meta* | vm/vm_call_metamethod.cpp, vm/vm_call.cpp:7-76, vm/vm_pop_stk.h, property reads and stores of vm/vm_container.cpp:244-385 and vm/vm_store.cpp:70-205, registration of metamethods and properties in core/type/ScriptType.cpp and ScriptTypesFactory.cpp:440-535, compiler/compiler_keyword_class.cpp:383-490 | bodies of functions are parameters; native objects; reference counts; `_tostring`, `_in` calls |
| Slot* | core/object/ContainerSlot.cpp, ContainerScriptObject.cpp, vm/vm.cpp:502-608, the stores of containers in vm/vm_store.cpp:34-66, 205-376, literals, fields and elements of vm/vm_container.cpp, the destruction of arrays and objects, clearGlobalVariables of ScriptEngine.cpp | strings, classes and native objects as values; functions, blocks and calls (all variables are global); 16 bit counts (see Share*) |
| Eval* | module/SystemModule.cpp:21-214, the calls of script functions by native ones in vm/vm_call.cpp:536-645 and the frames of vm/vm_script_function.cpp:43-98, 360-398, 673-701, vm/vm.tcc:33-80, unescape | names, scopes, functions and classes declared in the text, errors of the evaluated program, the parameters of a text that does not compile, objects with 16 fields or more |
| Parse* | compiler/compiler_expression.cpp:8-231, compiler_expression_token_symbol.cpp:8-888, compiler_symbol.cpp:11-213, compiler_expression_byte_code.cpp:216-300 and 431-507, base/Boolean.cpp:8-24 | how array and object literals, new, functions, this, super and A::b are read, the kinds of numbers, which names are declared or types, which code starts with NEW_OBJECT_BY_TYPE (parameters); the emitted instructions; line numbers; the special calls for for-in and break on assignment |
| Text* | the step between Parse* and Expr*: compiler_expression_token_symbol.cpp:58-888 and compiler_expression_byte_code.cpp:216-507 as far as names, literals, signs, counting, parentheses, operators, assignments and conditionals are concerned | members, calls, array and object literals, new, functions, this, super (such texts are outside of compile_text); where the names live (parameter) |
| Lit* | compiler/compiler_object.cpp:78-508, compiler_expression.cpp:144-178 (expected ending characters), the conditions in compiler_keyword_conditional.cpp:36-52, 190-209 and compiler_keyword_loop.cpp:118-138, 250-267 | function objects (112-143), line numbers, messages; the lookup of types and constructors (parameters); the machine of C167_value and C168_value is a specification of NEW_ARRAY, PUSH_ARRAY_ITEM, NEW_OBJECT, PUSH_OBJECT_ITEM, whose reference counts are in Slot* |
| InModel, InProps | vm/vm_iterator.cpp:130-222, vm/vm_pop_stk.h:39-75, ScriptEngine.cpp:369-387, vm/vm_script_function.cpp:281-292, 573-583, the loop of core/object/ArrayScriptObjectZs.cpp:80-109 | the metamethod _in of other classes (result `Meta`); the search in texts and maps is taken from C13 and Map*; the stack above the operands |
| Path* | base/Path.cpp | Directory::exists (parameter) |
| Math* | module/MathModule.cpp (max, min, abs, pow, sin, cos, random) | powf, sinf, cosf and rand (parameters); PI, degToRad, sqrt, floor, ceil, round; passing the arguments; assumed: RAND_MAX is 2^31 - 1, float is binary32 |
| Import* | compileFile and isFilenameAlreadyParsed of ScriptEngine.cpp:884-974, the directive import of compiler/compiler.cpp:342-403 | the file system (parameters, does not change), statements (numbers), code compiled before an error, resetParsedFiles |
| Copy* | compiler_copy_const_char_diff of compiler/compiler.cpp:37-58 for strings (compiler_symbol.cpp:81-97), conditions of while and do-while (compiler_keyword_loop.cpp:118-148, 250-268) and names of imports (compiler.cpp:342-370), is_directive of compiler_data.cpp:534-549 | names of parameters (compiler_keyword_function.cpp:383); LexModel and LitModel read without the buffer |
| File* | base/File.cpp:10-86 without _WIN32, base/Memory.cpp:9-19, the text that ends at the first zero of ScriptEngine.cpp:932-949 | files that change or cannot be opened, failing reads; more than 2^31 bytes of memory are never there, less always |
| Native* | vm/vm_native_function.cpp:62-424, vm/vm_call.cpp:456-546, casts of ScriptEngine.cpp:499-787, extendsFrom of core/type/ScriptType.cpp, native registration | constructors, what the functions do and return, error texts, native type names (a type id each) |
| Format* | core/object/StringScriptObject.cpp:86-332 (format) | texts of arguments other than integers are given |

In the Expr*, Vm* and Stmt* files the behaviour of values is a parameter (record `Sem` of
VmModel.v) and the theorems hold for every such behaviour whose constants fold soundly
(`sound_fold`); C35 shows that the operators of the language do.

## Findings

Properties the code does not have; every one is a theorem `..._refuted` with a witness, and
MANIFEST.json lists it beside the theorem that does hold.  In the compiler:

* `(a && b) == c` and `x + (a ? b : c)` are miscompiled (C32, C34, C36).
* Folding two constants and computing at run time differ for int/float comparisons, long
  texts, `-0` (C35).
* `for(x=0;;)` executes the initialisation before every iteration (C40).
* `a += b += e` is executed from the left (C37).
* A switch without case label does not evaluate its expression, and its break ends the
  loop around it (C42); an unmatched switch without default leaves its value on the
  operand stack (C42).
* The stack requirement computed for a function ignores what such a switch, or the statement
  `c ? f() : g();`, leaves behind: in a loop the stack grows without bound (C38).
* break and continue in a block with variables leave its scope open; the eleventh is
  written behind the array of scope blocks (C43).
* An unterminated comment swallows the rest of the text (C62); `in` before a tab (C63) and
  `else//` (C83) are not recognised; text ending after an operator is read beyond its end
  (C84); a string ending with an escaped backslash is not closed (C86); `a#b` is a name (C87).
* `{var t;} const K=1;` stores K where t was; an operator between a member and a local variable
  keeps the old slot, or renumbers the member; operands above slot 255 are cut to 8 bits (C61).
* `{var x;} var x;` is rejected although x is not visible (C93).
* A function declared in a block without variables is deleted while instructions still point
  to its symbol (C94).  After an error in a function body the function can be called and has no
  code (C95); the declarations of a rejected script stay (C96).

In the virtual machine:

* A rest parameter without arguments is undefined; surplus results are taken from the end;
  16 arguments wrap to 0; a call with certain counts in a loop is patched as a break (C44-C46).
* `var c={x:{}}; return c.x` frees the object it returns (C50); `delete x` reads the object
  it has freed (C82); the reference count wraps at 65536 and stays one too high when an object
  that holds itself lets go (C49); sharing an object again
  after its last reference went in another block corrupts the lists (C48).
* Every store of a string unescapes it once more, and overwrites the string object of the
  variable in place: `a,b=b,a` on two strings leaves both equal (C37), `s+t` loses backslashes
  (C76), `a=a` shortens a text with escapes (C101), a function that assigns a string to its
  parameter changes the string variable passed (C100).  A reference parameter cannot be an
  operand (C102).
* `class A extends A` is accepted; instanceof and new then never end (C58). A class with an
  unknown base stays registered (C59). A call site runs the method of the class of its first
  object (C91); a method added to an extended class makes this.m() use a null pointer (C91);
  a function named as a constant of its class uses it as a function (C92).

* `a[4294967296]` is `a[0]`, `a[-0.5]` is `a[0]`, `a[NaN]` is undefined behaviour (C124); `s[i]`
  reads and writes any memory (C125, C126); `s[0]="x"` does nothing (C126).
* A getter with a local variable reads undefined (C129); `this.p-this.q` of two properties is
  `q-q` (C131); `x<3` calls `_lt(x,x)` (C132); setters and increments are not inherited (C136);
  a write-only property cannot be written through `this` (C141); the program goes on after an
  error in a setter (C142).
* `1 in o` and `r.name in o` leave no value on the stack if o is an object: `if(r.name in o)` is decided by the
  last local variable (C172). `0 in "abc"` and `353 in "abc"` are true (C171).
* `Path::getFilename("")` and `Path::getFilenameWithoutExtension("dir/")` read the byte before the text;
  `Path::getDirectory("/a.zs")` is the empty text, so that running `/a.zs` does not change the directory (C173).
* `Math.max(x,NaN)` is NaN, `Math.max(NaN,x)` is x (C174); `Math.pow(16777217,y)` is `Math.pow(16777216,y)`, as numbers
  are rounded to float (C175); `Math.random()` can be 1 (C176).
* `import "lib.zs"` in a/x.zs and in b/x.zs compiles a/lib.zs only; a file that failed to compile is skipped without
  an error the next time; a file with two names is compiled twice (C178).
* A string literal or the condition of a while of more than 4096 characters is refused, and one of exactly 4096
  reads memory behind a buffer; blanks and comments in the condition count (C179).
* A statement that starts with a name like `important` is taken for an import and refused (C180).
* What stands behind a zero byte in a file is not compiled; of a file of 2^32+n bytes the first n are compiled; files from
  2^31-1 bytes on overflow an int or write to the null pointer (C181). `File::exists` of a missing file reads a struct that was not written (C182).
* `{"abc` uses a null pointer; `{"":1}` and `[1,]` are refused; `{if//` line end `:1}` has a key `if` (C167, C168).
* `new a.b.T()` ignores `a.b` if T is a type; `new T(c ? x : y)` and `if(c ? x : y)` are refused; `if( )` is accepted (C169, C170).
* `(a && b) == c` with a true is b whatever c is, if c is a local variable (C163).
* `a +` and `-` at the end of a text read beyond it (C158); `a[ ]` and `c ? x : ;` are accepted (C159);
  `a` and on the next line `-b` or `(b)` is one expression (C160); `!!a`, `- -a`, `a ++` and, for a
  variable True, `True++` are refused (C161); `typeof "String"` is refused (C162).
* `System::eval("var c=1; return c")` is undefined (C150); `a,b=System::eval("return 1,2")` gives a=2,
  b=1 (C151); `System::eval("a=7",o)` is undefined (C152); `System::eval("if(a==1){return 5;}",o)` where
  o has three fields and a is not 1 overwrites variables of the caller (C153); escapes inside the text
  are replaced before it is compiled (C155).
* `o.x=o.x.next` uses freed memory (C143); `a=[{}]; a[0]={}` leaks the first object, and clear then
  throws or uses freed memory (C145-C147); `a={}; a.x=a` survives clear (C147); `a=[[1]]` saved by
  saveState is `[undefined]` after clear (C148); `a[0]=1` over a container leaks a slot (C149).
* Of native overloads for integers and floats the one registered last is run for both (C103);
  `function reset(x){x.clear();}` runs String::clear on an array after a call with a string
  (C104); objects of script classes are handed to native functions as the C++ object (C106).

In the library:

* Extending an array by itself runs until the array is full (C52); `[undefined]==[undefined]`
  is false (C53); `eraseAt(length())` frees an element twice, `insertAt(-1,x)` writes outside
  the buffer, `insertAt(length()+1,x)` leaves a hole (C51); `pop` of an object only the array
  refers to returns a freed object (C89).
* `o.extend(o)` frees the objects only `o` refers to and uses them (C90).
* JSON: integers are read as binary32 numbers, strings are written without escapes, the flag
  `minimized` is inverted, an unclosed comment or a long token leaves the text or a buffer
  (C56, C57, C97).
* format drops `{0:a,b}`, refuses `{a}`, takes `{4294967296}` for `{0}` and unescapes its
  arguments (C64).
* `array += array` treats both as objects of another class (C29).

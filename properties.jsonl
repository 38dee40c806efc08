{"id": "C01", "title": "Vector behaves as a mathematical sequence", "statement": "For every finite history of push, pop, set, get, insert-at, erase, concat, clear with indices inside the current length, the engine's Vector container observably equals the corresponding mathematical sequence (same length, same element at every index), however many times its storage is grown.", "quantifier": "all element types, all finite histories of in-range operations", "why_tests_cant": "Growth boundaries and shifting loops depend on the history length and on positions; tests sample a few.", "anchors": ["src/base/Vector.tcc: pushSlot, push, pop, get, set, erase, insert, concat, clear"]}
{"id": "C02", "title": "Vector rejects every out-of-range index", "statement": "Reading, writing or erasing a Vector position outside 0..length-1 always raises an error and leaves the container unchanged.", "quantifier": "all vectors reachable by any history, all integer indices", "why_tests_cant": "The faulty region is the gap between length and capacity; which index falls into it depends on the history.", "anchors": ["src/base/Vector.tcc: get, set, erase"]}
{"id": "C03", "title": "Vector assignment copies the source", "statement": "After `a = b` on Vectors, a has exactly the elements b had, for every a and b, including empty ones and a itself.", "quantifier": "all pairs of vectors including aliasing", "why_tests_cant": "The corner cases (empty source, self assignment) are exactly those a sample suite omits; the property is universal.", "anchors": ["src/base/Vector.tcc: copy, operator="]}
{"id": "C04", "title": "Doubly linked list keeps insertion order and link consistency", "statement": "For every history of insert and remove of nodes, walking the List forward from its first node yields exactly the nodes inserted and not removed, in insertion order, and walking backward from the last yields the reverse; inserting an attached node or removing a detached node is refused without changing anything.", "quantifier": "all finite histories of insert/remove over any set of nodes", "why_tests_cant": "Pointer surgery errors surface only for particular positions/histories.", "anchors": ["src/base/List.tcc: insert, remove"]}
{"id": "C05", "title": "String map is a finite map", "statement": "For every history of set, get, exist, erase, count, clear on MapString, lookup of a key returns the value most recently set for it and not erased since, and 'absent' otherwise; erase of a missing key is an error that changes nothing.", "quantifier": "all finite histories, all keys (NUL-free byte strings), all values", "why_tests_cant": "Binary search and shifting insertion over a sorted table are position dependent; the statement ranges over all histories.", "anchors": ["src/base/MapString.cpp: search, newSlot, set, get, exist, erase, clear"]}
{"id": "C06", "title": "String map iterates in insertion order, each live key exactly once", "statement": "Iterating a MapString yields every live key exactly once with its current value, in the order in which the keys were first set since they were last absent; overwriting a value never moves a key.", "quantifier": "all finite histories", "why_tests_cant": "Order depends on the whole history.", "anchors": ["src/base/MapString.cpp: set, erase, data, begin", "src/base/MapStringIterator.cpp"]}
{"id": "C07", "title": "A failed map insertion leaves the map unchanged", "statement": "When setting a new key fails because the map has reached its capacity limit, the map (lookup and iteration) is exactly as before the call.", "quantifier": "all maps at the capacity limit, all new keys", "why_tests_cant": "Requires a million entries and a fault path; tests never reach it.", "anchors": ["src/base/MapString.cpp: set, pushSlot"]}
{"id": "C08", "title": "Integer map is a finite map within its counter range", "statement": "MapInt satisfies the same map laws as MapString for every history while it holds fewer than 65535 entries.", "quantifier": "all finite histories below the bound, all keys", "why_tests_cant": "Same as for the string map, plus the 16-bit counter.", "anchors": ["src/base/MapInt.cpp: search, newSlot, set, get, erase"]}
{"id": "C09", "title": "indexOf returns the first occurrence", "statement": "indexOf(p) returns the least position at which p occurs in the string, and -1 exactly when p does not occur.", "quantifier": "all strings and all patterns", "why_tests_cant": "Overlap/self-similar patterns and end positions form an infinite family.", "anchors": ["src/base/String.cpp: find", "src/core/object/StringScriptObjectZs.cpp: StringScriptObjectZs_indexOf"]}
{"id": "C10", "title": "find honours its start position", "statement": "find(p, pos) never returns an occurrence that starts before pos.", "quantifier": "all strings, patterns, start positions", "why_tests_cant": "Universal over positions.", "anchors": ["src/base/String.cpp: find"]}
{"id": "C11", "title": "split then join with the same single-character delimiter is the identity", "statement": "Joining the pieces produced by split(c) with c gives back the original string, and no piece contains c.", "quantifier": "all strings and all delimiter characters", "why_tests_cant": "Infinite input space including leading/trailing/adjacent delimiters.", "anchors": ["src/base/String.cpp: split(char)", "src/core/object/ArrayScriptObjectZs.cpp: ArrayScriptObjectZs_join"]}
{"id": "C12", "title": "split by a string delimiter loses no text and terminates", "statement": "split(d) for a non-empty d terminates; joining the pieces with d gives back the string; no piece contains d.", "quantifier": "all strings, all non-empty delimiters", "why_tests_cant": "Infinite input space; empty delimiter must be excluded.", "anchors": ["src/base/String.cpp: split(String)"]}
{"id": "C13", "title": "startsWith / endsWith / contains decide prefix / suffix / substring", "statement": "startsWith(p), endsWith(p), contains(p) are true exactly when p is a prefix / suffix / contiguous substring of the string.", "quantifier": "all strings and patterns", "why_tests_cant": "Infinite input space.", "anchors": ["src/base/String.cpp: startsWith, endsWith, contains"]}
{"id": "C14", "title": "substring returns exactly the requested slice and never reads outside the string", "statement": "substring(i,j) returns the characters at the positions i..j clipped to the string, an empty string for an empty range, counts a negative j from the end, and reports an error for negative i.", "quantifier": "all strings, all integers i, j", "why_tests_cant": "All integer boundary combinations.", "anchors": ["src/core/object/StringScriptObjectZs.cpp: StringScriptObjectZs_substring", "src/base/String.cpp: getSubstring"]}
{"id": "C15", "title": "replace substitutes every non-overlapping occurrence, left to right", "statement": "replace(old,new) returns the string in which each non-overlapping occurrence of old, found left to right, is replaced by new, and everything else is kept, whenever old is non-empty.", "quantifier": "all strings, all non-empty patterns, all replacements", "why_tests_cant": "Self-overlapping patterns and replacements containing the pattern.", "anchors": ["src/base/String.cpp: replace, setSubstring, find"]}
{"id": "C16", "title": "Case conversion changes letters only and preserves length", "statement": "toLowerCase/toUpperCase preserve length, map every ASCII letter to its lower/upper form, leave other characters alone, and are idempotent.", "quantifier": "all strings", "why_tests_cant": "Universal; the loop counter is 16 bit so long strings matter.", "anchors": ["src/base/String.cpp: toLowerCase, toUpperCase"]}
{"id": "C17", "title": "Unescape inverts escaping", "statement": "Escaping newline, tab, quotes and backslash in any text and then reading it back as a string literal gives the original text.", "quantifier": "all strings", "why_tests_cant": "Sequences of adjacent backslashes form an infinite family.", "anchors": ["src/base/String.cpp: unescape"]}
{"id": "C18", "title": "insertAt/eraseAt on strings are splice operations with bounds checks", "statement": "Inserting or erasing at position p of a string yields exactly the spliced string when 0<=p<length and an error, with the string unchanged, otherwise.", "quantifier": "all strings, positions, inserted texts", "why_tests_cant": "All positions and lengths, allocation slot boundaries.", "anchors": ["src/base/String.cpp: insert, erase"]}
{"id": "C19", "title": "Integer text round-trip", "statement": "Printing any integer in plain format and parsing the text back gives the same integer.", "quantifier": "all 64-bit integers", "why_tests_cant": "2^64 inputs.", "anchors": ["src/base/Integer.cpp: parse, toString, isInteger"]}
{"id": "C20", "title": "Integer literals denote their positional value", "statement": "A decimal, hexadecimal (0x...) or binary (...b) literal accepted by the parser evaluates to its positional value, and malformed digit strings are rejected.", "quantifier": "all digit strings", "why_tests_cant": "Infinite input space.", "anchors": ["src/base/Integer.cpp: isInteger, isBinary, isHexa, parse"]}
{"id": "C21", "title": "Calendar: leap years and month lengths", "statement": "A DateTime is accepted exactly when its fields denote a real date and time of the Gregorian calendar (month 1-12, day within that month taking leap years into account, hour, minute, second in range).", "quantifier": "all integer field combinations", "why_tests_cant": "Six-dimensional integer space.", "anchors": ["src/base/DateTime.cpp: DateTime ctor, isLeapYear"]}
{"id": "C22", "title": "addMonths lands on a valid calendar date", "statement": "Adding any number of months (positive or negative) to a valid date gives the date that many months away, with month in 1..12.", "quantifier": "all valid dates, all integers n", "why_tests_cant": "Infinite.", "anchors": ["src/base/DateTime.cpp: addMonths, addYears"]}
{"id": "C23", "title": "TimeSpan comparisons agree with total duration", "statement": "For any two time spans, a<b, a==b, a>b as reported by the engine hold exactly when the total number of seconds compares so.", "quantifier": "all pairs of constructible time spans", "why_tests_cant": "Mixed-sign fields.", "anchors": ["src/base/TimeSpan.cpp"]}
{"id": "C24", "title": "Arithmetic operator typing and values", "statement": "For int/int operands +,-,* give the int result; if one operand is float the result is the float operation on the converted operands; `/` always yields a float; other primitive combinations are reported as errors, never silently computed.", "quantifier": "all pairs of primitive values whose int result fits 64 bits", "why_tests_cant": "2^128 operand pairs.", "anchors": ["src/vm/vm_operation.h: VM_OPERATION_ADD, VM_OPERATION_ARITHMETIC, VM_OPERATION_DIV"]}
{"id": "C25", "title": "Division or modulus by zero is always an error", "statement": "`a / b` and `a % b` report an error whenever b is numerically zero (int or float, either sign) and never when it is not, for numeric a.", "quantifier": "all numeric operand pairs", "why_tests_cant": "All operand types and bit patterns.", "anchors": ["src/vm/vm_operation.h: VM_OPERATION_DIV, VM_OPERATION_MOD", "src/compiler/compiler_expression_optimize.cpp"]}
{"id": "C26", "title": "Inequality is the negation of equality", "statement": "For every pair of primitive values on which both are defined, `a != b` is true exactly when `a == b` is false.", "quantifier": "all pairs of values", "why_tests_cant": "All type pairs and payloads.", "anchors": ["src/vm/vm_operation.h: VM_OPERATION_COMPARE"]}
{"id": "C27", "title": "Equality is symmetric and reflexive", "statement": "For every value a other than a float NaN, `a == a` is true; `a == b` and `b == a` always agree.", "quantifier": "all values", "why_tests_cant": "Type-pair case analysis with payloads.", "anchors": ["src/vm/vm_operation.h: VM_OPERATION_COMPARE", "src/vm/vm_script_function.cpp: vm_push_stk_boolean_equal_strings"]}
{"id": "C28", "title": "Ordering on integers and strings is a total order consistent with equality", "statement": "On integers, and on strings, exactly one of a<b, a==b, a>b holds; <= and >= are the corresponding unions; < is transitive.", "quantifier": "all pairs/triples", "why_tests_cant": "Infinite.", "anchors": ["src/vm/vm_operation.h: VM_OPERATION_COMPARE"]}
{"id": "C29", "title": "Compound assignment equals the spelled-out assignment", "statement": "`x op= e` leaves in x exactly the value that `x = x op e` would, for every arithmetic and bitwise op, and fails exactly when it fails.", "quantifier": "all operators, all pairs of primitive values", "why_tests_cant": "All type pairs × payloads; bit reinterpretation.", "anchors": ["src/vm/vm_operation_assign.h", "src/vm/vm_operation.h"]}
{"id": "C30", "title": "Pre/post increment and decrement", "statement": "`x++` yields the old value and `++x` the new one; both leave x one larger; same for --; any non-numeric x is an error that leaves x unchanged.", "quantifier": "all values", "why_tests_cant": "All payloads.", "anchors": ["src/vm/vm_operation.h: VM_OPERATION_POST, VM_OPERATION_PRE"]}
{"id": "C31", "title": "Operator priority and associativity", "statement": "For every expression of binary operators over operands, the compiled bytecode computes the value obtained by grouping operators according to the documented priority table, left-associatively inside a priority level.", "quantifier": "all expressions (unbounded length and operators), all operand values", "why_tests_cant": "Unbounded expressions.", "anchors": ["src/compiler/compiler_operator.h", "src/compiler/compiler_expression_byte_code.cpp: compiler_expression_tokens_to_byte_code_recursive"]}
{"id": "C32", "title": "Parentheses override priority", "statement": "A parenthesised sub-expression is evaluated as a unit, and the enclosing expression sees only its value.", "quantifier": "all expressions with nested parentheses", "why_tests_cant": "Unbounded nesting.", "anchors": ["src/compiler/compiler_expression_token_symbol.cpp", "src/compiler/compiler_expression.cpp"]}
{"id": "C33", "title": "Logical operators short-circuit", "statement": "`a && b` evaluates b only if a is true, `a || b` only if a is false; any mix of &&, || and comparison operators yields the value of the usual boolean semantics, and the operands evaluated (with their side effects) are exactly those required by short-circuiting.", "quantifier": "all mixed logical expressions, all operand outcomes", "why_tests_cant": "Jump patching depends on global shape of the expression.", "anchors": ["src/compiler/compiler_expression_byte_code.cpp"]}
{"id": "C34", "title": "Ternary operator evaluates exactly one branch", "statement": "`c ? a : b` yields a when c is true and b when c is false, evaluates only the chosen branch, also when nested.", "quantifier": "all nested ternaries", "why_tests_cant": "Unbounded nesting.", "anchors": ["src/compiler/compiler_expression_byte_code.cpp: 445-526"]}
{"id": "C35", "title": "Constant folding does not change results", "statement": "Folding an operator applied to two literal constants at compile time gives the same value (or error) as executing it at run time.", "quantifier": "all operators, all constant pairs", "why_tests_cant": "All type pairs × payloads.", "anchors": ["src/compiler/compiler_expression_optimize.cpp"]}
{"id": "C36", "title": "Register-immediate optimisation does not change results", "statement": "Replacing load/load/operate sequences with the fused instruction never changes the value computed by a program.", "quantifier": "all expressions", "why_tests_cant": "Interacts with jumps inside operands.", "anchors": ["src/compiler/compiler_expression_optimize.cpp", "src/vm/vm_iload.cpp"]}
{"id": "C37", "title": "Assignment chains and multiple assignment are simultaneous", "statement": "`a=b=e` assigns e's value to both, right to left; `x1,..,xn = e1,..,em` evaluates all right-hand sides before storing any, missing values are undefined, so `i,j=j,i` swaps.", "quantifier": "all n, m, all targets and values", "why_tests_cant": "Unbounded arity; aliasing.", "anchors": ["src/compiler/compiler_expression.cpp", "src/vm/vm_store.cpp"]}
{"id": "C38", "title": "Statically computed stack requirement is sufficient", "statement": "During execution of any compiled expression/statement sequence the operand stack never grows beyond the slot count computed for the function at compile time, so the one check at function entry prevents any overflow.", "quantifier": "all compiled functions, all executions", "why_tests_cant": "Every path through jumps.", "anchors": ["src/compiler/compiler.cpp: 543-754", "src/core/Instruction.cpp: instruction_num_required_stack", "src/vm/vm_script_function.cpp"]}
{"id": "C39", "title": "if / else-if / else executes exactly the first true branch", "statement": "An if/else-if/else chain of any length executes the block of the first condition that is true (else block if none), evaluates no later condition, and continues after the chain.", "quantifier": "all chains, nested arbitrarily", "why_tests_cant": "Jump offsets depend on block sizes.", "anchors": ["src/compiler/compiler_keyword_conditional.cpp"]}
{"id": "C40", "title": "Loops implement their textbook semantics", "statement": "while, do-while and for loops compiled to bytecode execute exactly the iterations given by their textbook semantics, including nested loops, for every body.", "quantifier": "all loop programs, all states", "why_tests_cant": "Unbounded iterations and nesting; offsets relative to inserted scope instructions.", "anchors": ["src/compiler/compiler_keyword_loop.cpp"]}
{"id": "C41", "title": "break and continue target the innermost enclosing loop", "statement": "break leaves exactly the innermost loop (or switch); continue goes to the innermost loop's next iteration (its post step for `for`).", "quantifier": "all nestings", "why_tests_cant": "Jump patch correctness for arbitrary bodies.", "anchors": ["src/compiler/compiler_keyword_loop.cpp: link_loop_break_continues"]}
{"id": "C42", "title": "switch selects the matching case, falls through and honours break/default", "statement": "switch(e) jumps to the first case label equal to e, or to default, or past the switch; execution falls through following cases until break.", "quantifier": "all switch statements, all values", "why_tests_cant": "Offsets for arbitrary bodies/number of cases.", "anchors": ["src/compiler/compiler_keyword_conditional.cpp: 168-481"]}
{"id": "C43", "title": "Scopes are pushed and popped in balance on every path", "statement": "On every path, including break and continue, leaving a block or loop restores the scope depth that was current on entry.", "quantifier": "all programs, all paths", "why_tests_cant": "All paths.", "anchors": ["src/compiler/compiler.cpp: compiler_check_scope", "src/compiler/compiler_keyword_loop.cpp"]}
{"id": "C44", "title": "Argument binding", "statement": "Calling a script function binds the i-th argument to the i-th parameter; extra arguments are ignored, missing ones take their default or undefined; a rest parameter receives exactly the remaining arguments in order.", "quantifier": "all arities, argument lists", "why_tests_cant": "Unbounded arity combinations.", "anchors": ["src/vm/vm_call.cpp"]}
{"id": "C45", "title": "Multiple return values are padded or truncated", "statement": "A call whose function returns r values in a context expecting n delivers the first min(r,n) values in order and undefined for the rest, leaving the caller's stack otherwise intact.", "quantifier": "all r, n", "why_tests_cant": "Unbounded.", "anchors": ["src/vm/vm_call.cpp", "src/vm/vm_script_function.cpp: RET"]}
{"id": "C46", "title": "Parameter and return counts survive instruction encoding", "statement": "Packing the number of arguments and the number of expected results of a call in one instruction byte and unpacking them yields the original numbers.", "quantifier": "all counts", "why_tests_cant": "Range boundary.", "anchors": ["src/core/Instruction.h: macros 41-59"]}
{"id": "C47", "title": "Runaway recursion is stopped with an error", "statement": "No program can nest script calls deeper than the configured maximum: the attempt produces a script error rather than overrunning the call or value stack.", "quantifier": "all programs", "why_tests_cant": "All programs and histories.", "anchors": ["src/vm/vm_script_function.cpp: 43-100"]}
{"id": "C48", "title": "Reference counting frees an object exactly once and never while referenced", "statement": "For every history of creating, sharing, unsharing and leaving scopes, an object is deleted only when no reference to it is left and at most once.", "quantifier": "all histories of share operations", "why_tests_cant": "All interleavings of scopes and references.", "anchors": ["src/vm/vm_share_manager.cpp"]}
{"id": "C49", "title": "The reference count equals the number of references", "statement": "At every point, the share count of a live object equals shares minus unshares; it never silently wraps.", "quantifier": "all histories", "why_tests_cant": "Needs 65536 references.", "anchors": ["src/vm/vm_share_manager.cpp: vm_share_object"]}
{"id": "C50", "title": "Leaving a scope releases every unreferenced object created in it", "statement": "After a scope ends, no object of that scope's unreferenced list survives except those being returned.", "quantifier": "all histories", "why_tests_cant": "All list shapes.", "anchors": ["src/vm/vm_share_manager.cpp: vm_remove_empty_shared_pointers"]}
{"id": "C51", "title": "Array erase/insert validate the index", "statement": "eraseAt(i)/insertAt(i,x) on script arrays with i outside the array report an error and leave the array intact (no memory is freed).", "quantifier": "all arrays reachable by any history, all indices", "why_tests_cant": "Depends on stale capacity slots.", "anchors": ["src/core/object/ArrayScriptObject.cpp: eraseElementAt", "src/core/object/ArrayScriptObjectZs.cpp"]}
{"id": "C52", "title": "Array concatenation and contains", "statement": "concat yields the elements of both arrays in order leaving operands unchanged; extend by itself terminates; contains(x) is true iff some element equals x for ints, bools and strings.", "quantifier": "all arrays", "why_tests_cant": "Unbounded; aliasing.", "anchors": ["src/core/object/ArrayScriptObject.cpp: concat", "src/core/object/ArrayScriptObjectZs.cpp: contains, extend"]}
{"id": "C53", "title": "Array equality is element-wise equality", "statement": "Two arrays compare equal iff they have equal length and pairwise equal elements under the language's == on primitives.", "quantifier": "all arrays of primitives", "why_tests_cant": "Unbounded.", "anchors": ["src/core/object/ArrayScriptObjectZs.cpp: ArrayScriptObjectZs_equal"]}
{"id": "C54", "title": "Object concatenation overrides left to right", "statement": "o1+o2 contains exactly the keys of both; for keys in both the value of o2 wins; key order is o1's keys then o2's new keys.", "quantifier": "all objects", "why_tests_cant": "Unbounded key sets.", "anchors": ["src/core/object/ObjectScriptObject.cpp: concat"]}
{"id": "C55", "title": "for-in visits each element exactly once in order", "statement": "Iterating an array, string or object with for-in visits each element exactly once in index/insertion order when the body does not modify the container.", "quantifier": "all containers, all bodies not modifying it", "why_tests_cant": "Unbounded.", "anchors": ["src/core/object/ArrayIteratorScriptObject.cpp", "src/core/object/ObjectIteratorScriptObject.cpp", "src/core/object/StringIteratorScriptObject.cpp", "src/compiler/compiler_keyword_loop.cpp: 443-666"]}
{"id": "C56", "title": "JSON serialise/deserialise round-trip", "statement": "Deserialising the serialisation of any value built from bools, numbers, strings, arrays and objects yields an equal value.", "quantifier": "all JSON-like values", "why_tests_cant": "Infinite nesting and string contents.", "anchors": ["src/module/JsonSerializeModule.cpp", "src/module/JsonDeserializeModule.cpp"]}
{"id": "C57", "title": "JSON parsing is total", "statement": "Parsing any text either returns a value or reports an error, and never reads beyond the end of the text.", "quantifier": "all strings", "why_tests_cant": "Infinite.", "anchors": ["src/module/JsonDeserializeModule.cpp"]}
{"id": "C58", "title": "instanceof is the reflexive-transitive inheritance relation", "statement": "x instanceof T holds iff T is the type of x or one of its ancestors; the check always terminates.", "quantifier": "all registration histories, all types", "why_tests_cant": "All hierarchies.", "anchors": ["src/core/type/ScriptTypesFactory.cpp: scriptTypeInheritsFrom", "src/core/type/ScriptType.cpp: extendsFrom"]}
{"id": "C59", "title": "Failed type registration leaves the registry unchanged", "statement": "If declaring a type fails (duplicate or unknown base), no type is added.", "quantifier": "all registries, names", "why_tests_cant": "Error path/history.", "anchors": ["src/core/type/ScriptTypesFactory.cpp: registerType"]}
{"id": "C60", "title": "Name resolution finds the innermost visible declaration", "statement": "A name used in a block refers to the declaration in the nearest enclosing block of the same function; a second declaration of a visible name in the same block is rejected.", "quantifier": "all scope trees", "why_tests_cant": "Unbounded nesting.", "anchors": ["src/core/scope/ScriptScope.cpp: getSymbol, checkPreRegisterSymbol"]}
{"id": "C61", "title": "Local variable renumbering is a consistent bijection", "statement": "The compile-time reordering of local variables assigns distinct slots in 0..n-1 to distinct variables, keeps parameters in place, and renumbers every instruction operand consistently, so behaviour is unchanged.", "quantifier": "all functions", "why_tests_cant": "All scope trees.", "anchors": ["src/compiler/compiler.cpp: 543-754"]}
{"id": "C62", "title": "Comments and blanks are insignificant", "statement": "Skipping blanks and comments stops exactly at the first significant character, counts every newline crossed, and an unterminated block comment is an error.", "quantifier": "all source texts", "why_tests_cant": "Infinite.", "anchors": ["src/compiler/compiler_data.cpp: ignore_blanks, end_block_comment"]}
{"id": "C63", "title": "Operator tokens are recognised by longest match", "statement": "At any position the operator recognised is the longest operator of the language that is a prefix of the remaining text.", "quantifier": "all source texts", "why_tests_cant": "All suffixes.", "anchors": ["src/compiler/compiler_data.cpp: is_operator"]}
{"id": "C64", "title": "String format substitutes placeholders", "statement": "String::format replaces {i} by the i-th argument's text, honours padding, and leaves other text unchanged.", "quantifier": "all format strings and arguments", "why_tests_cant": "Infinite.", "anchors": ["src/core/object/StringScriptObject.cpp: format"]}
{"id": "C65", "title": "A bulk insertion that fails leaves the vector usable", "statement": "If inserting many elements into a Vector at once is refused because the maximum size is exceeded, the vector keeps its previous contents and can still be used.", "quantifier": "all vectors and all insertion counts whose sum exceeds the maximum", "why_tests_cant": "The state after the exception depends on capacity history; a test sees one length.", "anchors": ["/repo/src/base/Vector.tcc: insert(int,const Vector&)"]}
{"id": "C66", "title": "Detaching all nodes of a list empties it and terminates", "statement": "Detaching every node of a list with a callback leaves it empty after exactly as many steps as there are nodes; destroying a list terminates.", "quantifier": "all reachable lists", "why_tests_cant": "Termination on every reachable ring shape is not a finite test.", "anchors": ["/repo/src/base/List.tcc: dettachAllNodes", "/repo/src/base/List.tcc: ~List"]}
{"id": "C67", "title": "Any history of string mutators behaves like the same history on a character sequence", "statement": "For any sequence of assignments, appends, insertions, erasures, sub-range replacements, element writes and clears on one string, the resulting text and length are those of the same edits on a plain character sequence, each call is refused exactly when its position is out of range, and appending a string to itself doubles it.", "quantifier": "all histories of mutator calls with non-NUL characters", "why_tests_cant": "The interaction of reallocation, stored count and NUL terminator depends on the whole history; tests sample a few short ones.", "anchors": ["src/base/String.cpp: inc_slots, append, insert, erase, setSubstring, operator[], clear"]}
{"id": "C68", "title": "findLastOf returns the last position holding a character of the set", "statement": "findLastOf(set) returns the greatest position whose character belongs to the set, and -1 exactly when there is none.", "quantifier": "all strings and all character sets", "why_tests_cant": "Unbounded strings and sets; the empty string is a corner rarely tested.", "anchors": ["src/base/String.cpp: findLastOf"]}
{"id": "C69", "title": "The \"d<k>\" integer format pads with zeros and keeps the value", "statement": "Formatting a non-negative integer with \"d\" followed by a decimal width k gives its decimal digits preceded by zeros up to k characters, never truncates, and reading the text back gives the integer.", "quantifier": "all integers in the exact range of toString, all widths", "why_tests_cant": "Unbounded pairs of number and width.", "anchors": ["src/base/Integer.cpp: toString", "src/ScriptEngine.cpp: stackElementToString"]}
{"id": "C70", "title": "The difference of two dates is the elapsed time", "statement": "For any two dates, the time span a - b totals exactly the number of seconds from b to a.", "quantifier": "all pairs of valid dates", "why_tests_cant": "Depends on the relation of the times of day in both directions.", "anchors": ["src/base/DateTime.cpp: operator-", "src/base/TimeSpan.cpp"]}
{"id": "C71", "title": "Adding days, hours, minutes and seconds moves along the calendar", "statement": "addDays(n) gives the date n calendar days away at the same time of day, addHours/addMinutes/addSeconds move the instant by exactly that amount, for negative n too.", "quantifier": "all valid dates, all integers n", "why_tests_cant": "Leap years, month and century boundaries, large and negative n.", "anchors": ["src/base/DateTime.cpp: addDays, addHours, addMinutes, addSeconds"]}
{"id": "C72", "title": "Parsing the printed form of a date gives the date back", "statement": "parse(\"yyyy-MM-dd HH:mm:ss\", d.toString()) equals d.", "quantifier": "all valid dates", "why_tests_cant": "Unbounded set of dates; column positions depend on the number of digits.", "anchors": ["src/base/DateTime.cpp: parse, _parseIntValue, toString"]}
{"id": "C73", "title": "Formatted dates show the requested fields", "statement": "toString(format) replaces every run of a field letter by that field and keeps all other characters, so a format with MM shows the month.", "quantifier": "all dates, all formats", "why_tests_cant": "Formats are arbitrary strings.", "anchors": ["src/base/DateTime.cpp: toString(format)"]}
{"id": "C74", "title": "Comparing dates is comparing their fields from year to second", "statement": "The six comparison operators on valid dates agree with the lexicographic order of year, month, day, hour, minute, second, and == holds only for equal fields.", "quantifier": "all pairs of valid dates", "why_tests_cant": "Infinite pairs.", "anchors": ["src/base/DateTime.cpp: operator<, operator==, ..."]}
{"id": "C75", "title": "Integer division and modulus are exact", "statement": "For integers a and b (b not 0), `a % b` is the integer remainder with the sign of a, `a / b` is the exact quotient when b divides a, and comparing the remainder with an integer k is true exactly when the remainder is k.", "quantifier": "all integer pairs", "why_tests_cant": "The operands go through doubles; precision loss only shows for large operands.", "anchors": ["src/vm/vm_operation.h:59", "src/vm/vm_operation.h:226"]}
{"id": "C76", "title": "A string plus a value joins their texts", "statement": "`s + v` and `v + s` give a new string made of the two texts in order, for a string s and any primitive value or string v.", "quantifier": "all strings and values", "why_tests_cant": "All pairs of values and heaps.", "anchors": ["src/core/object/StringScriptObject.cpp:27", "src/vm/vm_call_metamethod.cpp:6"]}
{"id": "C77", "title": "Constants never change", "statement": "After `const x=e` no assignment, compound assignment or increment changes x, and a variable assigned from a constant is an ordinary variable.", "quantifier": "all values and operators", "why_tests_cant": "Every operator has its own write path; the read-only flag must be honoured by all.", "anchors": ["src/vm/vm_store.cpp:63", "src/vm/vm_operation_assign.h:19", "src/vm/vm_operation.h:291"]}
{"id": "C78", "title": "Floats that are not NaN are totally preordered", "statement": "For floats other than NaN exactly one of <, ==, > holds, <= and >= are the unions, < is transitive, a<b iff b>a; if one is NaN only != is true.", "quantifier": "all pairs/triples of doubles", "why_tests_cant": "2^128 pairs.", "anchors": ["src/vm/vm_operation.h:157"]}
{"id": "C79", "title": "Addition and multiplication of numbers commute", "statement": "a+b equals b+a and a*b equals b*a for all ints and floats in any mix.", "quantifier": "all numeric pairs", "why_tests_cant": "2^128 pairs per type combination.", "anchors": ["src/vm/vm_operation.h:99", "src/vm/vm_operation.h:128"]}
{"id": "C80", "title": "Inserting the first n elements of another vector", "statement": "Vector::insert(pos, src, n) refuses an n larger than the source and otherwise leaves the vector holding the old elements with the first n elements of src inserted at pos, its length grown by n.", "quantifier": "all vectors, sources, positions and counts", "why_tests_cant": "The length is wrong only when n is smaller than the source, which no caller in the tests does.", "anchors": ["src/base/Vector.tcc: 183-246"]}
{"id": "C81", "title": "TimeSpan totals are the duration", "statement": "getTotalHours, getTotalMinutes and getTotalSeconds return the duration of the span in that unit for every span that can be constructed.", "quantifier": "all constructible spans", "why_tests_cant": "Overflow appears only for spans of more than 24855 days.", "anchors": ["src/base/TimeSpan.cpp: 55-68"]}
{"id": "C82", "title": "The delete statement is safe", "statement": "Executing delete on a variable releases its reference exactly once and touches no freed memory, whatever else refers to the object.", "quantifier": "all histories, all objects", "why_tests_cant": "The use after free is silent unless the allocator reuses the memory.", "anchors": ["src/vm/vm_script_function.cpp: 899-932 vm_delete_object"]}
{"id": "C83", "title": "Keywords are recognised wherever they stand as words", "statement": "A keyword is recognised at a position exactly when its spelling stands there and the next character cannot belong to an identifier.", "quantifier": "all source texts, all keywords", "why_tests_cant": "Every keyword with every following character.", "anchors": ["src/compiler/compiler_data.cpp: 513-533 compiler_is_keyword", "src/compiler/compiler_data.cpp: 496-511 is_special_char"]}
{"id": "C84", "title": "The scanner reads only inside the source text", "statement": "Whatever the source text, reading blanks, operators, keywords, numbers, strings and words touches no byte beyond the terminating zero, and ends.", "quantifier": "all source texts", "why_tests_cant": "Reading one byte beyond the terminator goes unnoticed.", "anchors": ["src/compiler/compiler_symbol.cpp: 97-107", "src/compiler/compiler_expression_token_symbol.cpp: 78-204", "src/compiler/compiler_expression.cpp: 131"]}
{"id": "C85", "title": "Numeric literals are exactly those of the grammar", "statement": "The scanner accepts as a number exactly: digits with an optional fraction, the fraction optionally followed by an exponent with an optional sign; 0x and hexadecimal digits; binary digits and a b; followed by a blank, separator, bracket, operator, quote or the end of the text. The literal's text is the matched text.", "quantifier": "all source texts", "why_tests_cant": "An infinite language.", "anchors": ["src/compiler/compiler_data.cpp: 632-773 parse_literal_number"]}
{"id": "C86", "title": "A string literal ends at its first unescaped quote", "statement": "A string literal is read up to the first quote that is not escaped, where a backslash escapes the character after it, also another backslash; a string without such a quote on its line is an error.", "quantifier": "all source texts", "why_tests_cant": "All combinations of escapes.", "anchors": ["src/compiler/compiler_symbol.cpp: 81-94", "src/core/object/StringScriptObject.cpp: 302"]}
{"id": "C87", "title": "Identifiers consist of letters, digits and underscores", "statement": "A name accepted in a declaration or an expression starts with a letter or an underscore, contains only letters, digits and underscores, and is no reserved word.", "quantifier": "all source texts", "why_tests_cant": "All names.", "anchors": ["src/compiler/compiler_data.cpp: 588-630 check_identifier_name_expression_ok", "src/compiler/compiler_data.cpp: 775-803 get_name_identifier_token"]}
{"id": "C88", "title": "Script arrays behave as sequences", "statement": "After any history of creating arrays, pushing, popping, reading, writing, inserting, erasing, clearing, extending and concatenating with valid indices, every array shows exactly the elements of the corresponding sequence, and arrays do not influence each other.", "quantifier": "all histories of operations on any number of arrays with up to 1999984 elements", "why_tests_cant": "Unbounded histories; elements are separate memory blocks that could be shared or freed.", "anchors": ["src/core/object/ArrayScriptObject.cpp: 44-131", "src/core/object/ArrayScriptObjectZs.cpp: 10-80"]}
{"id": "C89", "title": "The element returned by pop can be used", "statement": "The element removed and returned by the array's pop is alive until the caller has used it.", "quantifier": "all arrays and objects reachable by any history of sharing and releasing", "why_tests_cant": "A use after free is often invisible.", "anchors": ["src/core/object/ArrayScriptObject.cpp: 113-124 pop", "src/vm/vm_share_manager.cpp: 98-132"]}
{"id": "C90", "title": "Script objects behave as insertion-ordered finite maps", "statement": "After any history of creating objects, writing, reading, testing, erasing and listing fields, clearing, extending and adding objects, every object shows exactly the fields of the corresponding insertion-ordered finite map, a missing field reads as undefined, objects do not influence each other, and what a field holds is alive.", "quantifier": "all histories of operations on any number of objects with up to 999984 fields, all names and values", "why_tests_cant": "Unbounded histories over hashed or sorted tables of separately allocated slots.", "anchors": ["src/core/object/ObjectScriptObject.cpp: 35-160", "src/core/object/ObjectScriptObjectZs.cpp: 10-120"]}
{"id": "C91", "title": "A method call runs the nearest declaration up the class chain", "statement": "Calling o.m() runs the declaration of m in the class of o or else in the nearest class it extends, whichever objects the same call was made on before; this.m() does the same for the object it runs on, and super() runs the nearest declaration of the extended class.", "quantifier": "all declaration histories, all classes, all sequences of objects at a call site", "why_tests_cant": "Arbitrary hierarchies and call histories.", "anchors": ["src/core/type/ScriptType.cpp: 713-732", "src/vm/vm_container.cpp: 88-147", "src/vm/vm_call.cpp: 119-162", "src/compiler/compiler.cpp: 594-640"]}
{"id": "C92", "title": "A member declared twice in a class is reported", "statement": "Declaring a variable, constant or function of a class whose name is already taken by a member of the class is a compile error that leaves the class unchanged.", "quantifier": "all declaration histories, all names", "why_tests_cant": "Depends on every earlier declaration.", "anchors": ["src/core/type/ScriptType.cpp: 149-169, 310-382", "src/core/function/ScriptFunctionsFactory.cpp: 20-82"]}
{"id": "C93", "title": "A name is free again after its block", "statement": "A variable declared in a block that has ended does not prevent a declaration of the same name where it is not visible.", "quantifier": "all scripts, all names", "why_tests_cant": "Depends on every block of the function.", "anchors": ["src/core/scope/ScriptScope.cpp: 145-173, 246-303", "src/core/function/ScriptFunction.cpp: 582-612"]}
{"id": "C94", "title": "Instructions refer to symbols that exist", "statement": "After every compilation the symbols that instructions hold pointers to have not been deleted.", "quantifier": "all sequences of scripts", "why_tests_cant": "Use after free; arbitrary nesting of blocks and functions.", "anchors": ["src/compiler/compiler.cpp: 161-181", "src/core/scope/ScriptScopesFactory.cpp: 33-59", "src/core/scope/ScriptScope.cpp: 67-139"]}
{"id": "C95", "title": "Functions that can be named have code", "statement": "After any sequence of scripts, accepted or not, every function a script can refer to has instructions.", "quantifier": "all sequences of scripts", "why_tests_cant": "Depends on where an earlier script failed.", "anchors": ["src/core/function/ScriptFunction.cpp: 614-700", "src/compiler/compiler.cpp: 62-134, 513-765", "src/vm/vm_call.cpp: 436"]}
{"id": "C96", "title": "A rejected script leaves no declarations", "statement": "After a script is rejected the names that can be used and declared are those from before it.", "quantifier": "all sequences of scripts", "why_tests_cant": "Arbitrary histories.", "anchors": ["src/compiler/compiler.cpp: 62-134", "src/core/function/ScriptFunction.cpp: 758-770"]}
{"id": "C97", "title": "JSON minimized parameter", "statement": "JSON::serialize(v,true) (the parameter is named minimized) writes a text without newlines.", "quantifier": "all values whose strings have no newline", "why_tests_cant": "Infinite values; the tests only read the text back.", "anchors": ["src/module/JsonModule.cpp:40-50", "src/module/JsonSerializeModule.cpp:54-204"]}
{"id": "C98", "title": "JSON reading ends", "statement": "JSON::deserialize on any string returns, reports an error or leaves its buffers; it never runs forever.", "quantifier": "all strings", "why_tests_cant": "Infinite; an endless loop cannot be observed.", "anchors": ["src/module/JsonDeserializeModule.cpp"]}
{"id": "C99", "title": "JSON reading accepts the grammar", "statement": "Every text of the JSON grammar (with comments, blanks and trailing commas; numbers in words below 1024 bytes) without backslash is read by JSON::deserialize as the value it stands for, whatever follows it.", "quantifier": "all texts of the grammar, any nesting", "why_tests_cant": "Infinite nesting and layout.", "anchors": ["src/module/JsonDeserializeModule.cpp"]}
{"id": "C100", "title": "A parameter passed by value is the function's own", "statement": "Assigning to a parameter declared without ref does not change any variable of the caller, however deep the calls are nested.", "quantifier": "all functions, arguments and states", "why_tests_cant": "All programs; strings are heap objects shared by address.", "anchors": ["src/vm/vm_call.cpp:288", "src/vm/vm_store.cpp:208"]}
{"id": "C101", "title": "Assignment copies strings", "statement": "`a=b` makes the value of a equal to that of b and changes no other variable; later assignments to one do not change the other.", "quantifier": "all programs and values", "why_tests_cant": "Aliasing needs all histories.", "anchors": ["src/vm/vm_store.cpp:247", "src/core/object/StringScriptObject.cpp:301"]}
{"id": "C102", "title": "Reference parameters stand for the caller's variable", "statement": "Reading and assigning a ref parameter reads and assigns the variable passed; an argument that is no variable is an error.", "quantifier": "all variables, values and states", "why_tests_cant": "All states and aliasings of the arguments.", "anchors": ["src/vm/vm_call.cpp:307", "src/vm/vm_script_function.cpp:505", "doc/examples/language/function/function_parameter_by_reference.zs"]}
{"id": "C103", "title": "A call of a native function runs the overload for the types of its arguments", "statement": "When a native function is registered with several signatures, a call runs the one whose parameter types are the types of the arguments, whatever the order of registration; when none fits, the call is an error.", "quantifier": "all type tables, sets of overloads and arguments", "why_tests_cant": "Overload sets and registration orders are unbounded; the project's own example only prints values for which both overloads agree.", "anchors": ["src/vm/vm_native_function.cpp:62", "test/api/test_perf_warning_native_find.cpp:25"]}
{"id": "C104", "title": "A method call on an object runs a native function registered for the type of the object", "statement": "`o.f(args)` runs a native function named f registered for the type of o, on o, with as many parameters as arguments.", "quantifier": "all type tables, objects and sequences of calls made by one instruction", "why_tests_cant": "A call instruction keeps state between calls; the fault needs two calls with objects of different types.", "anchors": ["src/vm/vm_call.cpp:456", "src/core/type/ScriptType.cpp:370"]}
{"id": "C105", "title": "Which native function a call runs depends on the function and its arguments only", "statement": "The native function run by a call is the same whatever calls the same instruction made before.", "quantifier": "all sequences of calls of one instruction", "why_tests_cant": "Depends on the history of the instruction.", "anchors": ["src/vm/vm_call.cpp:480", "src/ScriptEngine.cpp:499"]}
{"id": "C106", "title": "A native function receives values of the types it declares", "statement": "Every value handed to a native function is of the C++ type declared for the parameter; other arguments are an error.", "quantifier": "all type tables, functions and arguments", "why_tests_cant": "All combinations of argument kinds, class hierarchies and parameters.", "anchors": ["src/ScriptEngine.cpp:616", "src/vm/vm_native_function.cpp:322"]}
{"id": "C107", "title": "No signature of a native function is registered twice", "statement": "Registering a native function with the name and parameter types of one already in the scope is an error, and is one only then.", "quantifier": "all sequences of registrations", "why_tests_cant": "All sequences of registrations.", "anchors": ["src/core/function/ScriptFunction.cpp:482"]}
{"id": "C108", "title": "Variables never come to share a string object", "statement": "Whatever assignments and calls of functions, with any mix of value and reference parameters, a program makes, distinct variables of a function keep distinct string objects.", "quantifier": "all programs of assignments and calls, all states", "why_tests_cant": "Aliasing needs all histories.", "anchors": ["src/vm/vm_store.cpp:247", "src/vm/vm_call.cpp:288"]}
{"id": "C109", "title": "Expressions of binary operators over variables follow the priority table", "statement": "The code of x1 op1 x2 op2 ... xn, for any variables and any binary operators but instanceof, computes the one tree that groups by the priority table and to the left inside a level.", "quantifier": "all expressions of any length, all behaviours of values, all states", "why_tests_cant": "Expressions are unbounded in length.", "anchors": ["src/compiler/compiler_expression.cpp", "src/compiler/compiler_operator.h"]}
{"id": "C110", "title": "Formulas of && and || over boolean variables have their truth value", "statement": "The code of x1 && x2 || ... xn over variables that hold booleans yields the truth value of the formula, where && binds stronger than ||.", "quantifier": "all formulas of any length and all assignments of truth values", "why_tests_cant": "All lengths and all assignments.", "anchors": ["src/compiler/compiler_expression.cpp", "src/vm/vm_script_function.cpp"]}
{"id": "C111", "title": "Parameters hold their arguments or defaults", "statement": "Calling a script function gives the i-th parameter (not a rest parameter) the value of the i-th argument (that is not a container slot reached through a reference), or for a reference parameter the variable named by it; without argument its default; other local variables are undefined. The call fails only when an argument for a reference parameter is no variable or a default fails.", "quantifier": "all parameter lists and arguments", "why_tests_cant": "All numbers and kinds of parameters and arguments.", "anchors": ["src/vm/vm_call.cpp:288"]}
{"id": "C112", "title": "Adding and extending arrays", "statement": "a+b is a new array with the elements of a then those of b, a.extend(b) appends the elements of b to a different array a, and no other array changes, up to the maximal size of arrays.", "quantifier": "all reachable states of arrays", "why_tests_cant": "All histories of arrays and lengths.", "anchors": ["src/core/object/ArrayScriptObject.cpp"]}
{"id": "C113", "title": "Every use of a name is resolved to its nearest declaration", "statement": "At every point of every script of a session in which no instruction refers to a function deleted with its block (C94), a name compiles to a load of the variable or function declared in the nearest enclosing block of the function or, failing that, globally; it is rejected exactly when there is none.", "quantifier": "all sessions of scripts, all points, all names", "why_tests_cant": "All nestings and sequences of declarations.", "anchors": ["src/core/scope/ScriptScope.cpp", "src/compiler/compiler_symbol.cpp"]}
{"id": "C114", "title": "Slots of variables", "statement": "The variables of every compiled function occupy the slots 0,1,2,... without gaps, the slots cleared at the end of a block are those of its variables, and a global variable keeps its slot for the rest of the session.", "quantifier": "all sessions of scripts", "why_tests_cant": "All nestings of blocks and sequences of scripts.", "anchors": ["src/compiler/compiler.cpp", "src/core/function/ScriptFunction.cpp"]}
{"id": "C115", "title": "Time spans are totally ordered", "statement": "The comparison operators of TimeSpan form a strict total order with == as its equality; >, <=, >=, != are derived from < and == as usual.", "quantifier": "all time spans", "why_tests_cant": "All triples of spans.", "anchors": ["src/base/TimeSpan.cpp"]}
{"id": "C116", "title": "Operators, numbers and strings are read inside the text", "statement": "Reading an operator, a number or a string literal at any place of any text ends without touching a byte beyond the terminating zero.", "quantifier": "all texts", "why_tests_cant": "All texts.", "anchors": ["src/compiler/compiler_data.cpp:299"]}
{"id": "C117", "title": "Plain assignment never changes a constant", "statement": "`x = e` on a constant x is an error whatever e is, and assigning a constant number or boolean to a variable makes an ordinary variable.", "quantifier": "all constants, values and heaps", "why_tests_cant": "All values.", "anchors": ["src/vm/vm_store.cpp:16"]}
{"id": "C118", "title": "A program whose calls fit the stack runs iff it nests at most 100 calls", "statement": "For programs whose activations fit the value stack, a run ends without error when calls nest at most 100 deep, and stops with a script error when they nest deeper.", "quantifier": "all call trees", "why_tests_cant": "Unbounded call trees.", "anchors": ["src/vm/vm_script_function.cpp:60", "src/vm/vm.h"]}
{"id": "C119", "title": "The DateTime constructor accepts exactly the dates of the Gregorian calendar", "statement": "DateTime(y,m,d,h,mi,s) succeeds exactly when the fields denote a real date and time, and the getters then return the fields; with AM or PM the hour is 1 to 12 and read on the 24-hour clock; isLeapYear is the Gregorian rule.", "quantifier": "all ints, the year not within 1900 of the least int", "why_tests_cant": "All dates of 4 billion years.", "anchors": ["src/base/DateTime.cpp"]}
{"id": "C120", "title": "Histories of string edits are those of character sequences", "statement": "Any sequence of appends of other texts, insertions, erasures, replacements, element writes and clears on a string without NUL bytes gives the text of the same edits on a character sequence, and refuses exactly the positions the sequence refuses.", "quantifier": "all histories", "why_tests_cant": "Unbounded histories and growth of the buffer.", "anchors": ["src/base/String.cpp"]}
{"id": "C121", "title": "Objects of plain values are insertion-ordered maps", "statement": "Any history of creating objects, writing, reading, testing, erasing and listing fields, clearing, extending and adding objects with values that are no objects gives the answers of insertion-ordered finite maps.", "quantifier": "all histories, up to the maximal number of fields", "why_tests_cant": "Unbounded histories.", "anchors": ["src/core/object/ObjectScriptObject.cpp", "src/base/MapString.cpp"]}
{"id": "C122", "title": "Detaching all nodes of a list with a callback empties it", "statement": "After any history of insertions and removals, detaching with a callback that removes the node ends after one step per node and leaves the list empty.", "quantifier": "all histories", "why_tests_cant": "Unbounded lists.", "anchors": ["src/base/List.tcc"]}
{"id": "C123", "title": "Programs of assignments, literals and indexed accesses follow the reference semantics", "statement": "A program of assignments to variables, elements, fields and characters, with array and object literals and indexed reads on the right, leaves every variable and container with the value it has when strings are values and arrays and objects are references; where the semantics says error, the program stops with an error.", "quantifier": "all programs, all numbers of variables and containers, all nestings", "why_tests_cant": "All programs and all shapes of shared containers.", "anchors": ["src/vm/vm_container.cpp:387", "src/vm/vm_container.cpp:533", "src/vm/vm_store.cpp:205"]}
{"id": "C124", "title": "a[i] is element i, and an error for every other index", "statement": "Reading a[i] of an array gives the element at position i when i is an integer from 0 to the length minus one, and is an error for every other index.", "quantifier": "all arrays, all memories of programs, all 64 bit integer and floating point indices", "why_tests_cant": "All 64 bit indices and all numbers; the fault needs indices above 2^32.", "anchors": ["src/vm/vm_container.cpp:570"]}
{"id": "C125", "title": "s[i] is the character at i, and an error for every other index", "statement": "Reading s[i] of a string gives the character at position i when i is an integer from 0 to the length minus one, and is an error for every other index.", "quantifier": "all texts, memories of programs and indices", "why_tests_cant": "All texts and indices; reads behind a buffer go unnoticed in tests.", "anchors": ["src/vm/vm_container.cpp:632"]}
{"id": "C126", "title": "s[i]=c changes the character at i, and is an error for everything that is no character in the text", "statement": "Storing a character to s[i] replaces the character at i of that string and nothing else; a position outside the text or a value that is no character is an error.", "quantifier": "all texts, memories of programs, positions and values", "why_tests_cant": "All texts, positions and values; writes behind a buffer go unnoticed in tests.", "anchors": ["src/vm/vm_store.cpp:222", "src/vm/vm_container.cpp:638"]}
{"id": "C127", "title": "Evaluating an expression changes nothing; a literal is a new container", "statement": "Evaluating an expression of variables, constants, indexed reads and literals changes no variable, no container and no string that existed before; each evaluation of a literal gives a container that did not exist before.", "quantifier": "all memories that programs reach and all expressions", "why_tests_cant": "All memories, with any sharing of containers, and all nestings of literals.", "anchors": ["src/vm/vm_container.cpp:387", "src/vm/vm_container.cpp:533"]}
{"id": "C128", "title": "An assignment changes one variable, element, field or string", "statement": "An assignment leaves the value of every variable, element and field unchanged but for at most one; when the destination is a variable, it is that one.", "quantifier": "all memories that programs reach and all assignments", "why_tests_cant": "A string object shared by two variables would show only in some programs.", "anchors": ["src/vm/vm_store.cpp:205", "src/vm/vm_store.cpp:293"]}
{"id": "C129", "title": "Reading a property gives what its getter returned", "statement": "Reading o.p, or evaluating o.p op= v, where p is a property of a script class with a getter, gives the value the getter returned (undefined if it returns nothing) and leaves the rest of the stack as it was.", "quantifier": "all properties, getters, states of the objects and of the stack", "why_tests_cant": "All getter bodies and all states; the fault needs a getter with a local variable.", "anchors": ["src/vm/vm_container.cpp:245", "src/vm/vm_call.cpp:7", "src/vm/vm_call_metamethod.cpp:385"]}
{"id": "C130", "title": "o++ and its like give what the function of the class returned", "statement": "An increment or decrement of an object or property of a script class that defines it runs this function once and gives the value it returned.", "quantifier": "all functions, with any number of local variables, all objects and states", "why_tests_cant": "All function bodies and states.", "anchors": ["src/vm/vm_call_metamethod.cpp:409"]}
{"id": "C131", "title": "An operator is applied to the values of its two operands, the left one read first", "statement": "An operator instruction, whatever the form of its operands (stack, constant, local variable, member variable or property of this), is applied to the values of the two operands, the left one being evaluated first.", "quantifier": "all operators, operand forms, states and getters", "why_tests_cant": "All combinations of operand forms and getters with effects.", "anchors": ["src/vm/vm_pop_stk.h:39", "src/vm/vm_container.cpp:346"]}
{"id": "C132", "title": "A comparison function of a class receives the two operands in order", "statement": "A comparison with an object of a class that defines it as operator calls the function of the class with the left and the right operand and gives what it returned.", "quantifier": "all comparisons, operand forms, classes and states", "why_tests_cant": "All operand forms and classes; the fault needs an object variable compared with a constant.", "anchors": ["src/vm/vm_operation.h:205", "src/vm/vm_pop_stk.h:39"]}
{"id": "C133", "title": "Arithmetic and bit operator functions receive the two operands in order", "statement": "An arithmetic or bit operator with an object of a class that defines it calls the function of the class with the left and the right operand (at most one of them a property, with a getter without variables) and gives what it returned; the function is that of the operator.", "quantifier": "all operators, operand forms, classes and states", "why_tests_cant": "All operand forms and classes.", "anchors": ["src/vm/vm_call_metamethod.cpp:73"]}
{"id": "C134", "title": "An operator that the class of one of the operands defines is used", "statement": "a op b calls the operator function if the class of a or the class of b defines it.", "quantifier": "all operators, classes and states", "why_tests_cant": "All pairs of classes.", "anchors": ["src/vm/vm_call_metamethod.cpp:73"]}
{"id": "C135", "title": "A derived class answers the operators of its base unless it declares its own", "statement": "After class D extends B, every operator function found in D is the one D declares, or the one of B if D declares none; operators on objects of D call it with both operands.", "quantifier": "all base classes and declarations", "why_tests_cant": "All chains of classes and sets of operators.", "anchors": ["src/core/type/ScriptTypesFactory.cpp:461", "src/core/type/ScriptType.cpp:713"]}
{"id": "C136", "title": "A derived class answers the assignment and increment operators of its base", "statement": "If class B defines =, op= or ++ as functions, then on objects of class D extends B, which declares none, they call the functions of B.", "quantifier": "all base classes, declarations and states", "why_tests_cant": "All classes and declarations; tests of the base class pass.", "anchors": ["src/core/type/ScriptTypesFactory.cpp:461", "src/vm/vm_store.cpp:70"]}
{"id": "C137", "title": "A derived class has the properties of its base and those it declares, no others", "statement": "After class D extends B, the properties of D are those of B with the same functions and those D declares with the functions declared for them, each once and with the right number of parameters.", "quantifier": "all base classes and declarations", "why_tests_cant": "All chains of classes.", "anchors": ["src/core/type/ScriptTypesFactory.cpp:500", "src/compiler/compiler_keyword_class.cpp:383"]}
{"id": "C138", "title": "A derived class may redefine a property of its base", "statement": "class D extends B may declare a property that B has; objects of D then use the one of D.", "quantifier": "all base classes and declarations", "why_tests_cant": "All classes and properties.", "anchors": ["src/core/type/ScriptType.cpp:175"]}
{"id": "C139", "title": "A class declares each operator at most once, with the parameters it needs", "statement": "A class that is accepted declares each operator function at most once, static or not as the operator needs, with at least the parameters the operator needs.", "quantifier": "all classes and lists of declarations", "why_tests_cant": "All lists of declarations.", "anchors": ["src/core/type/ScriptType.cpp:325", "src/core/type/ScriptType.cpp:571"]}
{"id": "C140", "title": "The parameters of an operator function are its operands", "statement": "An operator function is run with its parameters holding the operands, and undefined for parameters it has in addition.", "quantifier": "all operators, functions, stacks and states", "why_tests_cant": "All former contents of the stack.", "anchors": ["src/core/type/ScriptType.cpp:571", "src/vm/vm_call_metamethod.cpp:108"]}
{"id": "C141", "title": "Assigning a property from inside the class is assigning it from outside", "statement": "this.p = v in a member function does what o.p = v does outside: it runs the setter of p once with v, and nothing else.", "quantifier": "all properties, values and states", "why_tests_cant": "All properties and getters with effects.", "anchors": ["src/vm/vm_container.cpp:31", "src/vm/vm_store.cpp:90"]}
{"id": "C142", "title": "An error in a setter stops the program", "statement": "When the function run by an assignment, compound assignment, increment, property read or operator ends with an error, no instruction after it is executed.", "quantifier": "all functions, states and programs", "why_tests_cant": "All programs after the error; the message is reported anyway.", "anchors": ["src/vm/vm_store.cpp:193", "src/vm/vm_call.cpp:47"]}
{"id": "C143", "title": "Storing containers in containers touches no freed memory", "statement": "No program of assignments of variables, literals, fields and elements between variables, fields and array elements reads or writes a container, an element or a slot that was destroyed, and none of the internal checks of the reference counts fires.", "quantifier": "all programs over integers, arrays and objects, all numbers of variables, all addresses", "why_tests_cant": "Whether a read hits freed memory depends on the whole history of stores; a test sees it only under an address checker.", "anchors": ["src/core/object/ContainerSlot.cpp:52", "src/vm/vm_store.cpp:288"]}
{"id": "C144", "title": "Programs that store containers in containers give the values a memory without destruction gives", "statement": "When a program finishes, every variable and every element of every container that exists has the value it would have if containers were never destroyed, and every container a variable leads to exists; a program ends with an error only if it would there, and does not finish if it would end with an error there.", "quantifier": "all programs over integers, arrays and objects, all addresses", "why_tests_cant": "All programs; sharing and cycles of any depth.", "anchors": ["src/vm/vm_container.cpp:160", "src/vm/vm_store.cpp:34"]}
{"id": "C145", "title": "The count of a container is the number of variables and elements that hold it", "statement": "At the end of a program the reference count of every container is the number of variables plus the number of elements of containers that hold it.", "quantifier": "all programs over integers, arrays and objects, all addresses", "why_tests_cant": "All histories of stores; counts are not visible to scripts.", "anchors": ["src/vm/vm.cpp:502", "src/vm/vm_share_manager.cpp:69"]}
{"id": "C146", "title": "What no variable leads to is destroyed", "statement": "When a program ends and the containers without references are removed, every container that still exists is held by a variable or by an element; if no container holds itself directly or indirectly, variables lead to it.", "quantifier": "all programs over integers, arrays and objects, all addresses", "why_tests_cant": "All programs; leaks are not visible to scripts.", "anchors": ["src/vm/vm_share_manager.cpp:163"]}
{"id": "C147", "title": "Clearing the engine destroys all containers", "statement": "ScriptEngine::clear destroys every container and every element the scripts have made.", "quantifier": "all programs over integers, arrays and objects, all addresses", "why_tests_cant": "All shapes of cycles; leaks are not visible to scripts.", "anchors": ["src/ScriptEngine.cpp:1131", "src/vm/vm.cpp:553"]}
{"id": "C148", "title": "Clearing the engine keeps saved variables as they are", "statement": "ScriptEngine::clear after saveState leaves the variables that were saved, and the contents of their containers, as they are.", "quantifier": "all programs over integers, arrays and objects, all numbers of saved variables, all addresses", "why_tests_cant": "All shapes of nested containers.", "anchors": ["src/ScriptEngine.cpp:1131", "src/vm/vm.cpp:553"]}
{"id": "C149", "title": "Each slot belongs to one element", "statement": "Every element that holds a container has a slot of its own that refers to a container that exists, and every slot belongs to an element.", "quantifier": "all programs over integers, arrays and objects, all addresses", "why_tests_cant": "All histories of stores; slots are not visible to scripts.", "anchors": ["src/core/object/ContainerSlot.cpp:10", "src/vm/vm_store.cpp:345"]}
{"id": "C150", "title": "System::eval gives the value its text returns", "statement": "When the text given to System::eval ends with return of one value, the call gives this value, takes one element of the caller's stack and leaves the elements below as they are.", "quantifier": "all programs of the statement language of C40, all states, all stacks, all numbers of arguments and fields", "why_tests_cant": "All programs; the project's test has one text, without variables.", "anchors": ["src/module/SystemModule.cpp:21", "src/vm/vm_call.cpp:536"]}
{"id": "C151", "title": "Several values returned by a text arrive in order", "statement": "a,b=System::eval(t) assigns what a,b=f() assigns if f has the body t: the first target the first value, targets without a value undefined.", "quantifier": "all programs of the statement language of C40, all states, all stacks, all numbers of arguments and fields", "why_tests_cant": "All numbers of values and targets.", "anchors": ["src/vm/vm_call.cpp:622", "src/vm/vm_script_function.cpp:360"]}
{"id": "C152", "title": "Evaluating an expression gives its value", "statement": "When the last statement of the text is an expression, System::eval gives the value of that expression.", "quantifier": "all programs of the statement language of C40, all states, all stacks, all numbers of arguments and fields", "why_tests_cant": "All expressions after all statements.", "anchors": ["src/module/SystemModule.cpp:133"]}
{"id": "C153", "title": "Evaluation leaves the variables of the caller alone", "statement": "System::eval changes no element of the caller's stack below the arguments of the call, whatever the text does.", "quantifier": "all programs of the statement language of C40, all states, all stacks, all numbers of arguments and fields", "why_tests_cant": "The lost elements depend on the numbers of fields and arguments and on the path the text takes.", "anchors": ["src/vm/vm_script_function.cpp:673", "src/vm/vm_call.cpp:536"]}
{"id": "C154", "title": "Making a text return its last value does not change what it does", "statement": "The code System::eval changes so that it returns the last value ends, fails or runs for ever like the code the compiler made, with the same effects, and returns the same values where that returned values.", "quantifier": "all instruction sequences, all states", "why_tests_cant": "All programs and executions, also endless ones.", "anchors": ["src/module/SystemModule.cpp:133"]}
{"id": "C155", "title": "System::eval runs the text it is given", "statement": "The program that is compiled is the text of the string, character by character.", "quantifier": "all strings", "why_tests_cant": "All strings; strings with escapes inside literals need two levels of quoting in a test.", "anchors": ["src/module/SystemModule.cpp:115", "src/base/String.cpp:409"]}
{"id": "C156", "title": "An expression is read as what is written", "statement": "Every text that consists of the tokens of an expression in their order, with blanks, line ends and comments wherever they may stand, is read as this expression and no other one, however blanks and comments are put, up to what follows it.", "quantifier": "all expressions and all their writings, all texts, all sets of declared names and types", "why_tests_cant": "All expressions of any size with all layouts.", "anchors": ["src/compiler/compiler_expression.cpp:24", "src/compiler/compiler_expression_token_symbol.cpp:58", "src/compiler/compiler_symbol.cpp:11"]}
{"id": "C157", "title": "Nothing is invented and nothing is left out", "statement": "If a text is read as an expression, the text that has been read consists of the tokens of that expression in their order with only blanks and comments between them, and what is left over follows right behind; if nothing is read, only blanks and comments are passed over.", "quantifier": "all texts without carriage returns of their own", "why_tests_cant": "All texts.", "anchors": ["src/compiler/compiler_expression.cpp:24"]}
{"id": "C158", "title": "Reading an expression ends and stays inside the text", "statement": "Reading ends for every text and reads no character beyond the terminator.", "quantifier": "all texts", "why_tests_cant": "All texts; a read beyond the terminator is usually not seen by a test.", "anchors": ["src/compiler/compiler_symbol.cpp:97", "src/compiler/compiler_expression.cpp:69"]}
{"id": "C159", "title": "No operand is missing", "statement": "An expression with brackets without an index or a conditional expression without its last operand is refused.", "quantifier": "all expressions and all their writings, all texts, all sets of declared names and types", "why_tests_cant": "All names, conditions and layouts.", "anchors": ["src/compiler/compiler_expression.cpp:51", "src/compiler/compiler_expression_byte_code.cpp:431"]}
{"id": "C160", "title": "The end of a line ends an expression", "statement": "If a complete expression is followed by a line end and then by what may start an expression, it ends at the line end.", "quantifier": "all expressions and all their writings, all texts, all sets of declared names and types", "why_tests_cant": "All expressions on all pairs of lines.", "anchors": ["src/compiler/compiler_expression.cpp:95"]}
{"id": "C161", "title": "Prefixes can be combined and counting may be set off", "statement": "!!a, - -a and the like are read, blanks may stand before ++ and --, and every declared variable can be counted up and down.", "quantifier": "all expressions and all their writings, all texts, all sets of declared names and types", "why_tests_cant": "All operands and all that may follow them.", "anchors": ["src/compiler/compiler_expression_token_symbol.cpp:78", "src/compiler/compiler_expression_token_symbol.cpp:720", "src/compiler/compiler_symbol.cpp:109"]}
{"id": "C162", "title": "typeof can be asked of every string", "statement": "typeof followed by a string constant is read, whatever the string is.", "quantifier": "all expressions and all their writings, all texts, all sets of declared names and types", "why_tests_cant": "The strings concerned are the names of the registered types.", "anchors": ["src/compiler/compiler_expression_token_symbol.cpp:821"]}
{"id": "C163", "title": "The text of a formula computes its value", "statement": "However a formula of variables, counted variables (++ and --), constants, signs, binary operators and parentheses is written, its text is compiled and running the code leaves the value that the formula has by the usual rules of binding, grouping to the left and short evaluation, with the effects in that order, or fails when the formula does.", "quantifier": "all formulas of any size over any variables and constants, all their writings, all values and functions of the operators", "why_tests_cant": "All formulas with all layouts and all values.", "anchors": ["src/compiler/compiler_expression.cpp:24", "src/compiler/compiler_expression_byte_code.cpp:216", "src/vm/vm_script_function.cpp:120"]}
{"id": "C164", "title": "The text of an assignment stores the value", "statement": "The text x op= formula, for each of the eleven assignments, first computes the formula and then assigns its value to x.", "quantifier": "all formulas of any size over any variables and constants, all their writings, all values and functions of the operators", "why_tests_cant": "All formulas with all layouts and all values.", "anchors": ["src/compiler/compiler_expression.cpp:24", "src/compiler/compiler_expression_byte_code.cpp:216", "src/vm/vm_script_function.cpp:120"]}
{"id": "C165", "title": "The text of a conditional computes one of two", "statement": "The text c ? x : y of three formulas computes c, then x if it is true and y if it is false and not the other one, and fails for other values of c.", "quantifier": "all formulas of any size over any variables and constants, all their writings, all values and functions of the operators", "why_tests_cant": "All formulas with all layouts and all values.", "anchors": ["src/compiler/compiler_expression.cpp:24", "src/compiler/compiler_expression_byte_code.cpp:216", "src/vm/vm_script_function.cpp:120"]}
{"id": "C166", "title": "Written arithmetic is arithmetic", "statement": "The text of a formula over integer variables and numerals with + - * & | ^ and the signs - and ~ leaves the integer that arithmetic gives, if no part of it exceeds 64 bits.", "quantifier": "all formulas of any size over integers, all their writings", "why_tests_cant": "All formulas with all layouts and all integers.", "anchors": ["src/compiler/compiler_expression.cpp:24", "src/compiler/compiler_expression_byte_code.cpp:216", "src/vm/vm_script_function.cpp:120"]}
{"id": "C167", "title": "Array literals", "statement": "The text of an array literal is read as its elements in order and nothing else is; reading ends on every text; running the code evaluates the elements once each from left to right and leaves an array of their values in that order. A comma may stand behind the last element as behind the last argument of a call.", "quantifier": "all texts, all numbers of elements, all expressions and their writings with all layouts", "why_tests_cant": "Any number of elements of any size in any layout, and every text that is no literal.", "anchors": ["src/compiler/compiler_object.cpp:241"]}
{"id": "C168", "title": "Object literals", "statement": "The text of an object literal is read as its pairs of keys and values in order and nothing else is; keys are words that are no keywords, or any strings; reading ends on every text and errors are reported; running the code evaluates the values once each from left to right, and the last pair with a key decides.", "quantifier": "all texts, all numbers of elements, all expressions and their writings with all layouts", "why_tests_cant": "Any number of elements of any size in any layout, and every text that is no literal.", "anchors": ["src/compiler/compiler_object.cpp:78", "src/compiler/compiler_object.cpp:144"]}
{"id": "C169", "title": "new", "statement": "new T(arguments) creates a T and calls its constructor with the arguments in order; new a.b.T(arguments) creates what the member a.b.T is; every expression is an argument.", "quantifier": "all texts, all numbers of elements, all expressions and their writings with all layouts", "why_tests_cant": "Any number of elements of any size in any layout, and every text that is no literal.", "anchors": ["src/compiler/compiler_object.cpp:291"]}
{"id": "C170", "title": "Conditions in parentheses", "statement": "if, while, do-while and switch test the value of the expression between the parentheses, whatever expression it is, and refuse to have none.", "quantifier": "all texts, all numbers of elements, all expressions and their writings with all layouts", "why_tests_cant": "Any number of elements of any size in any layout, and every text that is no literal.", "anchors": ["src/compiler/compiler_keyword_conditional.cpp:40", "src/compiler/compiler_keyword_loop.cpp:119", "src/compiler/compiler_expression.cpp:144"]}
{"id": "C171", "title": "Membership", "statement": "x in c answers true exactly if x is in c: a character or a text occurs in a text, an element of an array equals x, a field of an object has the name x. The answer does not depend on whether x and c are written, computed, held by constants or variables, or read from fields.", "quantifier": "all heaps, all operands in all places, all containers of any size, all stacks", "why_tests_cant": "Any texts, elements, names and ways to reach the operands.", "anchors": ["src/vm/vm_iterator.cpp:130", "src/core/object/ArrayScriptObjectZs.cpp:80", "src/core/object/StringScriptObjectZs.cpp:21"]}
{"id": "C172", "title": "Membership leaves one value", "statement": "x in c replaces its operands by one truth value, or stops with an error; a condition after it is decided by that value and leaves the stack as it was before the operands.", "quantifier": "all heaps, all operands in all places, all containers of any size, all stacks", "why_tests_cant": "Every stack below the operands and every kind of operand; a missing value shows only through what happens to lie below.", "anchors": ["src/vm/vm_iterator.cpp:184", "src/vm/vm_pop_stk.h:39", "src/vm/vm_script_function.cpp:281"]}
{"id": "C173", "title": "Parts of a path", "statement": "The directory and the file name of a path, put together with the separator between them, are the path again; the file name has no separator; the name without extension is the file name up to its last point that is not at the front. This holds for all paths, also for empty ones, files in the root and paths that end with a separator.", "quantifier": "all paths of any length over all characters", "why_tests_cant": "All paths; the bytes before an empty text are read only if nothing else catches it.", "anchors": ["src/base/Path.cpp:9", "src/base/Path.cpp:23", "src/base/Path.cpp:33", "src/base/String.cpp:636"]}
{"id": "C174", "title": "Maximum, minimum and absolute value", "statement": "Math.max and Math.min return one of their arguments, and none is greater, or less; on whole numbers they and Math.abs are the usual functions; together they keep a number between two others. The order of the arguments does not matter, also for zeros and for what is no number.", "quantifier": "all doubles; all whole numbers below 2^53", "why_tests_cant": "Pairs of doubles cannot be enumerated, and the exceptions are the values that compare with nothing or equal another.", "anchors": ["src/module/MathModule.cpp:34", "src/module/MathModule.cpp:57"]}
{"id": "C175", "title": "Arguments of pow, sin and cos", "statement": "Math.pow, Math.sin and Math.cos work on the numbers they are given: numbers that differ are not taken for the same.", "quantifier": "all whole numbers, whatever powf, sinf and cosf compute", "why_tests_cant": "The claim is about every implementation of the C library and all arguments; tests use small numbers, which are not rounded.", "anchors": ["src/module/MathModule.cpp:24"]}
{"id": "C176", "title": "Range of random", "statement": "Math.random returns a number that is not less than 0 and less than 1.", "quantifier": "all values of rand", "why_tests_cant": "The value 1 comes once in 2^25 calls.", "anchors": ["src/module/MathModule.cpp:7", "src/module/MathModule.cpp:44"]}
{"id": "C177", "title": "Every imported file once", "statement": "Compiling a file puts the statements of every file that it needs, directly or not, into the code exactly once and no others, each import standing for the text of the file the first time; imports in circles end; the current directory is the same afterwards, also after errors.", "quantifier": "all file systems, all files with any number of imports, circles included", "why_tests_cant": "Import graphs of any shape and size; circles must end for all of them.", "anchors": ["src/ScriptEngine.cpp:914", "src/compiler/compiler.cpp:342"]}
{"id": "C178", "title": "An import means the file with that name", "statement": "An import reads the file that its name means in the directory of the importing file, unless that file has been compiled; a file that could not be compiled is an error every time.", "quantifier": "all file systems, all names and directories, all earlier compilations", "why_tests_cant": "The order of earlier imports and failures decides; tests compile one tree of files in a new engine.", "anchors": ["src/ScriptEngine.cpp:884", "src/ScriptEngine.cpp:925", "src/compiler/compiler.cpp:372"]}
{"id": "C179", "title": "Texts of any length", "statement": "A string literal has the characters between its quotes as value, and the condition of a while is the expression in its parentheses, however long they are and whatever blanks and comments stand in the condition.", "quantifier": "all strings, all conditions with any blanks and comments", "why_tests_cant": "The length has no bound; the wrong lengths are one exact length and all above a bound that no usual script reaches.", "anchors": ["src/compiler/compiler.cpp:37", "src/compiler/compiler_symbol.cpp:92", "src/compiler/compiler_keyword_loop.cpp:148"]}
{"id": "C180", "title": "Import is a word", "statement": "A statement that is the word import and a string names a file to import; a statement that starts with another word is no import.", "quantifier": "all statements, all names of files, all blanks and comments", "why_tests_cant": "All words that start with the same six letters, with any text behind.", "anchors": ["src/compiler/compiler_data.cpp:534", "src/compiler/compiler.cpp:339"]}
{"id": "C181", "title": "A file is read as it is", "statement": "Compiling a file compiles all of its bytes, of any number and value, or reports an error; a name without a file is an error.", "quantifier": "all files with any bytes and of any size", "why_tests_cant": "Files of gigabytes and the sizes where an int overflows are not made by tests.", "anchors": ["src/base/File.cpp:36", "src/base/File.cpp:68", "src/ScriptEngine.cpp:932"]}
{"id": "C182", "title": "Whether a file exists", "statement": "File::exists is true for regular files and false for folders and for names of nothing.", "quantifier": "all names", "why_tests_cant": "The wrong answer depends on memory that was not written and may be right in every run of a test.", "anchors": ["src/base/File.cpp:10"]}

{"id": "C01", "title": "Object addresses are fresh forever", "statement": "Allocating an object returns an address that is non-null and that no earlier allocation of the same run ever returned, even after objects were destroyed; when the address space is used up the allocation fails with an exception instead of reusing an address.", "quantifier": "every finite history of allocations, reference acquisitions and releases", "why_tests_cant": "Reuse of an address only shows up after a particular interleaving of allocation and destruction; a unit test can try only a few histories and cannot reach exhaustion.", "anchors": ["Projects/Core/Core/VirtualMachine/Memory.cpp: newObject, reserveAddress"]}
{"id": "C02", "title": "Reference count equals the balance of acquisitions and releases", "statement": "In every history in which no object is released more often than it was acquired, an object is present in memory exactly as long as it has not been released back to zero, its count is acquisitions minus releases, and its destructor ran exactly once iff it has been released back to zero.", "quantifier": "every finite history of new/add/remove calls that never over-releases", "why_tests_cant": "The claim is about arbitrary interleavings over arbitrarily many objects.", "anchors": ["Projects/Core/Core/VirtualMachine/Memory.cpp: add, remove, deleteObject, newObject", "Projects/Core/Core/VirtualMachine/Memory.h"]}
{"id": "C03", "title": "Variable assignment never leaves a dangling variable and never leaks an unshared object", "statement": "If every reference is held by a program variable and variables are only created, assigned, and dropped, then at every point an object is in memory iff it was never referenced yet or some variable refers to it; assigning a variable to itself destroys nothing.", "quantifier": "every finite history of object creation, variable creation, variable-to-variable assignment, null assignment and variable destruction", "why_tests_cant": "Add-before-remove ordering bugs only surface for aliasing patterns (x = x, or last owner replaced by an alias) that tests enumerate only sparsely.", "anchors": ["Projects/Core/Core/Object.cpp: assignReference, ~Object", "Projects/Core/Core/VirtualMachine/Memory.cpp"]}
{"id": "C04", "title": "No dangling member references, destruction cascades", "statement": "With objects that own references in their members, after any history every reference held by a variable or by a member of a live object points to a live object, and dropping the last outside reference to an acyclic structure destroys all of it; cyclic structures stay alive (documented leak).", "quantifier": "every finite history of allocation, member assignment, variable assignment and dropping, over every object graph", "why_tests_cant": "Quantifies over all object graphs and all orders of destruction.", "anchors": ["Projects/Core/Core/VirtualMachine/Memory.cpp: remove, deleteObject", "Projects/Core/Core/Object.cpp: assignReference, ~Object"]}
{"id": "C05", "title": "Name resolution finds the innermost visible declaration", "statement": "Looking a name up from a scope returns the declaration of the nearest enclosing scope that declares the name with sufficient visibility, local declarations shadow imported ones, and the restricted look-up never leaves the current scope.", "quantifier": "every nesting depth of scopes, every set of declarations, every name and requested visibility", "why_tests_cant": "Nesting depth and combinations of shadowing/visibility are unbounded.", "anchors": ["Projects/Core/Core/Scope.cpp: SymbolScope::resolve"]}
{"id": "C06", "title": "A scope never holds two declarations of one name", "statement": "After any sequence of declarations and removals a scope holds at most one local declaration per name; declaring an already declared name fails and changes nothing; a successful declaration is immediately resolvable and leaves every other name's resolution unchanged; removing it restores the outer declaration.", "quantifier": "every finite sequence of define/undefine operations on a scope chain", "why_tests_cant": "Invariant over unbounded histories.", "anchors": ["Projects/Core/Core/Scope.cpp: SymbolScope::define, undefine, resolve"]}
{"id": "C07", "title": "Overloads are distinguishable", "statement": "A scope never holds two methods that accept the same argument type list exactly: declaring a method whose parameter list is accepted by an existing overload of the same name fails; otherwise calling with exactly the declared types resolves to the declared method.", "quantifier": "every finite sequence of method declarations, every call signature", "why_tests_cant": "Combinations of overloads with default parameters are unbounded.", "anchors": ["Projects/Core/Core/Scope.cpp: MethodScope::defineMethod, resolveMethod", "Projects/Core/Core/Common/Method.cpp: isSignatureValid"]}
{"id": "C08", "title": "Default parameters complete a call", "statement": "A call is accepted iff there are not more arguments than parameters, every given argument has the parameter's type (or the parameter is untyped) and every missing parameter has a default; the merged list then has exactly one value per declared parameter: the given ones in order, then the defaults.", "quantifier": "every parameter list and every argument list", "why_tests_cant": "Unbounded arity and combination of defaults.", "anchors": ["Projects/Core/Core/Common/Method.cpp: isSignatureValid, mergeParameters"]}
{"id": "C09", "title": "Defaulted parameters do not alias earlier arguments", "statement": "A parameter that takes its default value does not inherit the object reference of an argument supplied for another parameter.", "quantifier": "every parameter list and argument list", "why_tests_cant": "The defect needs a reference argument followed by a default; the tests use atomic arguments only.", "anchors": ["Projects/Core/Core/Common/Method.cpp: mergeParameters"]}
{"id": "C10", "title": "Methods are strictly ordered by name and signature", "statement": "The ordering of methods is a strict weak order whose equivalence classes are exactly 'same name and same parameter types'.", "quantifier": "every triple of methods", "why_tests_cant": "Transitivity ranges over all triples of unbounded signatures.", "anchors": ["Projects/Core/Core/Common/Method.cpp: operator<"]}
{"id": "C11", "title": "Tokenization terminates and ends with exactly one end-of-file token", "statement": "For every source text on which no token-stream underflow happens the tokenizer produces a token list that ends in one end-of-file token and contains no other.", "quantifier": "every character string", "why_tests_cant": "Quantifies over all texts.", "anchors": ["Projects/Core/Core/Designtime/Parser/Tokenizer.cpp: process, addToken"]}
{"id": "C12", "title": "Layout does not matter", "statement": "Replacing one whitespace run between tokens by another whitespace run (spaces, tabs, newlines) changes no token type or content, only positions.", "quantifier": "every sequence of lexemes, every choice of whitespace runs between them", "why_tests_cant": "All combinations of token boundaries and whitespace.", "anchors": ["Projects/Core/Core/Designtime/Parser/Tokenizer.cpp: process"]}
{"id": "C13", "title": "Comments are ignored", "statement": "Inserting a '#' or '//' line comment at the end of a line, or a block comment between two whitespace-separated tokens, changes no token type or content, whatever the comment text is.", "quantifier": "every program text split at a token boundary, every comment text not containing the terminator", "why_tests_cant": "Quantifies over all comment bodies and positions.", "anchors": ["Projects/Core/Core/Designtime/Parser/Tokenizer.cpp: process"]}
{"id": "C14", "title": "Lexeme round trip", "statement": "A text made of lexemes separated by whitespace is tokenized to exactly those lexemes in order, each with the type its spelling determines.", "quantifier": "every list of words that contain no delimiter, comment or quote characters", "why_tests_cant": "Unbounded lists of unbounded words.", "anchors": ["Projects/Core/Core/Designtime/Parser/Tokenizer.cpp: process, addToken, isDouble, isFloat, isInteger, isIdentifier"]}
{"id": "C15", "title": "String literals round trip", "statement": "A string literal written with every quote and backslash escaped by a backslash is tokenized to one literal token carrying exactly the original characters; comment markers and delimiters inside it have no effect.", "quantifier": "every character string", "why_tests_cant": "All strings.", "anchors": ["Projects/Core/Core/Designtime/Parser/Tokenizer.cpp: process"]}
{"id": "C16", "title": "Token positions are truthful", "statement": "Every token's line number is one plus the number of newlines before the character that terminated it; line numbers never decrease along the token list.", "quantifier": "every source text", "why_tests_cant": "All texts.", "anchors": ["Projects/Core/Core/Designtime/Parser/Tokenizer.cpp: process, addToken"]}
{"id": "C17", "title": "Operator merging is local and canonical", "statement": "After the merge pass no mergeable adjacent pair of assignment or operator tokens remains where the pass promises to merge it, tokens not taking part in a merge are unchanged and keep their order, and concatenating the contents is preserved except for the documented '%=' spelling.", "quantifier": "every token list", "why_tests_cant": "Unbounded lists; chains such as '= = =' interact.", "anchors": ["Projects/Core/Core/Designtime/Parser/Tokenizer.cpp: mergeAssignments, mergeOperators"]}
{"id": "C18", "title": "Bracket sanity check", "statement": "The sanity checker accepts a token list iff each kind of bracket occurs as often opened as closed (and quotes pair up); well-nested programs are always accepted.", "quantifier": "every token list", "why_tests_cant": "Unbounded nesting.", "anchors": ["Projects/Core/Core/Designtime/SanityChecker.cpp"]}
{"id": "C19", "title": "Block extraction returns the balanced body", "statement": "Collecting a scope's tokens from an opening curly bracket returns exactly the tokens up to the matching closing bracket, however deeply nested; bracket search returns the matching bracket.", "quantifier": "every well-nested token list", "why_tests_cant": "Unbounded nesting depth.", "anchors": ["Projects/Core/Core/Designtime/Parser/Parser.cpp: collectScopeTokens", "Projects/Core/Core/Common/Utils.cpp: findNextBalanced*"]}
{"id": "C20", "title": "Fully parenthesised expressions parse to the tree they denote", "statement": "Printing any expression tree with explicit parentheses and parsing it returns that tree and consumes exactly its tokens.", "quantifier": "every expression tree over literals, names, unary, binary, comparison and logical operators", "why_tests_cant": "Unbounded trees.", "anchors": ["Projects/Core/Core/AST/TreeGenerator.cpp: expression, parseCondition, parseExpression, parseFactor, parseInfix, parsePostfix, parseTerm"]}
{"id": "C21", "title": "Operator precedence and associativity", "statement": "Without parentheses, * / % bind tighter than + - & ~ | << >>, which bind tighter than comparisons, which bind tighter than && || !& !|; operators of one level associate to the left (comparisons too).", "quantifier": "every operand list and operator list", "why_tests_cant": "Unbounded operand lists and all operator mixes.", "anchors": ["Projects/Core/Core/AST/TreeGenerator.cpp: expression, parseCondition, parseExpression, parseFactor"]}
{"id": "C22", "title": "Printed expressions re-parse to the same tree", "statement": "The AST printer's output re-parses to the same expression tree.", "quantifier": "every expression tree", "why_tests_cant": "Only specific nestings expose the loss.", "anchors": ["Projects/Core/Core/AST/PrintVisitor.cpp: printExpression"]}
{"id": "C23", "title": "Static operator typing is functional", "statement": "The type table gives at most one result type per left type, operator and right type; redefining an entry does not change it; the three-argument query agrees with the existence query.", "quantifier": "every sequence of define calls and every query", "why_tests_cant": "Unbounded histories of user-defined types.", "anchors": ["Projects/Core/Core/VirtualMachine/TypeSystem.cpp: define, getType, exists"]}
{"id": "C24", "title": "Well-typed built-in operators do not fail at run time", "statement": "Whenever the static table admits a binary operator on two built-in types, executing the operator on values of those types does not raise an invalid-operation error, and the value it leaves has the static result type.", "quantifier": "every operator and pair of built-in types admitted by the table, every pair of values", "why_tests_cant": "Full product of operators, types and values.", "anchors": ["Projects/Core/Core/VirtualMachine/TypeSystem.cpp: initialize", "Projects/Core/Core/Runtime/OperatorOverloading.cpp", "Projects/Core/Core/Runtime/BuildInTypes/*.cpp"]}
{"id": "C25", "title": "Integer arithmetic is exact inside the range and never undefined", "statement": "int16/int32/int64 arithmetic on values whose exact result is representable returns the exact result; out of range or division by zero the implementation has undefined behaviour.", "quantifier": "every pair of operand values of every integer width", "why_tests_cant": "2^128 operand pairs.", "anchors": ["Projects/Core/Core/Runtime/BuildInTypes/Int16Type.cpp", "Projects/Core/Core/Runtime/BuildInTypes/Int32Type.cpp", "Projects/Core/Core/Runtime/BuildInTypes/Int64Type.cpp"]}
{"id": "C26", "title": "Comparison operators agree with one total order", "statement": "For two integers of one width (or two strings) the six comparison operators are the comparisons of one total order; in particular exactly one of <, ==, > holds and <= is the negation of >.", "quantifier": "every pair of values", "why_tests_cant": "All value pairs.", "anchors": ["Projects/Core/Core/Runtime/BuildInTypes/Int32Type.cpp", "Projects/Core/Core/Runtime/BuildInTypes/StringType.cpp", "Projects/Core/Core/AST/TreeInterpreter.cpp: processBooleanBinaryExpression"]}
{"id": "C27", "title": "Numeric and string conversions round trip", "statement": "Converting an int, int16, int64 or bool value to string and back returns the value; converting string to bool is false exactly for the empty string, a single newline and any capitalisation of 'false', ignoring surrounding blanks.", "quantifier": "every integer in range, every string", "why_tests_cant": "All integers and strings.", "anchors": ["Projects/Core/Core/Runtime/AtomicValue.cpp", "Projects/Utils/Tools/Strings.cpp: stringToBool, stringToInt, toString"]}
{"id": "C28", "title": "Boolean operators", "statement": "'&&' and '||' compute conjunction and disjunction and do not evaluate their right operand when the left one decides; '!&' and '!|' compute the negated conjunction and negated disjunction.", "quantifier": "every pair of operand expressions including those with side effects", "why_tests_cant": "Operands are arbitrary programs with side effects.", "anchors": ["Projects/Core/Core/AST/TreeInterpreter.cpp: processBooleanBinaryExpression"]}
{"id": "C29", "title": "Structured control flow", "statement": "Executing a block runs its statements in order and stops at the first one that breaks, continues, returns, throws or exits; loops absorb break and continue and nothing else, and propagate return, throw and exit unchanged.", "quantifier": "every program, every nesting, every execution length", "why_tests_cant": "Unbounded programs and loop iterations.", "anchors": ["Projects/Core/Core/AST/TreeInterpreter.cpp: process, visitStatements, visitWhile, visitFor, visitForeach, visitIf"]}
{"id": "C30", "title": "Switch selects the first equal case", "statement": "A switch executes the body of the first case whose value equals the switch value, the default body if none does, nothing if there is no default; break ends only the switch.", "quantifier": "every list of cases and every value", "why_tests_cant": "Unbounded case lists.", "anchors": ["Projects/Core/Core/AST/TreeInterpreter.cpp: visitSwitch"]}
{"id": "C31", "title": "Try, catch and finally", "statement": "An exception is handled by the first catch clause whose type it is an instance of (or that is untyped); finally runs exactly once on every path; a flow raised by finally replaces the pending one, otherwise the pending flow continues; exceptions no clause accepts propagate.", "quantifier": "every try statement, nested arbitrarily, every exception type hierarchy", "why_tests_cant": "All combinations of flows in body, handlers and finally.", "anchors": ["Projects/Core/Core/AST/TreeInterpreter.cpp: visitTry, tryControl"]}
{"id": "C32", "title": "Scopes are balanced on every path", "statement": "After executing any statement, on whichever path it ended, the number of active scopes is what it was before.", "quantifier": "every statement and every ending (normal, break, continue, return, throw)", "why_tests_cant": "Every path through every nesting.", "anchors": ["Projects/Core/Core/AST/TreeInterpreter.cpp: visitStatements, visitFor, visitForeach, pushScope, popScope", "Projects/Core/Core/VirtualMachine/StackFrame.cpp"]}
{"id": "C33", "title": "Break and continue cannot escape a method", "statement": "A program accepted by the generator's placement checks never ends a method body with break or continue: these flows are always absorbed by an enclosing loop or switch of the same method.", "quantifier": "every accepted method body and every execution", "why_tests_cant": "All nestings.", "anchors": ["Projects/Core/Core/AST/TreeGenerator.cpp: process_break, process_continue, process_for, process_while, process_foreach, process_switch", "Projects/Core/Core/AST/TreeInterpreter.cpp"]}
{"id": "C34", "title": "A non-void method always returns a value", "statement": "A non-void method body accepted by the generator's return check ends every execution by return or by an exception.", "quantifier": "every accepted method body and every execution", "why_tests_cant": "All control-flow shapes.", "anchors": ["Projects/Core/Core/AST/TreeGenerator.cpp: finalize, generate, process_return"]}
{"id": "C35", "title": "A method not declared 'throws' never lets an exception escape", "statement": "If the generator accepts a method without 'throws', no execution of it ends with an exception thrown by its own throw statements.", "quantifier": "every accepted method body and every execution", "why_tests_cant": "All control-flow shapes with nested try statements.", "anchors": ["Projects/Core/Core/AST/TreeGenerator.cpp: process_throw, process_try, finalize"]}
{"id": "C36", "title": "Instance-of is the reflexive transitive inheritance relation", "statement": "An object is an instance of exactly the types reachable from its own type by the 'extends' and 'implements' edges.", "quantifier": "every acyclic inheritance graph, every pair of types", "why_tests_cant": "Unbounded depth and width.", "anchors": ["Projects/Core/Core/Object.cpp: isInstanceOf", "Projects/Core/Core/VirtualMachine/Repository.cpp: createUserType"]}
{"id": "C37", "title": "Member look-up prefers the most derived declaration", "statement": "Accessing a member of an object finds the object's own member if it is visible, otherwise that of the nearest base class with at least protected visibility, otherwise an outer declaration.", "quantifier": "every inheritance depth, every visibility assignment", "why_tests_cant": "Unbounded depth.", "anchors": ["Projects/Core/Core/Object.cpp: resolve"]}
{"id": "C38", "title": "Circular inheritance is rejected", "statement": "Preparing the inheritance of a set of types either rejects it as circular or terminates; an acyclic set is always accepted and every type is prepared after its ancestors.", "quantifier": "every inheritance graph", "why_tests_cant": "Cycle length is unbounded.", "anchors": ["Projects/Core/Core/Designtime/BluePrintObject.cpp: prepareParents, inheritsFrom"]}
{"id": "C39", "title": "Overriding preserves the contract", "statement": "When a method is redefined in a derived class and the redefinition is accepted, the overridden method was declared virtual or abstract and not final, and return type, constness and staticness are unchanged.", "quantifier": "every pair of method declarations", "why_tests_cant": "All attribute combinations and histories.", "anchors": ["Projects/Core/Core/Designtime/BluePrintObject.cpp: defineMethod"]}
{"id": "C40", "title": "Enumeration values are strictly increasing", "statement": "An accepted enumeration declaration gives its entries strictly increasing non-negative values in declaration order, unspecified values being the predecessor plus one; any other declaration is rejected.", "quantifier": "every enumeration declaration", "why_tests_cant": "Unbounded length.", "anchors": ["Projects/Core/Core/Designtime/Analyser.cpp: buildEnum"]}
{"id": "C41", "title": "Prototype substitution", "statement": "Building a generic type's name from its constraints is injective on constraint lists of plain names, parsing it back yields the same list, and each placeholder is replaced by the run-time type of the first constraint with that name.", "quantifier": "every constraint list", "why_tests_cant": "Unbounded constraint lists.", "anchors": ["Projects/Core/Core/Designtime/Parser/Parser.cpp: buildDesigntimeConstraintTypename, buildRuntimeConstraintTypename, mergeConstraints", "Projects/Core/Core/Common/PrototypeConstraint.cpp"]}
{"id": "C42", "title": "Semantic versions: printing and parsing", "statement": "Parsing the printed form of a version returns the same version; the parsed version is valid iff it is not all-zero without label and metadata.", "quantifier": "every version with representable components and delimiter-free label and metadata", "why_tests_cant": "All component values.", "anchors": ["Projects/Utils/SemVer/Version.cpp: parse, toString"]}
{"id": "C43", "title": "Semantic versions: ordering", "statement": "Version comparison is a strict weak order on versions: irreflexive, transitive, asymmetric, consistent with equality, with major, minor, bugfix compared numerically and a release newer than its pre-releases.", "quantifier": "every triple of versions", "why_tests_cant": "All triples.", "anchors": ["Projects/Utils/SemVer/Version.cpp: operator<, operator==", "Projects/Library/libSemVer/SemVer.os"]}
{"id": "C44", "title": "Dependency resolution is closed and terminates on acyclic repositories", "statement": "Preparing an installation visits every transitive dependency that is not installed yet; afterwards every dependency of a prepared module is installed or scheduled; on an acyclic repository it terminates.", "quantifier": "every module repository, every set of installed modules", "why_tests_cant": "All dependency graphs.", "anchors": ["Projects/slang-pkg/Application/Application.cpp: prepareModuleInstallation, install", "Projects/slang-pkg/Common/Repository.cpp"]}
{"id": "C45", "title": "Version restrictions are honoured", "statement": "A module is only accepted for installation if its version lies inside the configured minimum and maximum for that module.", "quantifier": "every restriction set and every module", "why_tests_cant": "All version triples.", "anchors": ["Projects/slang-pkg/Application/Application.cpp: checkRestrictions, install"]}
{"id": "C46", "title": "Splitting and trimming strings", "statement": "Splitting a string at its first separator and joining the parts with the separator gives the string back; trimming removes exactly the leading and trailing trim characters and is idempotent.", "quantifier": "every string", "why_tests_cant": "All strings.", "anchors": ["Projects/Utils/Tools/Strings.cpp: split, splitBy, stringTrim, stringTrimLeft, stringTrimRight"]}
{"id": "C47", "title": "Configuration files", "statement": "Reading a configuration file yields for each key the value of the last line (a line ends with a line feed) that sets it; keys no line sets have no value; the order of unrelated lines does not matter; loading again forgets what was loaded before.", "quantifier": "every list of configuration lines", "why_tests_cant": "All files.", "anchors": ["Projects/Utils/Common/Configuration/Configurator.cpp", "Projects/Utils/Parsers/LineParser.cpp", "Projects/Utils/Parsers/Tokenizer.cpp"]}
{"id": "C48", "title": "Path functions decompose file names", "statement": "Directory part plus file part give the original path back; extension and stem give the original path back.", "quantifier": "every path string", "why_tests_cant": "All strings.", "anchors": ["Projects/Utils/Tools/Files.cpp: ExtractFilename, ExtractPathname, ExtractFileExt, RemoveFileExt"]}
{"id": "C49", "title": "List behaves as a sequence", "statement": "The library List refines the mathematical sequence: push_back, push_front, pop_front, erase, at, first, last, indexOf, size behave as on lists.", "quantifier": "every finite history of List operations and every element", "why_tests_cant": "All histories.", "anchors": ["Projects/Library/System/Collections/List.os", "Projects/Library/System/Collections/CollectionItem.os"]}
{"id": "C50", "title": "Removing the last element", "statement": "pop_back removes the last element: afterwards last() is the new last element and push_back appends after it; Stack.pop returns elements in last-in-first-out order.", "quantifier": "every finite history", "why_tests_cant": "Needs a pop followed by a look at the tail or another push; the tests only read by index afterwards.", "anchors": ["Projects/Library/System/Collections/List.os: pop_back", "Projects/Library/System/Collections/Vector.os: pop_back", "Projects/Library/System/Collections/Stack.os: pop"]}
{"id": "C51", "title": "Queue is first-in-first-out", "statement": "Elements leave a queue in the order they entered it; dequeue on the empty queue fails.", "quantifier": "every finite history of enqueue and dequeue", "why_tests_cant": "All histories.", "anchors": ["Projects/Library/System/Collections/Queue.os"]}
{"id": "C52", "title": "Map behaves as a finite map", "statement": "get returns the value most recently stored for a key by insert-if-absent/put; remove deletes it; other keys are unaffected; contains agrees with get.", "quantifier": "every finite history of map operations", "why_tests_cant": "All histories.", "anchors": ["Projects/Library/System/Collections/Map.os", "Projects/Library/System/Collections/Pair.os"]}
{"id": "C53", "title": "Set keeps its elements sorted", "statement": "After any sequence of insertions iterating over a Set yields the inserted elements in ascending order; duplicates are rejected unless allowed.", "quantifier": "every finite history of insertions", "why_tests_cant": "All histories.", "anchors": ["Projects/Library/System/Collections/Set.os"]}
{"id": "C54", "title": "Iterating visits every element once in order", "statement": "Iterating a collection from a fresh iterator with hasNext/next yields exactly the elements in order, then hasNext is false and next fails.", "quantifier": "every collection content", "why_tests_cant": "All contents.", "anchors": ["Projects/Library/System/Collections/Iterator.os"]}
{"id": "C55", "title": "String object operations", "statement": "Replace substitutes exactly the first occurrence, RemoveCharAt removes exactly one character, Length always equals the character count, StartsWith/EndsWith/Contains agree with prefix/suffix/infix.", "quantifier": "every string and argument", "why_tests_cant": "All strings.", "anchors": ["Projects/Library/System/String.os"]}
{"id": "C56", "title": "Stack frames are last-in-first-out", "statement": "Pushing a frame or scope and later popping it restores exactly the previous top, whatever happened in between in balanced form; popping the empty stack is an error.", "quantifier": "every balanced history of pushes and pops", "why_tests_cant": "All histories.", "anchors": ["Projects/Core/Core/VirtualMachine/StackFrame.cpp", "Projects/Core/Core/VirtualMachine/Threads.cpp"]}
{"id": "C57", "title": "Breakpoints behave as a set of file positions", "statement": "Adding, removing and clearing breakpoints behaves as on a finite map keyed by file and line: execution stops at a line iff a breakpoint for it was added after the last removal; the stored condition is the most recent one.", "quantifier": "every history of breakpoint operations, every position", "why_tests_cant": "All histories.", "anchors": ["Projects/Core/Debugger/Debugger.cpp", "Projects/Core/Debugger/BreakPoint.cpp"]}
{"id": "C58", "title": "Inheritance lists behave as sets", "statement": "The ancestors written in a declaration are all kept, each once, independent of the order in which they are written; an object that extends nothing extends Object.", "quantifier": "every list of ancestors", "why_tests_cant": "Order and duplicates of arbitrary lists.", "anchors": ["Projects/Core/Core/Designtime/Ancestor.cpp: operator<", "Projects/Core/Core/Designtime/BluePrintObject.cpp: addInheritance", "Projects/Core/Core/Designtime/Analyser.cpp: createBluePrint"]}
{"id": "C59", "title": "Ranges enumerate exactly their numbers", "statement": "Iterating over a range yields first, first+step, ... up to the last number that does not pass the end, in order, each once.", "quantifier": "every first number, end and step", "why_tests_cant": "All combinations of bounds and steps.", "anchors": ["Projects/Library/System/Collections/Range.os"]}
{"id": "C60", "title": "Types with unimplemented abstract methods cannot be instantiated", "statement": "Creating an object fails with an error if its type declares or inherits an abstract method that is not implemented, and never fails for that reason otherwise.", "quantifier": "every set of types", "why_tests_cant": "All inheritance graphs and combinations of methods.", "anchors": ["Projects/Core/Core/VirtualMachine/Repository.cpp: createInstance", "Projects/Core/Core/Object.cpp: isAbstract"]}
{"id": "C61", "title": "Splitting a string and joining the pieces gives it back", "statement": "Iterating over a string split by a separator yields the parts between the separators, from left to right: joining them with the separator gives the original string and no part contains the separator; iterating over the characters yields each character once, in order.", "quantifier": "every string and separator", "why_tests_cant": "All strings and separators, including overlapping ones and separators at the ends.", "anchors": ["Projects/Library/System/StringIterator.os", "Projects/Library/System/CharacterIterator.os", "Projects/Library/System/String.os: Split, SplitBy, getIterator"]}
{"id": "C62", "title": "Padding keeps the text", "statement": "Padding a text to a length yields the text with fill characters on one side only, exactly as long as the larger of both lengths; a pattern that is not one character or a negative length is refused.", "quantifier": "every text, length and pattern", "why_tests_cant": "All texts and lengths.", "anchors": ["Projects/Extensions/System/Strings/StrLPad.h", "Projects/Extensions/System/Strings/StrRPad.h"]}
{"id": "C63", "title": "JSON documents survive writing and reading", "statement": "Reading the text a writer produced for a JSON document gives the same document: the same nesting, the same members in the same order, the same values, whatever the writer's layout.", "quantifier": "every document, of any size and depth, and every layout", "why_tests_cant": "Documents are nested arbitrarily and texts are arbitrary.", "anchors": ["Projects/Library/libJson/Writer.os", "Projects/Library/libJson/Reader.os", "Projects/Library/libJson/Tokenizer.os", "Projects/Library/libJson/Value.os", "Projects/Library/libJson/Array.os", "Projects/Library/libJson/Object.os"]}
{"id": "C64", "title": "What is const does not change", "statement": "A const variable or parameter shows the same value wherever it is in scope, a const method leaves every object as it is, a const member keeps its value after construction, and code that would assign to, count up or call a modifying method on something const is refused before it runs.", "quantifier": "every program that is accepted, every method of it, every state it is called in", "why_tests_cant": "All programs: a hole in the checks shows only in programs that use a particular combination of aliases, parameters and calls.", "anchors": ["Projects/Core/Core/AST/TreeGenerator.cpp: process_assignment_expression, process_incdecrement, process_method, process_type, process_var, resolve, resolveWithThis", "Projects/Core/Core/AST/Expression.h: SymbolExpression", "Projects/Core/Core/AST/TreeInterpreter.cpp", "Projects/Core/Core/Object.cpp: assign"]}
{"id": "C65", "title": "Declarations are read as written", "statement": "Every sequence of declarations the language allows (imports, namespaces, objects, interfaces, enumerations, members, methods, with their words, types, parameters, ancestors, default values and bodies) is accepted and enters exactly the declarations written, in order; whatever else is accepted keeps the rules: a method has a body unless it is abstract or not implemented, interfaces have no bodies, const objects have only const members and methods, default values fit their types.", "quantifier": "every token sequence; every nesting of declarations", "why_tests_cant": "Declarations nest arbitrarily and optional words combine freely.", "anchors": ["Projects/Core/Core/Designtime/Parser/Parser.cpp: checkSyntax, collectInheritance, collectDesigntimePrototypeConstraints, identify, isEnumDeclaration, isObjectDeclaration, parseParameters, parseTypeDeclaration, parseValueInitialization", "Projects/Core/Core/Designtime/Analyser.cpp: generate, createBluePrint, createInterface, createNamespace, createEnum, createLibraryReference, createMemberStub, createMethodStub"]}
{"id": "C66", "title": "Statements are read as written", "statement": "The body of a method that follows the grammar of statements (declarations, assignments, calls, blocks, if, switch, loops, try, and the single-word statements) is read as exactly the tree written, with every name meaning the declaration of the innermost scope around it, or is refused with the first error of that tree; an else belongs to the nearest if; whatever is accepted is a text of the grammar up to its end; a name declared in a block, a loop head or a catch clause is not visible behind it and does not clash with names outside of it; reading always ends.", "quantifier": "every body of a method, of any length and nesting, in every program around it", "why_tests_cant": "Statements nest arbitrarily, and names are declared and hidden in arbitrary combinations of scopes.", "anchors": ["Projects/Core/Core/AST/TreeGenerator.cpp: process, process_statement, process_keyword, process_identifier, process_assignment, process_type, process_var, process_for, process_foreach, process_if, process_switch, process_try, process_while, process_scope, generate", "Projects/Core/Core/Scope.cpp: define, resolve", "Projects/Core/Core/Tools/Tools.cpp: collectScopeTokens"]}
{"id": "C67", "title": "Imports are found, loaded once and completely", "statement": "An import names the first of the files path.slang, path.os, path/All.slang and path/All.os in the folder of the importing file, or else in the library folders; after a script has been created every import of the script and of every loaded file has been loaded, every file once however often and however circularly it is imported, and nothing else; loading ends, and it succeeds if every file that may be needed is there and can be read; the order of the library folders in SLANG_LIBRARY decides nothing.", "quantifier": "every file system, every graph of imports, every list of library folders", "why_tests_cant": "Import graphs are arbitrary, with cycles and files reachable in many ways.", "anchors": ["Projects/Core/Core/VirtualMachine/VirtualMachine.cpp: addLibraryFolder, buildFilename, createScript, createScriptFromFile, init, loadLibrary, loadExtension", "Projects/Utils/Tools/Files.cpp"]}
{"id": "C68", "title": "A program text does what the language says", "statement": "A source text of well typed methods over int, bool and string (declarations, assignments, calls and recursion, conditions, loops, blocks, print, return) is accepted, and a call of one of its methods ends with a result and an output exactly if the rules of the language derive this result and this output from the text; the rules derive at most one; a call that is stopped (a failed assert, a division by zero, a number that does not fit) or does not end has none, and no other error occurs.", "quantifier": "every source text, every method of it, all arguments, every state of the machine around the call, every number of steps", "why_tests_cant": "The property joins tokenizer, parser, type checks and interpreter over all programs; tests run a few of them.", "anchors": ["Projects/Core/Core/Designtime/Analyser.cpp: createMethodStub", "Projects/Core/Core/AST/TreeGenerator.cpp: generateAST, initialize, finalize", "Projects/Core/Core/AST/TreeInterpreter.cpp: execute, evaluate, visit, visitStatement"]}
{"id": "C69", "title": "The command line reaches the script", "statement": "Nothing behind the name of the script is taken as an option of the interpreter: the script gets its own name and every argument, in order, each on a line of its own, and their number; a request for help, version, tokens or syntax in front of it never runs it; the parameter handler of a script reads every text of words (keys, values behind '=', quotation marks, backslashes) as what the words say, anything written in quotation marks arrives unchanged, and plain arguments of the command line arrive one by one, with the script and its directory; a key stands for the first parameter with it.", "quantifier": "every list of arguments, every text of words", "why_tests_cant": "Arguments are arbitrary texts, and quoting, escapes, options and keys combine freely.", "anchors": ["Projects/slang/main.cpp: processParameters, main", "Projects/Library/libParam/ParameterHandler.os"]}
{"id": "C70", "title": "Programs with objects do what the language says", "statement": "An object has the members of its type and of every type it extends, and a new one has their start values; a name means the local variable, otherwise the member of the own object; a chain of names is followed member by member; a call runs the nearest method with this name and number of arguments, looked up from the type the object really has upwards, base.m from above the type of the calling method; an assignment changes exactly the place its left side names, and everybody who refers to the object sees it; an exception goes to the first catch part for its type or a type above it, of the innermost try around it, through calls and loops, and a program it is not caught in ends without a result; so every accepted program prints what these rules derive. A program is accepted exactly if every name is declared and visible where it is used, every call has a method with its number of arguments and exactly their types, variables get values of their type (when declared also of a type directly below), no local is declared twice in a block, methods return values of exactly their type, break and continue stand in loops, and the last control statement of a method with a value is a return.", "quantifier": "every program of classes (members, methods, constructors, inheritance, visibility) and functions over int, bool and references, every run", "why_tests_cant": "Which of several members, methods and scopes a name means depends on the whole hierarchy, on aliases and on the history of assignments.", "anchors": ["Projects/Core/Core/AST/TreeGenerator.cpp: resolve, resolveWithThis, resolveWithExceptions, resolveMethod", "Projects/Core/Core/AST/TreeInterpreter.cpp: evaluateSymbolExpression, resolveLValue, resolveRValue, resolveMethod, evaluateNewExpression, execute, initialize", "Projects/Core/Core/Object.cpp: resolve, resolveMethod, assign, Constructor", "Projects/Core/Core/Scope.cpp: MethodScope::resolve, resolveMethod", "Projects/Core/Core/VirtualMachine/Repository.cpp: createUserType", "Projects/Core/Core/Runtime/OperatorOverloading.cpp: operator_binary_assign"]}
{"id": "C71", "title": "Files hold what was written to them", "statement": "Every opened file gets a handle of its own that no other open file has; a handle that was never given is refused with an exception; what a program writes to a file with System.IO.File (numbers, truth values, texts) is read back in order, equal; writing to a new file replaces its text, appending keeps it; a file that is only opened for reading never changes, and calls on one file do not change any other; reading a number of characters answers exactly what is there and end of file is reported when the text is used up; a file exists for Exists if it can be opened; writing answers whether it worked; opening a missing file is reported; fgets answers one line; a closed handle is refused.", "quantifier": "every sequence of calls on every set of files, every list of things written", "why_tests_cant": "Histories of calls on several handles are unbounded, and each state of a stream (position, end, mode, direction) changes what the next call does.", "anchors": ["Projects/Extensions/LIBC/stdio: fopen.h, fclose.h, feof.h, fseek.h, ftell.h, fflush.h, fread.h, fwrite.h, fgetc.h, fgets.h, fputc.h, fputs.h, stdio.cpp", "Projects/Library/System/IO/File.os"]}
{"id": "C72", "title": "The CSV reader reads the table that was written", "statement": "A table of fields without commas and line breaks, written one row per line, is read back row by row and field by field; every line of the file is a row; opening another file adds its rows; the file is not changed; an index outside of the table is reported; with column titles the reader has all rows, the titles first; a missing file is reported; the place of a column is that of the first field with its name; the text of a row is its fields with bars between them.", "quantifier": "every table, every text of a file, every row", "why_tests_cant": "Tables have any number of rows and fields of any length, and the rows pass through several layers (stdio, File, string iterators, collections).", "anchors": ["Projects/Library/libCSVReader/CSVReader.os", "Projects/Library/libCSVReader/Row.os", "Projects/Library/libCSVReader/Settings.os", "Projects/Library/System/IO/File.os", "Projects/Library/System/StringIterator.os"]}
{"id": "C73", "title": "The application server answers every request with its own service", "statement": "A request is answered by the service whose name is its path, a request without a path by the default service, any other with 'not found', without running a program. The answer is what the entry point of the service prints, also if an exception ends it. The program sees the variables of its request. No request, whatever its program does to its memory or environment, changes the server or the answer to another request, unless through files. A request for a service gets an answer. Nothing behind the name of the script on the command line is an option of the server.", "quantifier": "every configuration of services, every program, every history of requests", "why_tests_cant": "Isolation is a statement about all histories of requests and all programs; the variables of requests are any texts.", "anchors": ["Projects/slang-app/Application/Application.cpp: exec, loadServices, processParameters, handle_not_found", "Projects/slang-app/Common/Service.cpp: handleRequest, prepareEnvironment, setenv_s"]}
{"id": "C74", "title": "A JSON document that is built call by call is the document that is read", "statement": "The text of a JSON builder is read by the JSON reader as exactly the document its calls added, member by member and element by element, in order, for the compact and the indented builder and for documents put into others. Every document of truth values, whole numbers, texts, arrays and objects can be built. A new document starts empty.", "quantifier": "every document, every sequence of calls for it", "why_tests_cant": "Documents nest to any depth and hold any text; separators and indentation depend on the whole sequence of calls.", "anchors": ["Projects/Library/libJsonBuilder/Builder.os", "Projects/Library/libJsonBuilder/StructuredBuilder.os", "Projects/Library/libJsonBuilder/StyledBuilder.os", "Projects/Library/libJson/Reader.os", "Projects/Library/libJson/Tokenizer.os"]}
{"id": "C75", "title": "Text functions of the extensions", "statement": "For texts without zero bytes the sign of strcmp(s, t) tells their order as in a dictionary by unsigned bytes (0 exactly for equal texts; total and transitive); in general it tells the order of what stands in front of the first zero bytes, and strncmp that of the first n characters of these. strspn and strcspn answer the length of the longest front made of (none of) the given characters. strchr, strrchr, strpbrk and strstr answer the rest of the text from the first (last) place of what is looked for. strncat(d, s, n) appends at most the first n characters of s. strpos answers the character at a place and refuses places outside of the text. toLower and toUpper replace exactly the letters by their counterparts. ascii(n) is the character with code n modulo 256, and abs is the absolute value.", "quantifier": "all texts (with and without zero bytes), all positions and numbers an int can have", "why_tests_cant": "the functions range over all texts; corner cases (zero bytes, negative numbers, nothing found, the smallest int) are not met by samples", "anchors": ["Projects/Extensions/LIBC/cstring/strcmp.h STRCMP::execute", "Projects/Extensions/LIBC/cstring/strncat.h STRNCAT::execute", "Projects/Extensions/LIBC/cstring/strchr.h STRCHR::execute", "Projects/Extensions/LIBC/cstring/strstr.h STRSTR::execute", "Projects/Extensions/System/Strings/StrPos.h StrPos::execute", "Projects/Extensions/System/Strings/ToLower.h ToLower::execute", "Projects/Extensions/System/Ascii.h Ascii::execute", "Projects/Extensions/LIBC/stdlib/abs.h ABSInt::execute", "Projects/Extensions/LIBC/math/abs.h"]}
{"id": "C76", "title": "Loggers", "statement": "A logger with a key length has a key of exactly that length, the last characters of its key or its key and blanks; a logger made from another one has the key of that one (without blanks at the end), the separator and its own key, in the same width. Every message appears once, as its level, the key and the text, in the order of logging, also when several loggers share a file, on a line of its own; a fatal message, and only that, is followed by an exception. A logger that appends keeps what the file contained.", "quantifier": "every key, key length and chain of loggers, every sequence of messages, every state of the file system", "why_tests_cant": "Keys of any length meet any width, and the content of a log depends on the whole history of messages and loggers.", "anchors": ["Projects/Library/libLog/Logger.os", "Projects/Library/libLog/FileLogger.os", "Projects/Library/libLog/StdOutLogger.os", "Projects/Library/libLog/Context.os"]}
{"id": "C77", "title": "Reading a file as a whole", "statement": "The text of a scanner is the content of its file, after it is made and after every reset, and making or resetting it changes no file. A file that is not there is reported.", "quantifier": "every file, every state of the file system", "why_tests_cant": "All contents, and files that change between two resets.", "anchors": ["Projects/Library/FileReader/Scanner.os: Constructor, reset, readFile"]}
{"id": "C78", "title": "Powers", "statement": "power(v, n) of two ints is v to the power of n, power(v) and sqr(v) are the square, whenever the result is an int; otherwise the program is told.", "quantifier": "every int and every exponent that is not negative", "why_tests_cant": "All pairs of ints; the loop runs as often as the exponent says.", "anchors": ["Projects/Library/System/Math/Functions.os: power, sqr"]}
{"id": "C79", "title": "Behaviour trees", "statement": "A sequence that is ticked until it answers Success or Failure lets its children finish one after the other, each once and in order, up to the first that fails, and then can start anew; a fallback does so up to the first that succeeds. As long as they are not done they answer as the child they have come to. The reactive versions start at the first child with every tick. An inverter answers the opposite of its child, forcing decorators run their child and answer what they force, and an interrupted child starts anew. With leaves that answer yes or no a tree is the formula with and, or and not.", "quantifier": "every tree, every behaviour of the leaves and every number of ticks", "why_tests_cant": "Leaves may answer anything at any time; trees have any size and depth, and the number of ticks until a tree is done has no bound.", "anchors": ["Projects/Library/libBehaviourTree/Control.os: Fallback, ReactiveFallback, Sequence, ReactiveSequence, SequenceStar", "Projects/Library/libBehaviourTree/Decorator.os: ForceFailureDecorator, ForceSuccessDecorator, InverterDecorator"]}
{"id": "C80", "title": "Characters", "statement": "A Character holds the first character of the text it is made from or assigned, or nothing if the text is empty; with a check only texts of one character are taken and all others throw. Copies are equal. Characters are equal if they are the same and ordered by their codes, and a Character equals a text only if the text is that character.", "quantifier": "every text and every pair of characters", "why_tests_cant": "All texts of any length.", "anchors": ["Projects/Library/System/Character.os: Character"]}
{"id": "C81", "title": "Keys of the loggers of System.IO", "statement": "The key of a logger is its name, or, if a length is given, the last characters of the name, at most as many as the length says.", "quantifier": "every name and every length", "why_tests_cant": "All names and lengths.", "anchors": ["Projects/Library/System/IO/Logger.os: Logger.Constructor"]}
{"id": "C82", "title": "Tokens of queries", "statement": "The tokenizer of csvDB reads a query as its pieces: the words that mean something in any mixture of small and capital letters, names, numbers, texts in quotes and signs, with any white space between them and with or without white space at the end. A text that is not closed is an exception.", "quantifier": "every query", "why_tests_cant": "Queries of any length with any number of pieces.", "anchors": ["Projects/Library/csvDB/Tokenizer.os: Tokenizer", "Projects/Library/csvDB/Token.os: TokenType"]}
{"id": "C83", "title": "Rules of a Sudoku board", "statement": "Setting a cell of a board with validation is taken exactly if no cell of the same line, row and box has the value, and then only that cell changes; otherwise it throws. So however a new board is filled with validation, no number is twice in a line, a row or a box. isSane says whether a full board is by the rules.", "quantifier": "every board of n times n boxes, every history of attempts to set cells", "why_tests_cant": "Boards of any size and histories of any length.", "anchors": ["Projects/Library/SudokuSolver/Board.os: Constructor, isSafe, isSane, isUsedInBox, isUsedInLine, isUsedInRow, set"]}

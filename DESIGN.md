# Formal model of slang-lang/slang in Rocq

## Method

The model lives in `rocq/theories`. Per part of the code there are up to four files:

* `X_Model.v`  – Gallina functions that follow the C++ (or Slang library) functions one by one; every definition cites
  the file and lines in /repo it models, and says where it simplifies. No proofs.
* `X_Spec.v`   – the small independent specification (plain lists, sets, relations) the theorems are stated against.
* `X_Proofs.v` – lemmas.
* `X_Props.v`  – the property theorems, an `Example` beside each showing that a non-trivial case meets the hypotheses,
  and `Print Assumptions` for each theorem.

Conventions: C++ exceptions and undefined behaviour are distinct explicit outcomes (`Throw`/`UB` constructors);
unsigned wrap-around is written `mod 2^n`; signed overflow and division by zero are `UB`; recursion that may diverge is fuelled
and running out of fuel is an explicit outcome that theorems exclude or prove unreachable. Text is `list ascii`.

A property that the faithful model violates gets a theorem `…_refuted` with a concrete witness, and (where it makes sense) the
strongest true variant, named `…_partial` when it is weaker than the English claim.

Wrong programs (`seeded/LOG.jsonl`): an edited copy of one model file is put into a scratch copy of the built theories outside
/verif, and the property files that depend on it are rebuilt with `make -k`. Part of the edits were written by hand, part were generated by a
script (conditions negated, boundaries moved, constants and components swapped), which the entry's `method` says. An edit that no
theorem noticed led to a new or tighter theorem (`theorems_tightened`, with a second entry once the edit was tried again), or has a
`note` saying why no claim becomes false. Those notes are arguments made by reading the model, not proofs.
`theorems_failed` lists theorems whose proofs no longer go through; a proof script can break although its statement is still true of the edited
program, so an entry is evidence that a theorem depends on the edited part, not a proof that it became false.

## Plan per property

| Id | What is modelled | How it is proved |
|----|------------------|------------------|
| C01 | Memory map, next address, new/add/remove | invariant over operation lists: every address handed out < next address, list of results strictly increasing |
| C02 | same | refinement: simulation between the memory map and per-address (adds - removes) counters over operation lists |
| C03 | Object::assignReference over a store of variables | invariant: count of each entry = number of variables pointing to it |
| C04 | objects with member references, recursive deletion | invariant count = in-degree; cascade terminates because entries shrink; acyclic reachability argument |
| C05, C06 | SymbolScope define/undefine/resolve with parent chain, externals, visibility | equivalence with nearest-declaration spec by induction on the chain; invariant over op lists |
| C07, C08, C09, C10 | Method signature matching, mergeParameters, operator<, defineMethod/resolveMethod | list induction; spec as declarative relation; `_refuted` for reference leakage |
| C11–C17 | Tokenizer state machine and merge passes | induction over characters with the machine state generalised; simulation between runs that differ in whitespace/comments |
| C18, C19 | SanityChecker, collectScopeTokens, findNextBalanced | counting lemma; induction on well-nested lists |
| C20–C22 | recursive descent expression parser (fuelled), printer | induction on trees with a fuel bound; `_refuted` for the printer |
| C23, C24 | type table (generated from the define calls), operator dispatch and build-in operators | functional map laws; exhaustive case analysis over types with values universally quantified; `_refuted` for the unsupported operators |
| C25, C26 | Int16/32/64/String operators with UB outcome | arithmetic over Z; total-order lemmas |
| C27 | AtomicValue conversions, decimal printing/parsing, integers as IEEE 754 numbers | induction on digits, rounding of SpecFloat |
| C28–C35 | statements of TreeInterpreter as a fuelled big-step interpreter over an abstract expression oracle; generator checks | induction on fuel / statements; simulation against a declarative big-step relation; `_refuted` for NAND/NOR, for-loop scope leak, return and throws checks |
| C36–C39 | isInstanceOf, resolve through base, prepareParents, defineMethod override rules | graph reachability; well-founded induction; `_refuted` for cycles longer than two |
| C40 | buildEnum on entry lists | list induction |
| C41 | constraint lists, type names | list induction, injectivity |
| C42, C43 | SemVer parse/toString/compare (C++ and libSemVer) | string lemmas; order lemmas; `_refuted` for label comparison |
| C44, C45 | slang-pkg dependency preparation and restriction checks over an abstract repository | closure invariant; well-founded recursion on acyclic graphs; `_refuted` for cycles |
| C46–C48 | Utils string/file functions, configuration reader | list induction |
| C49–C54 | library collections as linked nodes in a heap | representation invariant (heap segment) and refinement to lists; `_refuted` for pop_back / Stack.pop / Set |
| C55, C61, C62 | System.String, its iterators and the string extension functions | list lemmas; invariant over histories (length = number of characters) |
| C58, C60 | ancestor sets of a declaration; abstract methods and instantiation | list induction; `_refuted` for ancestors that compare equal |
| C59 | Range and the random access iterators, int arithmetic with overflow as UB | induction on the index; `_refuted` for counting down |
| C63 | libJson writers, tokenizer and reader as functions on texts and tokens | token relation composed along the writer's output; structural induction; `_refuted` for numbers, quotes, leading false, single values |
| C64 | the generator's const checks and the interpreter's stores on a core language of classes, methods and statements | type soundness and a frame invariant, by mutual induction on the fuel of the interpreter; `_refuted` for each hole |
| C65 | checkSyntax and the parse functions of Parser.cpp, the create functions of Analyser.cpp over token lists | an inductive grammar of declarations; acceptance by mutual induction over it; soundness and termination by induction over the fuel for all token lists; `_refuted` where the reader is too lax or too strict |
| C66 | process, process_statement and the functions of the statements of TreeGenerator.cpp over token lists, with the stack of scopes | an inductive grammar of statements and a compositional meaning; equality of reader and meaning by mutual induction over the grammar; soundness, termination and scope discipline by induction over the fuel for all token lists; `_refuted` where the reader is too lax or too strict |
| C67 | createScriptFromFile, loadLibrary, buildFilename and the path functions of Files.cpp over a file system given as a list of entries | paths and their spelling; an invariant of the loader by induction over its depth: no file twice, canonical names, every finished file closed under imports; a measure (files left) for the end; `_refuted` for the surprising cases |
| C68 | load_text: the models of tokenizer, Analyser, TreeGenerator and TreeInterpreter composed, with the translation between the node types of the reader and the interpreter | a static semantics (checks) and a big-step semantics of the surface syntax in Run_Spec; typed trees as an inductive relation between both sides; soundness and completeness of the interpreter with respect to the big-step rules by mutual induction over derivations and by induction on the steps |
| C69 | processParameters and main's choice of action; ParameterHandler.os with its scanner as a state machine over the characters of the library iterator | a grammar of words with its meaning in Args_Spec; the scanner on a written word by induction on its pieces, then on the words; options by induction on their relation |
| C70 | names and methods of classes: lookups of the generator on blueprints, of the interpreter on layered objects, and a program of both (declarations, assignments, calls, new, chains, conditions, while loops with break and continue, throw and try with catch parts for types, blocks) | big step rules over flat objects in Obj_Spec; a relation between flat and layered heaps; induction on the derivation, with the fuel each rule needs; acceptance as an equivalence with a judgement over types and visibility (Obj_Accept); the programs outside of the fragment by witnesses |
| C71 | streams of the C library (C11 7.21 with undefined behaviour explicit), the handle table of the extension, the calls and File.os on top | an invariant of all histories of calls (handles, streams and files fit together); frame lemmas per call; round trips by induction on what is written |
| C72 | CSVReader.os, Row.os over the models of File.os and StringIterator.os | the reader as cut at line breaks, then at commas, by induction on the lines; composed with the round trip of C71 |
| C73 | slang-app: the loop over requests with fork, the choice of the service, prepareEnvironment, the command line; programs of services as a parameter | which service and which variables in App_Spec over names and values of a request, refined to the texts NAME=VALUE; isolation by induction on the history of requests |
| C74 | the JSON builders as one program with a style, together with the reader of C63 | calls for a document as mutually inductive judgements; every list of calls appends a text with the tokens of its document (induction on the judgement), then the reader on tokens |
| C75 | text functions of the extensions over lists of characters, C functions on what stands in front of the first zero byte | inductions over the texts against dictionary order, longest fronts, first and last places |
| C76 | the loggers of libLog over the text functions of C61 and the files of C71 | keys against a two-case specification of width; induction over the messages, with the writing theorem of C71 |
| C77 | the scanner of FileReader over the files of C71 | the reading and seeking lemmas of C71 |
| C78 | the loops of System.Math.power over the int operators of C25 | induction over the exponent |
| C79 | ticks of the control nodes and decorators of libBehaviourTree, with leaves that do anything | a tree ticked until it is done against children that take turns, both directions, by induction over the ticks; trees as formulas by induction over the tree |
| C80 | constructor, assignment and comparisons of System.Character | direct, by cases on the texts |
| C81 | the constructor of System.IO.Logger | arithmetic of the cut |
| C82 | the tokenizer of csvDB | queries described piece by piece, induction over the pieces; the letters by all 256 codes |
| C83 | the board of SudokuSolver | the cells of a box by division, invariant over the history of attempts |
| C56 | StackFrame/Thread stacks | induction over balanced histories |
| C57 | Debugger breakpoint set | finite-map refinement |

Not expressible / out of scope: floating-point rounding (double and float operations are opaque), the host operating system calls
(files, sockets, fork), real thread interleavings (the interpreter runs Slang threads synchronously), JSON parsing by the external library.

## Trusted base

* Coq's kernel (8.16.1; `vm_compute` is used in examples and finite case analyses) and the fidelity of the model to the cited code.
* No axioms: for every property theorem `Print Assumptions` (written beside each theorem in `X_Props.v`) prints
  "Closed under the global context". No axiom, parameter, functor, module type or open obligation is declared; no kernel check is
  switched off. A checker that lists the library axioms of the *loaded* modules shows the fields of `Coq.ssr.ssrunder` (and, where
  `Floats.SpecFloat` is loaded, nothing more): they come with loading the standard library and std++ and no theorem here uses them.
* Libraries used: Coq's standard library and std++.
* Parts of the world outside the model are universally quantified parameters of the theorems: the conversions between floating-point
  numbers and text (`fio`), extension methods (`p_ext`), the static type function of expressions (`ty`), the package server, the
  file system look-ups.

## What is modelled

| Files of the model | Code in /repo |
|---|---|
| Memory_* | Core/VirtualMachine/Memory.cpp, Object::assignReference and destruction, Object.cpp |
| Scope_* | Core/Common/... symbol scopes, Method.cpp signatures, method overloads, member look-up |
| Text_*, SemVer_* | Utils (strings, conversion), libSemVer / SemVer comparison |
| Tok_* | Core/Tokenizer.cpp, Token categories, merge passes |
| Parse_*, | Core/AST/TreeGenerator.cpp expressions, SanityChecker, token helpers, the tree printer |
| TypeTable, TypeSys_*, Value_* | Core/Designtime/TypeSystem*, BuildInTypes operators, AtomicValue |
| Interp_* | Core/AST/TreeInterpreter.cpp statements and expressions |
| Gen_* | control-flow checks of TreeGenerator.cpp |
| Inherit_* | isInstanceOf, createBluePrint/prepareParents, method overriding, abstract types, ancestor sets |
| Proto_*, Enum_* | prototype (generic) instantiation, enumerations of Designtime/Analyser.cpp |
| Pkg_* | slang-pkg dependency preparation and restrictions |
| Conf_*, Frame_*, Debug_* | configuration reader and paths (Utils/Common), StackFrame/Threads, Debugger |
| Coll_*, SysStr_*, Range_* | the Slang library: List, Vector, Stack, Queue, Map, Set, DoubleLinkedList, String, iterators, Range |
| Json_* | libJson: values, writers, tokenizer, reader |
| Const_* | const checks of AST/TreeGenerator.cpp and Expression.h, assignment, calls and object creation of AST/TreeInterpreter.cpp and Object.cpp (one atomic type, no inheritance, no overloads) |
| Decl_* | Designtime/Parser/Parser.cpp (all of the declaration parsing) and Designtime/Analyser.cpp (generate and the create functions; resolveType, the scopes the symbols are entered in and the default constructor are left out) |
| Stmt_* | AST/TreeGenerator.cpp: reading of statements and their scopes (whether a type can be iterated over is a parameter; prototype types and qualified type names are not modelled) |
| Import_* | VirtualMachine.cpp: init (library folders), addLibraryFolder, createScript up to the generation, createScriptFromFile, loadLibrary, buildFilename; Files.cpp: exists, GetFullname (GNU realpath, no links), BuildPath. What a file declares is Decl_*; refusals of the declared types and of extensions are parameters |
| Run_* | TreeGenerator.cpp: generateAST, initialize, finalize; the node classes shared by generator and interpreter; everything else is composed from Tok_*, Decl_*, Parse_*, Stmt_*, Gen_* and Interp_*. Only methods outside of objects, parameters by value without default values, no overloading |
| Args_* | slang/main.cpp: processParameters, main (the choice of action; not the runs themselves); libParam/ParameterHandler.os: constructor, insertParameter, process, operator[], contains, remove. The list of parameters is a list |
| Obj_* | TreeGenerator.cpp: resolve, resolveWithThis, resolveWithExceptions, resolveMethod and the statements and expressions around them; TreeInterpreter.cpp: evaluateSymbolExpression, resolveLValue, resolveRValue, resolveMethod, evaluateNewExpression, execute, initialize; the type checks of declarations, assignments, arguments and results (TypeSystem.cpp, Repository.cpp:726-747, Common/Method.cpp:236-286); the check of break, continue and return (mControlFlow, finalize); visitWhile, visitThrow, visitTry (catch parts for types), tryControl; Runtime/OperatorOverloading.cpp: operator_binary_assign; Object.cpp: resolve, resolveMethod, assign, Constructor; Scope.cpp: MethodScope; Repository.cpp: createUserType. Not modelled: static members, overloads with the same number of parameters, operator methods, casts of numbers, exceptions out of constructors and out of calls behind an expression, catch parts for everything, finally and throw without a value (C31), destructors and the release of objects, for and foreach loops and switch, generics. The bodies of loops and of if are blocks |
| File_* | Extensions/LIBC/stdio: fopen.h, fclose.h, feof.h, fseek.h, ftell.h, fflush.h, fread.h, fwrite.h, fgetc.h, fgets.h, fputc.h, fputs.h, stdio.cpp (handle table); Library/System/IO/File.os. The C library is modelled by the rules of C11 7.21 with the mode parsing of glibc. Simplified: no buffering, no input or output errors, fputs answers 1. Not modelled: remove, rename, tmpfile, tmpnam, ungetc, clearerr, ferror, rewind, perror, freadd, freadf, fwrited, fwritef. |
| Csv_* | Library/libCSVReader: CSVReader.os, Row.os, Settings.os. Not modelled: csvDB. |
| App_* | slang-app/Application/Application.cpp: exec, processParameters, handle_not_found; Common/Service.cpp: handleRequest, prepareEnvironment, setenv_s. Programs of services are a parameter; FCGX_GetParam, fork, waitpid and setenv as documented. Not modelled: init (the library folders), the reading of services.json by jsoncpp (its members are a list), logging |
| Build_* | Library/libJsonBuilder: Builder.os, StructuredBuilder.os, StyledBuilder.os. Not modelled: float and double values |
| CStr_* | Extensions/LIBC/cstring/*.h (without strcoll), Extensions/System/Strings: StrPos.h, ToLower.h, ToUpper.h, Extensions/System/Ascii.h, abs of LIBC/stdlib and LIBC/math. The C functions as in C11 7.24. Which calls the generator accepts is not part of this (strstr declares its second parameter as int, strchr and strrchr their results) |
| Lib_* | Library/libLog: Logger.os, FileLogger.os, StdOutLogger.os (keys), Context.os (files); Library/FileReader/Scanner.os; Library/System/Math/Functions.os for int. Not modelled: StdOutContext, deleting contexts, powers of float and double |
| Tree_* | Library/libBehaviourTree: Control.os, Decorator.os. Leaves are a parameter. Nodes are in one place of one tree, decorators have a child, the Status of control nodes and what is printed are left out; that SequenceStar cannot read the private Index of Sequence is taken from C70. Not modelled: RepeaterDecorator, Factory.os, Port.os |
| Char_* | Library/System/Character.os, Library/System/IO/Logger.os (the key). Not modelled: the methods of Logger that print, the typecast of a Character to int |
| Query_* | Library/csvDB: Tokenizer.os, the types of Token.os. Positions and the value of EOF are left out. Not modelled: QueryExecutor.os, Expressions.os, App.os |
| Sudoku_* | Library/SudokuSolver: Board.os without Copy, toString and the search (calculatePossibleValues, solve). Cells are a function of two numbers, ints do not overflow. |

Not modelled: the HTTP and socket extensions, databases, message queues, Sleep and the time functions, fork and real thread interleavings (beyond
what the rows of App_* and File_* say), printing of syntax trees to files, optimizer passes, the other command line front ends, and the
libraries libYAML, csvDB (but for its tokenizer), SudokuSolver (but for its board), Basic-Token, Alpen and RepoIndexer. Double and float values are IEEE numbers of `SpecFloat`;
their operators are modelled only where the text says so.

## Findings (properties the code violates; theorems `…_refuted`)

* **Memory and scopes.** releasing more often than acquiring wraps the counter; cycles of references leak; a destructor that stores `this` revives a deleted object.
* **Tokenizer.** a literal that is never closed is no error, it disappears with everything behind it (C15_open_literal_refuted); `1.2` without suffix and `1.2i` are syntax errors; a separate word `d`/`f` after a number is taken as its suffix; tokens next to `operator` become identifiers but keep their category; `a - -b` without blanks is read as `--`.
* **Parser.** `f(1 2, 3)`: junk between arguments is skipped, a trailing comma is accepted, junk without a later comma runs past the tokens (UB); `x 5` is UB; the ternary operator binds tighter than the operators on its left; `a != b` prints as `a == b` and printing loses parentheses; the sanity check accepts `)(`; a typecast swallows the following expression; the check of a range's right operand looks at the left type.
* **Operators.** integers from 2^24 (float) and 2^53 (double) on lose digits when converted; NAND/NOR truth tables; mixed-type equality is not symmetric; `false` converted to text and back is `true`; `%=` is printed as `*=`.
* **Interpreter.** a return inside a constructor stops the caller; an exception in a for initialisation does not stop the loop; an exception in an assigned expression is swallowed; an exception in a constructor is lost when the new object is an argument of an extension method; `continue` in a switch restarts it; `exit` skips finally; a try without catch swallows the exception; finally overwrites a pending exception; a for loop left by break/return/throw leaks its scope; a break in the iteration statement of a for loop escapes from it.
* **Scopes.** a for loop left by break, return or an exception keeps its scope; after `int i = 5; try { int i = 6; for ( ; ; ) { return; } } finally { print(i); }` the output is 6; an exception from an iterator method of a foreach loop skips the closing of scopes and frames on its way (the frame of the failed method stays on the stack).
* **Printer.** brackets and `!=` are lost, `true` is printed as `1`, postfix steps as prefix steps, `?:` as a full conditional, `a - (-b)` as `a--b`, a cast of a cast.
* **Generator.** a method with a path without return is accepted; a rethrow, a throw in a catch clause and a throw in finally are not recorded for `throws`.
* **Inheritance.** instance-of does not follow interfaces of interfaces; circles of three or more types diverge undetected; two parents offering the same name are refused although acyclic; the overriding contract is not applied between a type and its base; `override` of nothing is accepted; the order of ancestors is not an order: a repeated ancestor is kept twice, of two that differ only in the number of type arguments one is lost; inherited unimplemented abstract methods do not prevent instantiation; `abstract object` can be instantiated; prototype constraints look at direct inheritance only.
* **Prototypes.** nested type arguments (`List<List<int>>`) run past the tokens (UB); a qualified argument is read as three arguments; commas between arguments are optional; a member argument that is no placeholder becomes Object; identifiers in bodies equal to a placeholder name are replaced.
* **Enumerations.** a missing trailing semicolon and an empty declaration are UB; tokens after the first `;` are ignored; an oversize literal is clamped and the next entry overflows (UB); any int can be assigned to an enumeration variable.
* **Package manager.** cyclic dependencies diverge; the minimum version is overwritten by the last downloaded document; the maximum version is ignored; an installed older version is accepted; a module unknown to the server is not noticed; restrictions are not applied to dependencies; modules are installed alphabetically, not in dependency order.
* **Configuration and paths.** a setting on a last line without line feed is lost; without a separator directory and file part are both the whole path; a trailing dot stays in the stem; a dot in a directory name starts an extension; GetFullname reads an uninitialised buffer when realpath fails.
* **Frames and debugger.** popping an empty stack is UB; scopes open when their frame is popped leak; removing an absent break point is UB; file names with blanks are not read back.
* **Collections.** pop_back and Stack.pop only decrement the size; erase(size) is accepted; DoubleLinkedList.push_front on the empty list loses the tail; Set never rejects duplicates and Set.last is wrong; Map.indexOf is always 0; Map.insert does not check for duplicates; Queue.peek returns the last element; List.Copy shares its items; a fresh reverse iterator's next throws although hasNext; counting down with Range throws, as does a range whose start lies less than one step behind its end.
* **Strings.** `<<` does not update the length; EndsWith with a longer argument throws; ReplaceAll need not end; operator[](first, last) is empty inside the string; iterating over characters yields an extra empty text; splitting by the empty text does not end.
* **JSON.** numbers come back as strings; texts are not escaped, so a quote changes the structure of the document and a backslash is lost; an array whose first of several elements is `false` is written without the comma behind it; a document that is a single value cannot be read; a missing closing bracket at the end and a bracket never opened are accepted; the letters q and Q are no characters.
* **Const.** const members are modified by any modify method (members are never const at design time); `this.x = 1`, `this.x++` and `this.m.set()` are accepted in const methods; a const object can be modified through a second variable (`Foo g = f`) or a parameter that is not written with `ref`; a const number copied from one made with `new` changes with it, and so does a member in a const method; a local with a parameter's name is accepted and throws at run time.
* **Declarations.** `public stable enum` is refused; a file or body cut off within a declaration is read past its end (UB); behind an interface declared in an interface the outer one is read as an object; an object in an interface cannot have bodies; any token separates parameters, and `f(int a int b)` is accepted with an unnamed second parameter; any token is taken for the semicolon of an abstract method, so a `public` there is lost; `B<C.D>` has three type arguments; `int16 x = 40000` is cut to -25536; commas between ancestors and points between the names of a namespace may be missing, as may its name; `val` on a member is recorded as unspecified.
* **Statements.** most statements need no semicolon (`a = f() f()`), yet without one at the end of a block the reader looks behind the last token (UB); `if (p) f(); else g();` is a syntax error; any token passes for the separators in the head of a for loop; `finally {} finally {..}` and a catch behind finally are accepted; a name declared by the statement behind if or while is visible behind it; a local hides the parameter of the same name and is visible in its own initial value.
* **Imports.** `import Net.Http.Client` loads `Net.os` if there is no folder `Net`; the folders of SLANG_LIBRARY are searched in alphabetical order, not in the order given; the folder of every loaded library becomes a library folder, so that `import X.a; import b;` works while `import b; import X.a;` does not; a script that is imported by a library is read a second time; a file where a folder is expected leaves a buffer unset (UB); an extension in a script given as text dereferences the end of an empty set (UB).
* **From text to run.** A local variable named like a parameter is accepted and fails with DuplicateIdentifier when it runs; `var x = x` takes the type of the outer x and the value of the new one; the variable of a for loop left by break survives the loop; a return in one branch is enough to satisfy the check for a missing return, and the call then has no value; `while (c) break;` is refused although `while (c) { break; }` is accepted; `n++` has the new value.
* **Command line.** An argument with a blank or line break is split by the ParameterHandler, whose assertion on argc then fails; so it does for an argument that is empty or reads false (the text is converted to bool to see whether it is empty); `a=b=c` becomes the key b with value c; a blank at the end adds a nameless parameter; a script whose name contains `=` loses the front of it.
* **Objects.** A parameter or local with the name of a member cannot be read or written (`void set(int x) { this.x = x; }` keeps the old value); a method of a base class that calls an overridden method of its own object runs the one of the base; `this` handed out by an inherited method is null; the arguments of a call behind a call are looked up in the called object; a private member of a base is accepted in a derived class and fails with NullPointerException at run time, and so does `other.x` when other is of a derived class; a chain through a member that is null continues in the object that has the member: `node.next.value` is `node.value` at the end of a list, and an assignment to it changes node; a chain `a.x` from an own member a whose type has no x is accepted and reads the own x (or a local x), since the generator goes on where it got lost; in the same way `base.m()` runs the own m; behind an own member nothing is private, so that a class can read and write private members of other classes. An assignment compares the new object with the type of what the variable holds, not with the type it was declared with: after `Base b = new Derived()` the accepted `b = new Base()` throws InvalidOperation.
* **Files.** `write` of a number, a bool or a text answers false when it was written; fclose leaves the handle in the table, so using it again is undefined behaviour instead of an exception; opening a missing file with System.IO.File uses the null pointer (undefined behaviour) instead of answering false; `write(int)` and `write(bool)` answer false when they worked and true when they did not; AccessMode.ReadWrite opens for reading only; fgets with a size over 1024 reads several lines and answers the last; fgetc answers the decimal code of the character; reading an int at the end of a file answers a number without any sign; reading a bool from a byte other than 0 and 1 is undefined behaviour; texts are cut at a zero byte; getSize is the size from when the file was opened.
* **CSV.** A last line without a line break is lost; a reader with column titles keeps only the titles; a file called `false` is not opened by the constructor; a missing file is undefined behaviour instead of the exception the reader wants to throw; the text of a row drops the bar behind a first field that is empty or false.
* **Exceptions and objects.** An exception out of a method called behind an expression (`f().g()`) leaves the scope of the object of `f()` on the stack (evaluateScopeExpression returns before popScope), after which the object may be gone; the model does not follow this case. A method with a value is accepted if the last part of its last try returns, whatever the other parts do (`try { } catch(E e) { return 1; }`), and refused if the last part does not return although every path does.
* **Application server.** A request without QUERY_STRING, REQUEST_METHOD or REQUEST_URI (or without PATH_INFO) ends its process without an answer, since null pointers are used as texts; CONTENT_LENGTH and other variables are not handed over; a variable the request does not have is taken from the environment of the server (a proxy's HTTP_COOKIE, say); a service with an empty name is never asked; if fork fails the request is dropped without an answer (C73).
* **JSON builders.** Texts and keys are not escaped, so a text with quotes can add members; the functions of StructuredBuilder never start a new document; the text is always that of an object, so an array cannot be a document (C74).
* **Text functions.** strncat(d, s, n) appends s without its first n characters; strchr, strrchr, strpbrk and strstr make a text from a null pointer when nothing is found (undefined behaviour); strchr and strrchr are declared to answer an int but answer a text; strstr is declared to look for an int; abs of the smallest int is negative (stdlib) or undefined (math) (C75).
* **Loggers.** Messages to a file run together on one line; the logger that is meant to append opens the file with `w+` and empties it.
* **FileReader.** A missing file is undefined behaviour; a reset of a file that has grown reads only the old number of characters.
* **Powers.** `power(v, 0)` and negative exponents answer v; an overflow is undefined behaviour.
* **Behaviour trees.** ForceFailureDecorator and ForceSuccessDecorator never tick their child; SequenceStar throws NullPointerException with every tick; a child that a reactive node interrupts is not reset and goes on in the middle when it is ticked again.
* **Characters and loggers of System.** A Character equals every text that starts with it; a logger of System.IO whose name is shorter than the length of its key throws.
* **Queries of csvDB.** A query that ends with a number throws OutOfBoundsException (`… LIMIT 10`), names cannot contain q or Q.
* **Sudoku boards.** isSane is false for every board, since a cell finds its own value in its line. Boxes that are not as wide and high as they are many are looked at only in part.

## Theorems and assumptions

Every theorem below is closed under the global context (Print Assumptions lists nothing).

* C01 (Memory_Props.v): C01_addresses_fresh, C01_exhaustion
* C02 (Memory_Props.v): C02_counts_are_balances, C02_over_release_wraps
* C03 (Memory_Props.v): C03_variables_never_dangle, C03_self_assignment, C03_assignment_effect
* C04 (Memory_Props.v): C04_member_assignment_effect, C04_no_dangling, C04_acyclic_no_leak, C04_cycles_leak, C04_destructor_using_this_refuted
* C05 (Scope_Props.v): C05_innermost, C05_found_iff_declared, C05_current_scope_only
* C06 (Scope_Props.v): C06_symbol_scope_rejects, C06_method_scope_rejects, C06_define_effect, C06_histories, C06_method_scope_shadows_import_refuted
* C07 (Scope_Props.v): C07_rejected_iff, C07_declared_is_called, C07_strict_unambiguous_partial, C07_default_ambiguity_refuted
* C08 (Scope_Props.v): C08_accepts, C08_completed, C08_otherwise_rejected
* C09 (Scope_Props.v): C09_alias_exact, C09_no_alias_refuted, C09_no_alias_partial
* C10 (Scope_Props.v): C10_strict_order, C10_equivalent_iff_same_signature
* C11 (Tok_Props.v): C11_one_eof_partial, C11_one_eof_refuted, C11_no_underflow, C11_underflow_refuted, C11_trailing_word_refuted
* C12 (Tok_Props.v): C12_layout
* C13 (Tok_Props.v): C13_line_comment, C13_hash_comment, C13_block_comment, C13_hash_glues_refuted, C13_slash_comment_refuted, C13_adjacent_comments_refuted
* C14 (Tok_Props.v): C14_lexemes, C14_spelling_unique, C14_spelling_total, C14_plain_tokens, C14_operator_word, C14_touching_lexemes, C14_whole_numbers, C14_fractions, C14_separate_suffix
* C15 (Tok_Props.v): C15_literal, C15_escaped_text, C15_open_literal_refuted
* C16 (Tok_Props.v): C16_positions_partial, C16_every_token_partial, C16_monotone_partial, C16_line_counts, C16_escaped_newline_refuted
* C17 (Tok_Props.v): C17_nothing_left_to_join, C17_text_kept, C17_others_kept, C17_tilde_assign_refuted, C17_modulo_text_refuted, C17_number_word_refuted
* C18 (Parse_Props.v): C18_accepts_iff, C18_rejects, C18_well_bracketed, C18_order_refuted
* C19 (Parse_Props.v): C19_tree_generator, C19_parser, C19_unique, C19_search_parenthesis, C19_search_bracket, C19_search_found
* C20 (Parse_Props.v): C20_parenthesised, C20_accepted, C20_sound, C20_source_tokens, C20_terminates, C20_fuel_irrelevant, C20_stray_argument_refuted, C20_trailing_comma_refuted, C20_undefined_refuted
* C21 (Parse_Props.v): C21_grammar, C21_unambiguous, C21_stronger_first, C21_left_first, C21_chain, C21_conditional, C21_conditional_refuted
* C22 (Parse_Props.v): C22_print_reads_partial, C22_brackets_refuted, C22_unequal_refuted, C22_lost_refuted
* C23 (Value_Props.v): C23_first_definition_wins, C23_errors_classified, C23_exists_agrees, C23_definitions_are_kept, C23_comparisons_announce_bool, C23_comparisons_announce_bool_refuted, C23_class_defaults
* C24 (Value_Props.v): C24_admitted_combining_runs_partial, C24_admitted_combining_runs_refuted, C24_announced_type_partial, C24_announced_type_refuted, C24_deciding_runs, C24_assignment_runs, C24_casts_run, C24_enum_cast_refuted, C24_unary_plus_refuted, C24_unary_refused, C24_not_is_opposite, C24_concatenation, C24_enum_arithmetic_refuted, C24_connectives, C24_references, C24_objects_refused, C24_float_with_bool_refused
* C25 (Value_Props.v): C25_unary_exact_or_undefined, C25_exact_or_undefined, C25_operands_cut, C25_never_undefined_refuted, C25_smallest_remainder_refuted, C25_int16_results_are_int16_refuted, C25_floating, C25_floating_single, C25_floating_mixed
* C26 (Value_Props.v): C26_integers_one_order, C26_strings_one_order, C26_dictionary_total, C26_doubles_trichotomy, C26_mixed_equality_symmetric_refuted
* C27 (Value_Props.v): C27_integers_round_trip, C27_text_to_number, C27_text_too_large, C27_text_without_number, C27_bool_round_trip_partial, C27_bool_round_trip_refuted, C27_text_truth, C27_truth, C27_integers_as_double, C27_integers_as_float, C27_integers_as_double_refuted, C27_float_as_double, C27_bool_as_number, C27_bool_as_text
* C28 (Interp_Props.v): C28_short_circuit, C28_truth_table, C28_exceptions, C28_negated_partial, C28_nand_refuted, C28_nor_refuted
* C29 (Interp_Props.v): C29_fuel_irrelevant, C29_deterministic, C29_block, C29_rest_not_executed, C29_while, C29_if, C29_jumps_absorbed, C29_structured_semantics_partial, C29_plain_programs_partial, C29_constructor_return_refuted, C29_constructor_exception_refuted, C29_for_init_refuted, C29_assignment_exception_refuted
* C30 (Interp_Props.v): C30_switch, C30_first_equal_case, C30_default, C30_no_default, C30_leaving
* C31 (Interp_Props.v): C31_try_partial, C31_first_accepting_clause, C31_unaccepted_goes_on, C31_finally_once, C31_exit_refuted, C31_no_clauses_refuted, C31_pending_exception_refuted
* C32 (Interp_Props.v): C32_scopes_balanced_partial, C32_only_own_frame_partial, C32_calls_balanced_partial, C32_no_raise_partial, C32_for_partial, C32_for_break_refuted, C32_return_finally_refuted, C32_foreach_throw_refuted
* C33 (Gen_Props.v): C33_jumps_stay_in_method_partial, C33_expressions_do_not_jump_partial, C33_stray_jump_rejected, C33_cases_leave, C33_for_step_refuted
* C34 (Gen_Props.v): C34_returns_partial, C34_return_value, C34_no_return_rejected, C34_return_types, C34_missing_return_refuted
* C35 (Gen_Props.v): C35_own_exceptions_partial, C35_uncaught_rejected, C35_rethrow_refuted, C35_throw_in_catch_refuted, C35_throw_in_finally_refuted
* C36 (Inherit_Props.v): C36_instance_of_partial, C36_instance_of_reachable, C36_interface_of_interface_refuted, C36_own_type, C36_inherited, C36_every_object, C36_creation
* C37 (Scope_Props.v): C37_nearest_class, C37_member_access_stays_inside, C37_outer_only_if_not_inherited, C37_designtime, C37_methods_nearest_class, C37_private_base_members_hidden_refuted
* C38 (Inherit_Props.v): C38_order, C38_circle_never_accepted, C38_taken_over, C38_acyclic_accepted, C38_short_circles_partial, C38_long_circle_refuted, C38_same_name_refuted
* C39 (Inherit_Props.v): C39_contract_partial, C39_nothing_else_lost, C39_final_kept, C39_unambiguous, C39_accepted, C39_other_names, C39_final_of_base_refuted, C39_override_of_nothing_refuted
* C40 (Enum_Props.v): C40_accepted_iff, C40_increasing, C40_distinct, C40_rest_ignored_refuted, C40_no_semicolon_refuted, C40_empty_refuted, C40_only_entries_refuted
* C41 (Inherit_Props.v, Proto_Props.v): C41_bound, C41_indirect_bound_refuted, C41_name_is_written_form, C41_names_injective, C41_missing_type_is_object, C41_read_back, C41_positions, C41_nested_argument_refuted, C41_qualified_argument_refuted, C41_junk_accepted_refuted, C41_first_constraint, C41_merge, C41_method, C41_once, C41_member, C41_member_arguments, C41_concrete_argument_refuted, C41_argument_position_refuted, C41_fill, C41_instantiate
* C42 (SemVer_Props.v): C42_parse_print, C42_parsed_roundtrip, C42_parsed_roundtrip_overflow_refuted, C42_library
* C43 (SemVer_Props.v): C43_numbers_and_prereleases, C43_labels_refuted, C43_strict_order_partial, C43_library_strict_order, C43_library_greater, C43_library_false_label_refuted, C43_next_is_newer, C43_next_is_least
* C44 (Pkg_Props.v): C44_visits_exactly_what_is_needed, C44_closed, C44_schedules_only_what_is_needed, C44_terminates_without_cycles, C44_deterministic, C44_cycles_refuted, C44_architecture, C44_only_architecture, C44_install_unpacks_what_is_needed, C44_update, C44_minimum_version_refuted, C44_installed_version_refuted, C44_maximum_version_refuted, C44_missing_module_refuted
* C45 (Pkg_Props.v): C45_check, C45_install_refuses, C45_dependencies_refuted, C45_configuration, C45_product_refuted, C45_outdated
* C46 (Text_Props.v): C46_split_at_first, C46_split_of_join, C46_trim_exact, C46_trim_characterised, C46_trim_idempotent, C46_extract_quoted, C46_compare_without_case
* C47 (Conf_Props.v): C47_load_total, C47_last_line_wins, C47_unset_key, C47_reading_unique, C47_order_of_unrelated_lines, C47_reload_forgets, C47_written_is_read, C47_indexed, C47_last_line_refuted
* C48 (Conf_Props.v): C48_directory_and_file, C48_joined_path, C48_no_separator, C48_no_separator_refuted, C48_stem_and_extension, C48_joined_extension, C48_no_extension, C48_trailing_dot_refuted, C48_directory_dot_refuted, C48_module_paths_differ
* C49 (Coll_Props.v): C49_sequences_partial, C49_erase_behind_end_refuted, C49_double_push_front_refuted, C49_copy_refuted
* C50 (Coll_Props.v): C50_pop_back_partial, C50_last_after_pop_refuted, C50_push_after_pop_refuted, C50_stack_partial, C50_second_pop_refuted
* C51 (Coll_Props.v): C51_first_in_first_out, C51_peek_refuted
* C52 (Coll_Props.v): C52_finite_map, C52_insert_twice_refuted, C52_index_of_refuted
* C53 (Coll_Props.v): C53_histories_partial, C53_sorted, C53_duplicates_refuted, C53_last_refuted
* C54 (Coll_Props.v): C54_iteration_in_order, C54_current, C54_reverse_refuted, C54_empty, C54_previous_refuted
* C55 (SysStr_Props.v): C55_length_counts, C55_append_length_refuted, C55_append_length, C55_replace_first, C55_replace_nothing, C55_replace_all_shorter, C55_replace_all_ends_refuted, C55_remove_char, C55_remove_outside, C55_char_at, C55_starts_with, C55_contains, C55_ends_with_partial, C55_ends_with_longer_refuted, C55_index_of, C55_last_index_of, C55_sub_string, C55_cut, C55_range_refuted, C55_trim
* C56 (Frame_Props.v): C56_balanced_restores, C56_frame_pop_restores, C56_frame_kept, C56_defined_iff, C56_pop_empty_refuted, C56_never_reported, C56_new_scope_nested, C56_deleted_once, C56_open_scopes_leak_refuted, C56_frame_levels, C56_frame_numbers, C56_break_allowed, C56_thread_numbers
* C57 (Debug_Props.v): C57_latest_request, C57_is_break_point, C57_listed_in_order, C57_stops_iff, C57_no_receiver, C57_enter_exit, C57_remove_iff, C57_remove_absent_refuted, C57_delete_by_number, C57_store_load, C57_store_blank_refuted, C57_one_receiver, C57_unregister, C57_condition, C57_condition_missing
* C58 (Inherit_Props.v): C58_all_kept, C58_order_independent, C58_order, C58_repeated_refuted, C58_arguments_refuted, C58_extends_something
* C59 (Range_Props.v): C59_ascending, C59_enumeration_unique, C59_empty_partial, C59_empty_refuted, C59_descending_refuted, C59_zero_step, C59_new_step, C59_current, C59_no_current
* C60 (Inherit_Props.v): C60_own_abstract, C60_created_is_concrete, C60_concrete_created, C60_inherited_abstract_refuted
* C61 (SysStr_Props.v): C61_split_cuts, C61_join, C61_split_of_join, C61_empty_separator_refuted, C61_after_append_refuted, C61_characters_partial, C61_characters_refuted
* C62 (SysStr_Props.v): C62_pad, C62_pad_refused
* C63 (Json_Props.v): C63_round_trip_partial, C63_read_back, C63_both_writers, C63_one_reading, C63_same_text, C63_number_refuted, C63_quote_refuted, C63_backslash_refuted, C63_false_first_refuted, C63_single_value_refuted, C63_unclosed_refuted
* C64 (Const_Props.v): C64_const_variable_refused, C64_const_parameter_refused, C64_modify_call_refused, C64_member_refused, C64_own_class_call_refused, C64_var_refused, C64_const_argument_refused, C64_const_variables_keep, C64_const_numbers_keep_partial, C64_types_keep_partial, C64_const_methods_partial, C64_const_members_refuted, C64_const_method_this_refuted, C64_const_parameter_alias_refuted, C64_const_argument_refuted, C64_const_numbers_refuted, C64_const_method_copy_refuted
* C65 (Decl_Props.v): C65_read_as_written, C65_text, C65_unambiguous, C65_independent, C65_accepted_sound, C65_ends, C65_type_arguments, C65_enum_words_refuted, C65_cut_off_refuted, C65_nested_interface_refuted, C65_object_in_interface_refuted, C65_separators_refuted, C65_semicolon_refuted, C65_qualified_argument_refuted, C65_colon_refuted, C65_too_large_refuted, C65_missing_signs_refuted, C65_val_refuted
* C66 (Stmt_Props.v): C66_read_as_written, C66_unambiguous, C66_every_tree, C66_sound, C66_terminates, C66_rounds_irrelevant, C66_scopes, C66_innermost, C66_closed, C66_block_apart, C66_semicolon_refuted, C66_else_refuted, C66_for_refuted, C66_finally_refuted, C66_branch_scope_refuted, C66_parameter_refuted, C66_last_semicolon_refuted
* C67 (Import_Props.v): C67_resolution, C67_missing_folder, C67_name_refuted, C67_once, C67_everything, C67_only_needed, C67_terminates, C67_succeeds, C67_order_of_folders, C67_first_folder_refuted, C67_import_order_refuted, C67_script_twice_refuted, C67_extension_refuted
* C68 (Run_Props.v): C68_accepted, C68_runs_as_the_rules_say, C68_nothing_else, C68_deterministic, C68_stopped, C68_parameter_redeclared_refuted, C68_outer_value_refuted, C68_for_break_refuted, C68_missing_return_refuted, C68_loop_body_refuted, C68_step_value_refuted
* C69 (Args_Props.v): C69_arguments, C69_no_run, C69_no_script, C69_missing, C69_words, C69_careful, C69_script, C69_lookup, C69_absent, C69_blank_refuted, C69_falsy_refuted, C69_equals_refuted, C69_end_refuted
* C70 (Obj_Props.v): C70_objects_partial, C70_one_output, C70_uncaught_partial, C70_throw_or_output, C70_check_restricts, C70_accepted, C70_fine_simple, C70_parameter_hidden_refuted, C70_no_virtual_call_refuted, C70_inherited_this_refuted, C70_argument_scope_refuted, C70_private_inherited_refuted, C70_private_of_derived_refuted, C70_null_member_refuted, C70_lost_chain_refuted, C70_no_base_method_refuted, C70_private_through_member_refuted, C70_reassigned_refuted
* C71 (File_Props.v): C71_handles, C71_unknown_handle, C71_open_is_safe_partial, C71_closed_handle_refuted, C71_others_untouched, C71_round_trip, C71_append, C71_text, C71_read, C71_write_in_place, C71_exists, C71_flush, C71_missing_file_refuted, C71_write_result_refuted, C71_write_result_others_refuted, C71_open_twice, C71_read_write_refuted, C71_gets_partial, C71_long_gets_refuted, C71_getc_refuted, C71_short_number_refuted, C71_read_bool_refuted, C71_zero_byte_refuted, C71_stale_size_refuted
* C72 (Csv_Props.v): C72_round_trip, C72_open_partial, C72_last_line_refuted, C72_titles_refuted, C72_several, C72_file_name_refuted, C72_missing_file_refuted, C72_get_idx, C72_row_text_partial, C72_row_text_refuted
* C73 (App_Props.v): C73_service, C73_not_found, C73_no_path, C73_server_unchanged, C73_history, C73_no_process, C73_independent, C73_unanswered_refuted, C73_unseen_refuted, C73_foreign_refuted, C73_empty_name_refuted, C73_arguments, C73_missing_value, C73_no_start
* C74 (Build_Props.v): C74_read_back, C74_round_trip_partial, C74_every_document, C74_nested, C74_no_reset_refuted, C74_quote_refuted, C74_number_refuted, C74_array_refuted
* C75 (CStr_Props.v): C75_strcmp, C75_seen_exists, C75_strcmp_order, C75_strcmp_equal_refuted, C75_strncmp, C75_strncmp_negative, C75_spans, C75_strchr, C75_strpbrk, C75_strstr, C75_not_found_refuted, C75_strncat, C75_strncat_refuted, C75_strpos, C75_case, C75_case_twice, C75_ascii, C75_abs, C75_abs_refuted, C75_strcat
* C76 (Lib_Props.v): C76_key_length, C76_key_free, C76_negative_length, C76_child, C76_path, C76_messages_partial, C76_lines_refuted, C76_append_refuted
* C77 (Lib_Props.v): C77_text, C77_reset_reads_again, C77_missing_file_refuted, C77_grown_file_refuted
* C78 (Lib_Props.v): C78_power_partial, C78_squares, C78_zero_refuted, C78_overflow_refuted
* C79 (Tree_Props.v): C79_sequence, C79_fallback, C79_unfinished, C79_reactive_sequence, C79_reactive_fallback, C79_inverter, C79_formula, C79_forced_child_refuted, C79_star_refuted, C79_interrupted_refuted
* C80 (Char_Props.v): C80_first, C80_checked, C80_compare, C80_with_text, C80_longer_text_refuted
* C81 (Char_Props.v): C81_key_partial, C81_key_free, C81_short_key_refuted
* C82 (Query_Props.v): C82_tokens_partial, C82_number_at_end_refuted, C82_q_refuted, C82_open_text
* C83 (Sudoku_Props.v): C83_set, C83_rules, C83_sane_refuted, C83_box_refuted

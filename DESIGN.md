# Formal model of splint: design

Source under study: splint (C), pinned commit, read as text from `/repo`.
Nothing in `/repo` is built or run.

## Layout

* `rocq/theories/<Comp>_model.v` – transcription of the C functions of one component
  as total Gallina functions.  Every definition cites file and lines.
  No proofs in model files (except what a definition itself needs).
* `rocq/theories/<Comp>_spec.v`  – small independent specification (what the property
  means), not using the helpers of the model.
* `rocq/theories/<Comp>_proofs.v` – lemmas.
* `rocq/theories/<Comp>_props.v` – property theorems only, each closed by `exact`,
  each with a `Print Assumptions` and a concrete non-trivial `Example`.

Conventions: theorem names start with the property id (`C07_...`).
`_partial` = weaker than the English statement (what is missing is said in the
comment and in MANIFEST.json).  `_refuted` = the English statement is false of the
faithful model; the theorem exhibits a witness.

## Trusted base

* The Rocq/Coq 8.16.1 kernel (rechecked with coqchk by `vcheck`).
* The hand transcription C -> Gallina.  Each model file says what was simplified.
* C semantics assumed by the transcription: LP64 (int 32, long 64 bits, two's
  complement, arithmetic right shift), 8-bit chars, `malloc` does not fail.
  Undefined behaviour is a separate outcome of the model (`None`/`UB`) where the
  C code can reach it.
* Axioms: none of our own.  `Print Assumptions` output per theorem is in the build log;
  see the last section of this file (every theorem is closed under the global context).

## Plan per property

| id | what is modelled | how it is proved |
|----|------------------|------------------|
| C01 | `constraintExpr` trees and every simplification function | soundness by induction on the tree wrt an integer denotation; refuted in full (sum used for a difference of two valued names), proved without two valued names |
| C02 | `rangeCheck`, `arithType_canResolve`, `constraint_satisfies` | case analysis + C01 lemmas; strict comparison refuted; rest proved |
| C03 | `constraint_isAlwaysTrue` | soundness wrt denotation |
| C04 | `constraintList_add` and `constraintList_resolve` | induction over additions, using C02 |
| C05 | `constraint_simplify` | termination by measure, equivalence by C01 |
| C06 | `inequalitySubstitute*` | strong form proved; the plain form refuted |
| C07 | token list -> operator stack machine of `cppExp_parseExpression` | simulation: machine on the printed tokens of an AST = big-step evaluator; refutations for unary minus after an operator, shifts >= 32, nested `?:` |
| C08 | same machine, `skip_evaluation` counter | same simulation, with an evaluator that returns errors only for evaluated operands |
| C09 | `cppexp_parseNumber` | induction over digits with explicit 64-bit wrap |
| C10 | directive-level machine of do_if/do_elif/do_else/do_endif/skip_if_group | induction over nested groups |
| C11 | control-macro bookkeeping on the same machine | simulation; conditions on `#elif`, the first line and quiet inclusions shown necessary by refutations |
| C12 | hash chains | refinement to a finite map by induction over histories |
| C13 | hash node copy | round trip: object-like proved, function-like refuted |
| C14 | create_definition/collect_expansion/compare_defs | equivalence with a token-level normal form; refutations outside the stated class of bodies |
| C15 | flag marker list | invariant + characterisation of suppression |
| C16 | message log | sortedness invariant over histories |
| C17 | llgenerrorreal limit logic | conservation invariant over histories |
| C18 | generateCSV + independent CSV reader | round trip without quotes; refuted with quotes |
| C19 | mstring_split | induction on text |
| C20 | canonicalizeFlag, identifyFlag, flag table | inductive specification of spellings; induction over insertions of separators, finite facts about the table by computation |
| C21 | flag arrays and control comments | invariant over histories; group flags refuted |
| C22 | mode reset + mode tables | fold invariants: every mode flag ends up as listed |
| C23 | value flags, toPosInt | invariant over histories |
| C24 | ITS4 part of setFlagAux | invariant over histories; converse refuted |
| C25 | cstringTable | refinement to a finite map |
| C26 | genericTable | refinement to a finite map |
| C27 | intSet | refuted by witnesses; partial for what holds |
| C28 | fileloc order | order laws |
| C29 | reader_getInt, %d printing | induction on digits; negatives of >= 2 digits refuted |
| C30 | multiVal dump/undump | round trip per kind; refutations outside int / with '#' |
| C31 | constraint dump/undump | round trip by induction on trees |
| C32 | cttable/ctbase/ctentry dump/undump, line reader | round trip by induction over the table; refutations for long lines and booleans |
| C33 | cttable, ctype constructors | invariant over histories; meaning of a number as an inductive relation |
| C34 | cprim_closeEnoughAux | case analysis over the finite domain inside Rocq (complete, not sampled), refutations |
| C35 | same | exhaustive; refuted for one argument order |
| C36 | makeInner(Fixed)Array | induction over dimensions in every reachable table |
| C37 | fileLib functions | string lemmas; refutation for dots in directories |
| C38 | cstring_genericEqual | exact condition for asymmetry by induction |
| C39 | escape expansion | refuted for octal; partial |
| C40 | cstring_bsearch | invariant of the search; exact set of lengths which miss the last entry; the two lists of the source by computation |
| C41 | flags_processFlags loop, first pass of llmain | induction over items; refutations for -init, obsolete flags, joined options |
| C42 | position tracker | invariant over schedules |
| C43 | `sRef_dump`/`sRef_undumpBody`, value suffix | round trip by induction over references; refutations for ambiguous forms |
| C44 | `constraint_substitute`, `constraintExpr_searchandreplace` | induction over facts and expressions |
| C45 | fileLib functions on the last component | string lemmas, all paths |
| C46 | cstring_genericEqual without limit | induction on both names; `alike`, `other_case` specified separately |
| C47 | doExpandEscapes/doMergeString into a buffer with unwritten cells | invariant: write index at most read index |
| C48 | line counting and `output_line_command` | invariant over lines; exact condition; lasting error computed |
| C49 | skip_comment, cpp_handleComment | induction on the text against an independent splice-then-scan specification |
| C50 | cprim_closeEnough on ordinary types | case analysis over the finite domain |
| C51 | the same, arbitrary integral type expected | case analysis over the finite domain |
| C52 | the same, relaxquals | case analysis; value ranges abstract, constrained as in the C standard |
| C53 | the same, equivalence flags | case analysis; longint refuted |
| C54 | cprim_closeEnoughDeep | case analysis |
| C55 | grammar actions and type constructors for declarators | induction on declarators against the C denotation |
| C56 | the same, pointers to functions | explicit computation for any number of stars and suffixes |
| C57 | the same, signal-like declarations | explicit computation |
| C58 | the same, all declarators | refuted; partial = C55 + C56 |
| C59 | mode lists with the flag table | finite facts about the lists by computation, lifted over all settings |
| C60 | exit codes of all statement forms against big-step executions with entry points | induction on statements, inner induction on executions of loops, invariant of the scan of a switch |
| C61 | the same, structured code | soundness of C60 plus induction building an execution |
| C62 | the same, unreachable-code messages | executions preserved under replacement, by congruence of the execution relation |
| C63 | case markers after statement lists | C60's induction applied to the last statement |
| C64 | the same as C60, label-free | corollary of C60's induction |
| C65 | expression nodes with guards, references, types, values against evaluation over stores | induction on conditions with the invariant that each guard names a tested lvalue which is not null |
| C66 | the same | algebra of guard sets, membership of unions and intersections by induction |
| C67 | the same, any expression | refuting evaluations; values carry no guards |
| C68 | guards passed for a for and a while condition | case analysis |
| C69 | stack of symbol tables with null states, marks and guards against execution over stores | induction on statements with the invariant that states not possibly null and guards are right; loops by induction on the run; the model of control flow for branches which escape |
| C70 | the same | a variable's guards are only removed by assignment to it; induction on statements |
| C71 | the same, without branches | simulation by the store in which whatever may be null is null |
| C72 | tables of definedness through expressions and statements, with branches, cases and marks, against execution over partial stores | induction on expressions and, together with the cases of a switch, on statements: variables taken to be defined have values; loops by induction on the run; the model of control flow for branches which escape |
| C73 | the same | induction on statements: an undefined variable not complained of can be kept undefined by some run to the end |
| C74 | the test of constants against evaluation of the test | case distinction on the comparison |
| C75 | the same as C72, without branches | induction on expressions with the variable still to be checked |
| C76 | the grammar actions for specifier lists and ctype_combine against the multisets of ISO C 6.5.2 | the allowed multisets are finitely many after qualifiers are dropped; each order by evaluation |
| C77 | the same | the same |
| C78 | the same | induction on the list with the type combined so far |
| C79 | the loop of checkPrintfArgs over the text against formats as syntax trees and the arguments they need | each directive is read as one turn of the loop or several (stars are pushed back as percent signs); induction on the list of pieces |
| C80 | the same, with the messages | the same; the type compared with by cases of modifier and conversion |
| C81 | the loops of both checks over arbitrary texts, with the ways of going wrong as outcomes | induction on the length: the rest never becomes empty inside of a directive |
| C82 | the loop of checkScanfArgs against formats as syntax trees | induction on the list of pieces; inside of sets by induction on the length |
| C83 | the same, with the messages | the same |
| C84 | ctbase_genMatch with symbol tables that differ at hidden types | induction on the fuel; both runs take the same branches |
| C85 | the same, against a relation between types that keeps hidden abstract types in place | induction on the fuel, cases of both types |
| C86 | the same, against compatibility of the types of C which the types stand for | induction on the derivation that a type stands for a C type, for both sides |
| C87 | the same | the same |
| C88 | the same, with fuel and exhaustion as outcome | a measure from the derivations bounds the fuel |
| C89 | the comparison in matchDef mode | the same as C86 |
| C90 | the table of aliases and the states of local variables, step by step | invariant relating the table to a store of variables and storage |
| C91 | the same | invariant: variables that are up to date know all others; symmetric sets when no three variables share |
| C92 | the same with releases | invariant: variables holding released storage are dead |
| C93 | the same | invariant: dead variables hold released storage |
| C94 | the same with kinds of ownership and the check at the end | invariant of silent runs: each storage not released has a variable that must release it |
| C95 | the same with the check at the end of a block | without copies the checks agree |
| C96 | the same | the invariants of C91, C92 and C94 together; storage nobody holds stays lost |
| C97 | branches, loops and returns: how two states of a variable and two tables of aliases are merged | invariants along a path: what is known to be defined holds storage; a silent meeting point knows less than either branch; a silent while loop leaves the states of defined variables as they were |
| C98 | the same | each thing known is justified by one of the states in which the program may be |
| C99 | the same with the check at returns | from C100 |
| C100 | the same | states and store correspond along silent programs; a message means an error, lost storage, or two ways of arriving with a variable live in one and released in the other, which no continuation can mend |
| C101 | the sets of references used and modified by each expression, the comparisons made for operands and arguments, and what calls add | the sets cover the accesses of every execution; similar references are found if they have an object in common, so silence means disjointness |
| C102 | the same, and evaluation in any order with side effects put off or not | each part depends only on what it uses and changes only what it modifies; parts that are disjoint in this sense commute |
| C103 | the same | every element of the sets is accessed in some execution; similar references have an object in common |
| C104 | references with pointers, elements, members and addresses, the table of aliases with its bounded search, the tests whether a clause allows a modification, calls with clauses | every place is covered by a reference starting at a parameter or global whose meaning in the storage at entry contains the object; a reference is allowed only if a prefix of it is similar to an item of the clause |
| C105 | the same | for these bodies references found by the search are exact, and two references to the same object have the same shape, so that an object which is allowed has a prefix similar to an item |
| C106 | the same, and the marks on the items of a clause | an object below an item has a reference with a prefix similar to the item, which was looked up when it was modified; conversely a reference looked up stands only for objects below the item |
| C107 | collect_expansion, the loops that build the text of a call, the markers `@ ' and their trimming, the table of characters that could join | a text is cut into pieces by an automaton; induction over the pieces of the definition with the state of the automaton at the end of the text written, a table of which states and characters join |
| C108 | the loop that writes the string | induction over the pieces of the argument; each piece leaves the loop in the state outside of literals |
| C109 | the stack of buffers with disabled macros, cpplib_getTokenAux on plain text | measure: number of macros not disabled, then length of text; the tokens read from a buffer are the pieces of its text |
| C110 | macarg and the loop over arguments | the tokens read are the pieces of the text; induction over the balanced sequence |
| C111 | the counting of arguments and its messages | cases |
| C112 | the messages of collect_expansion | messages are only added; induction over pieces up to the first # without a parameter |
| C113 | raw arguments next to ## | direct calculation for both operands |
| C114 | exprChecks_checkStatementEffect on the nodes of Order_model.v | a frame property of evaluation: what is modified is covered by the set; for the converse an execution that performs a write is built by induction |
| C115 | checkInfiniteLoop, what each statement modifies | frame property for statements and agreement of the value of the condition on states that agree on what it uses; no execution by induction over its derivation |
| C116 | checkInfiniteLoop | an element in both sets is an object reached in some execution (from C103) |
| C117 | binary and unary operators on typed operands with known values | induction: an operand taken for unsigned or known non-negative has a non-negative value in the C semantics of Oper_spec.v |
| C118 | the same | from the invariant of C117 |
| C119 | the type of the result of each operator | induction over expressions of one signedness, comparing with the usual arithmetic conversions |
| C120 | the message of unsignedcompare | an operand taken for unsigned is non-negative, conversion keeps 0; for variables two values with different results are given |
| C121 | all type messages of operators | induction: the kind of the type given agrees with the kind by C, and a choice type only comes from a constant 0 |
| C122 | plus and minus | the integer operand has a number type, so the first branch is taken |
| C123 | exprNode_matchLiteral, exprNode_matchType | the value is known exactly (C124); ranges of types are ordered by rank |
| C124 | multiVal.c on integers | induction over expressions |
| C125 | the access sets and the module table, for every event of reading | induction over what has been read, with an invariant that relates each set to the events before |
| C126 | the same | an invariant kept by every event that does not leave the file |
| C127 | the same | an invariant about the module table and the file name; soundness and completeness of C125 |
| C128 | exprNode_cast with real and base types | the real type is the abstract type that lies under the type; case analysis of the messages |
| C129 | the loop over names | induction over the text |
| C130 | checkSwitchExpr with the lists of names | invariant over the elements: the names used are those of the labels, without repetition; lengths compared |
| C131 | the same | the same invariant counts the messages |
| C132 | the same | the same invariant counts the messages |
| C133 | exprNode_firstStatement | induction over the statements |
| C134 | checkSwitchExpr's allpaths | as for C130 |
| C135 | gen, mergeResolve, doResolve on the constraints of whole bodies | valuation semantics of constraints; every rewriting of a requirement keeps its truth under the values of the run; size equations true; an empty list at the end means all requirements true |
| C136 | the same | the same invariant in the other direction: a false requirement goes back to a false access |
| C137 | the same | constants: the requirements stay comparisons of the size with numbers |
| C138 | doIf, doResolve | symbolic execution by equation lemmas for all names and numbers |
| C139 | the stack of tables, touch (lookup with copies into branches), branches and cases | invariant: entries of branch tables are copies of what is seen below; every statement changes only marks, chosen by declaration (relation upd, closed under sequence, branches, cases and blocks) |
| C140 | the same, with popBranches, exitSwitch, allUsed | the marks set by a statement are those of the declarations its names refer to; merging keeps this because copies are marked if what they copy is; the specification reports exactly the declarations without use |
| C141 | declare, quiet | quiet lookup finds what the scopes say, through copies |
| C142 | matchPrefix, checkPrefix | induction over the prefix with the part of the name already read; the characters by checking all 256 |
| C143 | chooseSpace, fallBack | the name spaces of an entry computed by cases on its kind; the fall back picks the narrowest one that is set |
| C144 | the loop over excludeCodes | membership in the list of messages; the test of the switch against the name spaces of the entry |
| C145 | checkAnsiName, reservedNames | each condition on the first characters proved equivalent to a form of name; the list by C40; the library by computation |
| C146 | checkCppName, cppNames | C40 and comparison of the lists by computation |
| C147 | checkParamNames, stripPrefix | membership in flat_map; taking away the prefix is a function of the relation bare |
| C148 | choose, process, lex_int | the rule with the longest match by notation; the loops compute the numeral by Horner's rule, induction over the digits |
| C149 | suffix, ctype_of | the suffix read by cases on the 23 suffixes; the first fitting type is the head exactly if the value fits it |
| C150 | match_char, processChar | the body up to the first quote that is not escaped, by cases on the form of the constant |
| C151 | numLiteral, ctype_of | cases on suffix, value and flags |
| C152 | check | induction over the initializer: parts of a silent block are silent and as many as allowed; they consume the values one by one |
| C153 | check | the same induction with equal counts; conversely a full initializer makes every count and value test succeed |
| C154 | check, elements, fields | membership in the messages of the loops traced to an element; conversely by induction over the path |
| C155 | elements | induction over the values with the number of errors so far |
| C156 | run, exportLocal | the kept places as a function of all uses: an undefined place in front if some use is elsewhere, otherwise the first use |
| C157 | run, exportLocal | the same invariant, compared with the module of the definition |
| C158 | run, addDifferentFile | corollary of the exact characterization; length from the invariant |
| C159 | run, allUsed | the flag of use is set exactly by the counted events |

## What is modelled, and what is left out

The first comment of every model file, repeated here; single definitions carry the lines they transcribe.

### `Cbase.v`

Common definitions: C strings, machine integers, decimal printing.
A C string is a [list ascii] without its terminating NUL; running past the
end of the list is reading past the terminator.
Trusted base: LP64 two's complement machine (int 32 bit, long 64 bit, plain
char signed 8 bit).

### `Cmem.v`

Freshly allocated character buffers: a cell is either a known character or
memory nothing has been stored in.  Reading an unwritten cell is undefined
behaviour, kept as the distinct result [None].

### `Access_model.v`

Access to the representations of abstract types: which functions and files have it, the [access]
and [noaccess] comments, and what is reported about casts.
Sources: context.c 484-519 ([addModuleAccess]), 522-536 ([insertModuleAccess]), 1457-1472
([context_addFileAccessType]), 1475-1485 ([context_removeFileAccessType]), 1523-1555 (function
declarations), 1566-1578 ([context_enterMacro], [context_enterUnknownMacro]), 1822-1838
([context_enterConstantMacro]), 1868-1898 ([context_enterFunction]), 2160-2181
([context_hasAccess]), 2192-2205 ([context_couldHaveAccess]), 2510-2572
([context_exitFunction]), 3438-3491 ([setModuleAccess]), 3494-3512 (entering files), 3521-3526
([context_inFunctionLike]), 3601-3647 ([context_exitCFile]), 4290-4337 ([context_setFilename]),
4339-4350 (iterators); cscannerHelp.c 1262-1436 (the two comments); usymtab.c 1268-1293
([usymtab_supAbstractTypeEntry]); uentry.c 1174-1295 ([uentry_makeIdFunction]), 6447-6514
([uentry_getRealType]); ctype.c 180-203 ([ctype_realType]), 261-302, 456-495
([ctype_baseArrayPtr]), 1085-1091 ([ctype_isRealAP]), 1798-1815 ([ctype_isVoidPointer]),
2012-2070 ([ctype_getBaseType]); exprNode.c 5004-5245 ([exprNode_cast]).
Simplified: names of types and names of files without directory and extension are numbers of one
kind, so that a type and a file may have the same name.  The types a function has access to because
of its name (nameChecks.c 707-720, 957-970) are given with the function.  Not modelled: old style
functions, LCL specifications, access given by libraries and for [bool], suppressed regions, and
the cache of macros: a macro is checked where its definition is read, which is so for macros of files
that are no headers and outside functions (cscanner.l 377-395).  In casts: no functions, structures,
[bool] and alternate types; whether two types match is a parameter.

### `Args_model.v`

Model of the reading of options: src/flags.c [flags_processFlags] 1676–1915 (the argument
loop) and the first pass over the arguments of src/llmain.c 510–590.
Simplified: the result is the list of what is done, in order; what each of these does to the
settings is in Flagset_model.v.  Warnings are left out.  [EUndefined] stands for an access
outside the table of flags.

### `Bounds_model.v`

Checking buffer accesses of whole function bodies
Sources: src/constraintGeneration.c ([exprNode_generateConstraints] 109-152, [exprNode_stmt]
154-265, [exprNode_stmtList] 267-305, [doIf] 307-383, [doIfElse] 394-446, [doWhile] 448-452,
[constraintList_makeFixedArrayConstraints] 454-499, [exprNode_multiStatement] 839-1019,
[exprNode_booleanTraverse] 1066-1176, [exprNode_exprTraverse] 1178-1594), src/constraint.c
(the constraint_make functions, 294-555; [constraint_printError] 657-735; [constraint_isConstantOnly]
1231-1250),
src/constraintExpr.c ([constraintExpr_makeExprNode] 432-560), src/constraintResolve.c ([constraintList_mergeEnsures]
68-97, [constraintList_mergeRequires] 111-141, [exprNode_mergeResolve] 144-220, [doResolve]
376-482, [doResolveOr] 484-560, [constraintList_reflectChangesOr] 563-590,
[reflectChangesEnsures] 592-620, [constraint_conflict] 636-687, [constraint_fixConflict] 689-702,
[constraintList_fixConflicts] 724-741, [constraint_adjust] 1209-1240, [constraint_substitute]
1404-1434), src/constraintList.c ([constraintList_logicalOr] 380-432, [constraintList_copy]),
src/exprChecks.c ([exprNode_checkFunction] 941-1106).
The flags have their defaults: orconstraint is on (context.c:927), redundantconstraints,
impboundsconstraints and the printing of post conditions are off; the function has no
requires clause.
Simplified:
- the language: int variables, arrays of a fixed size, sums and differences, assignments to
variables, stores into and reads of array elements (as statements of their own), blocks, if,
if-else, while, return; tests compare two expressions or look at a variable.  The equation
[a[e] = v] a store adds is left out: elements occur nowhere else in the language, so nothing
can be replaced with it;
- the places [constraint_adjust] compares are reduced to whether the equation comes later in
the text than the constraint it is put into ([later]);
- [constraint_copy] is the identity; the generating expression, the original constraint and
the order in which messages are sorted are left out;
- an assertion that there are at most ten alternatives (380) is left out.

### `Bsearch_model.v`

Model of the binary search over sorted name lists, src/cstring.c 839–886
[cstring_bsearch], and of the two lists it is used on (src/nameChecks.c 1150–1163
[cppNames], 1197–1200 [reservedNames] with src/Headers/reservedNames.nf).
The number of entries is the length of the list. A table entry may be NULL ([None]).

### `Comment_model.v`

Model of comment handling in the preprocessor, src/cpplib.c: [skip_comment] 1025–1122 and
[cpp_handleComment] 8159–8475.
Simplified: the buffer is the text after the [/] already read; of the actions of syntactic
comments only those listed in [action] are kept (expectations about macros and other
flags are [Other]); the flag [nocomments] is off; warnings are a flag.

### `Cond_model.v`

Model of conditional inclusion in the preprocessor, src/cpplib.c: [do_if] 5454–5463,
[do_elif] 5470–5514, [do_xifdef] 5551–5635, [conditional_skip] 5642–5668, [skip_if_group]
5676–5860, [do_else] 5869–5913, [do_endif] 5920–5989, and of the recognition of include
guards ([only_seen_white] and [control_macro]; [redundant_include_p] 5025–5041).
Simplified: the file is a list of logical lines, already told apart; conditions and other
lines are opaque, with their effects on an environment given by functions; [output_line_command]
is left out (see Pos_model); errors are counted.  A directive without its argument is not
modelled.

### `Constr_model.v`

Buffer-bounds expressions and constraints: simplification and resolution
Sources: src/constraintExpr.c, src/constraintTerm.c, src/constraintResolve.c,
src/constraint.c, src/constraintList.c.
Simplifications made throughout:
- file locations, changed-type marks ([ct], [origType]) and memory management
are not represented;
- the storage or expression a term refers to is represented by a number.  The C
code decides "same storage" with sRef_similarRelaxed / sRef_sameName
(constraintTerm.c:530); here it is equality of that number.  (sRef_sameName
also identifies a[i] with a[j] when both indices are unknown, sRef.c:7500;
that is idealised away here.)
- [llassert] failures are not represented; BADEXIT branches are unreachable in
the model because the enumerations have only the named values.

### `Cppexp_model.v`

Evaluation of #if expressions
Source: src/cppexp.c.  Tokens are given after macro expansion and lexing
(cppexp_lex, cppexp.c:413-617, except character constants); a name is the
integer 0 (cppexp.c:573-575).
Values are C longs, i.e. integers in [-2^63, 2^63).  The stack of operators is a
list; its growth (cppexp.c:1266-1298) is not represented.  A slot that has never
been given a value holds [None]; reading it is the outcome [RUB], as is reading
below the stack.  Signed overflow and arithmetic traps while evaluating are
recorded in the flag [d_ub]; the value computed then is the wrapped one.

### `Ctab_model.v`

Model of the table of C types: /repo/src/cttable.i, /repo/src/ctbase.i and
the type constructors of /repo/src/ctype.c.
Simplifications:
- the printed name cached in an entry ([unparse]) is left out;
- parameter lists and structure fields are represented
by the text the dump functions write for them;
- [llcontbug]/[llbug]/[llassert] failures are the outcome [None];
- user-defined types are leaves: [ctbase_realType] (ctbase.i:318-341) is the
identity, and alternate types ([CBconj]) are treated as leaves by the
array tests (ctbase.i:2534-2546 looks into the alternatives);
- the growth of the C array (cttable.i:488-512) is not visible: entries are
separate heap objects and keep their index.

### `Ctdump_model.v`

Model of writing the type table to a library and reading it back:
/repo/src/cttable.i:108-196, 308-407, /repo/src/ctbase.i:890-1145,
/repo/src/ctype.c:1978-2009, /repo/src/enumNameList.c:206-258,
/repo/src/reader.c:234-250.
Simplifications:
- a parameter list and a field list are the text written for them
(uentryList.c:556-594): items that each end in a comma, closed by ')' or
'}'; reading them back is taking the text up to that character;
- the side effects of reading on the counter of unnamed tags (setTagNo) and on
the record of implicit alternate types (ctype_recordConj) are left out;
- internal errors stop with [RBug].

### `Decl_model.v`

Model of how the parser builds the type of a declared name from its declarator:
/repo/src/cgrammar.y:376-463, 1586-1590, 1605-1612, 1665-1695 (grammar actions),
/repo/src/ctype.c:372-429, 548-590, 725-765, 776-795, 2011-2096, 2296-2309,
/repo/src/ctbase.i:1801-1841, 1900-1935, 2054-2375, /repo/src/idDecl.c:174-244.
Types are terms instead of numbers in the type table (C33 shows that a number has
one such meaning and keeps it).
Simplifications:
- [Base] is any type that is not a pointer, array, function or alternate type, and not a
name defined as one of these (ctype_realType is the identity on it);
- a parameter list is a number;
- array sizes are constants whose value is known;
- qualifiers after '*' and annotations are left out;
- [None] is an internal error (llbug, llfatalbug, llcontbug or a failed llassert).

### `Def_model.v`

How splint follows the definition of variables through a function body: which reads it reports
as "used before definition".
Sources: exprNode.c 10175-10334 ([exprNode_checkUse]), 10354-10453 ([exprNode_checkSet]), 5340-5374
and 6031-6036 (operators), 4518-4524 (!), 6090-6350 (assignment), 6347-6487 (conditional
expressions), 6863-6910 (expression statements, [exprNode_produceGuards]), 6834-6842 (the mark that
a list of statements is left), 7367-7420 (switch), 7658-7726 (do), 7728-7793
([exprNode_loopMustExec]), 7846-7873 and 7935-7992 (for), 8201-8214 (return), 8222-8256 (comma),
9119-9290 ([exprNode_effect]); sRef.c 4719-4769 ([sRef_isValidLvalue]), 5150-5160, 9086-9150
([sRef_combineDefState]); uentry.c 10284-10300, 10391-10415, 10666-10684 ([uentry_mergeState]);
usymtab.c 212-241, 2482-2568 (branches), 2570-2617 (||), 2638-2706 ([usymtab_newCase]), 2721-2760
(&&), 2772-2935 ([usymtab_exitSwitch]), 3003-3165 ([usymtab_popBranches]), 3218-3248, 4349-4385
(leaving a block), 4650-4680, 4893-4995 (looking up a variable); context.c 837, 1748-1808,
2380-2475, 4467-4535; cgrammar.y 1036-1092, 1744-1754, 1824-1985, 2164-2176.
Simplified: variables are integers declared without initialisers in the outermost block of the
function, whose addresses are not taken, so that they are either undefined or defined; functions
are called without arguments; blocks declare nothing; the markers of a switch stand directly in its
body, which begins with one, and its value is not of an enumeration; lists of statements are
written as pairs, of which no part is unreachable; the operands of operators are gone through
from left to right when the parts of a for loop are gone through again (there it depends on the
compiler of splint); every message is really given.  The chain of tables is that of the calls
below: a table is kept as what is found when looking from it, and which variables have entries in
the innermost branch.

### `Dump_model.v`

Model of how storage references and bounds constraints are written to and
read from a library file.
Sources: /repo/src/sRef.c:2452-2647, constraintTerm.c:547-737,
constraintExpr.c:2140-2331, constraint.c:1062-1143, constraintList.c:588-636,
ctype.c:1978-2009.
Simplifications:
- a storage reference is its syntax tree; the normalisations done by the
constructors used when reading (sRef_makeAddress of a pointer, sRef_makeConj
of equivalent arguments) and the state fields are not modelled;
- symbol-table lookup by name (usymtab_lookup) is the name itself, and
usymtab_convertId is the identity;
- the special case of the boolean abstract type in ctype_dump
(ctype.c:1994-2005) is left out;
- llbug/llassert/llfatalbug/llfatalerror stop with [RBug].

### `Eff_model.v`

Statements without effect ([noeffect], [noeffectuncon], [retvalbool], [retvalint], [retvalother]) and
loops whose condition nothing changes ([infloops], [infloopsuncon]).
Sources: exprChecks.c 70-185 ([exprChecks_checkStatementEffect]); exprNode.c 6728-6843
([exprNode_concat]), 6845-6883 (expression statements), 6898-6910 ([exprNode_produceGuards]),
6942-6959 (blocks), 7010-7202 ([exprNode_if], [exprNode_ifelse]), 7367-7407 ([exprNode_switch]),
7424-7525 ([checkInfiniteLoop]), 7527-7650 ([exprNode_while]), 7658-7726 ([exprNode_doWhile]),
7799-7893 ([exprNode_for]), 7925-7992 ([exprNode_whilePred], [exprNode_forPred]), 7994-8220 (jumps),
10129-10163 ([exprNode_mergeUSs], [exprNode_mergeCondUSs]); sRefSet.c 571-583, 603-619.
Expressions, their nodes and the declarations of functions are those of Order_model.v, with the same
simplifications; so no reference is an internal state (7446, 7467), there is no break or exit inside
of an expression, and every element that is not unconstrained is meaningful.  All flags named above
are on, no messages are suppressed, and the statement is not inside of a statement expression.
Blocks declare nothing; labels, [goto] and iterators are left out; a switch is a list of clauses, each
with its marker.

### `Flagname_model.v`

Model of how a flag is named: src/flags.c [canonicalizeFlag] 965–1010, [flags_identifyFlagAux]
1023–1291, [flags_isModeName] 1446–1461; src/cstring.c [cstring_replaceLit] 214–250,
[cstring_stripChars] 256–286, [cstring_containsLit] (strstr).
Simplified: a C string is the list of its characters; moving the rest of a string down in
place is taking the part before, the replacement and the part after; warnings about obsolete
flags are left out.

### `Flagset_model.v`

Model of the flag and value settings: src/context.c [context_setFlagAux] 3883–4255,
[context_setValue] 2799–2845, [context_setValueAndFlag] 2849–2854, [context_resetModeFlags]
672–682, [context_resetAllFlags] 706–930, [context_setModeAux] 972–1390, [context_userSetFlag]
3715–3817, [context_fileSetFlag] 3820–3840, [context_restoreFlag] 3843–3861,
[context_saveFlagSettings], [context_restoreFlagSettings] 4276–4288, end of [context_exitCFile]
3637–3641; src/flags.c [flags_setValueFlag] 1295–1350; src/cstring.c [cstring_toPosInt] 93–110;
the flag part of src/cscannerHelp.c 962–1115.
Simplified: the C arrays indexed by flag code are functions of the code, and the value array
(indexed through [flagcode_valueIndex], an injection on the fifteen value flags) is a function
of the flag code too.  Warnings, the debugging variables of the parsers, the output streams,
[gc.anyExports], [gc.library] and string values are left out, and so are the flag markers
(Mark_model.v).  Codes are those of the table; see Args_model.v for others.

### `Flagtab_model.v`

The table of flags, src/flags.def 66–4443 (flags.def gives each flag's code the number of its
place in the table: Makefile.am 328–329, Headers/flag_codes.h 17–24), and the flags each mode
sets, src/context.c 1028–1385.  Kept of an entry: name, code, [isSpecial], [isIdem],
[isGlobal], [isModeFlag] and [argtype] (src/flags.c 156–172); categories, descriptions and
counters are left out.

### `Flow_model.v`

Model of how splint follows the flow of control through statements: src/varKinds.c
[exitkind_makeConditional] 480–492, [exitkind_combine] 494–578, [exitkind_couldExit] 580–594,
src/Headers/varKinds.h 248–253; src/exprNode.c [exprNode_combineControl] 253–266,
[exprNode_functionCall] 3871–3895 (exit codes), [exprNode_addParens] 4168–4187, [exprNode_cond]
6481–6486, [exprNode_labelMarker], [exprNode_notReached] 6559–6581, markers 6612–6636, 6672–6681,
[exprNode_mustEscape] 6706–6715, [exprNode_concat] 6728–6843, [exprNode_statement] 6853–6883,
[exprNode_makeBlock] 6942–6959, [exprNode_if] 7010–7087, [exprNode_ifelse] 7089–7202,
[checkSwitchExpr] 7208–7363, [exprNode_switch] 7367–7407, [exprNode_while] 7527–7650,
[exprNode_doWhile] 7658–7728, [exprNode_for] 7799–7893, jumps 7994–8220, [exprNode_comma]
8222–8300, [exprNode_flatten], [exprNode_lastStatement] 10043–10094; src/exprChecks.c
[exprNode_checkFunctionBody] 897–938; grammar src/cgrammar.y 1702–1985, 2168–2176.
Simplified: expressions are kept only as far as their exit codes go; statements are splint's
parse trees without syntax errors, in which a label or case marker is a statement of its own
(cgrammar.y 1824–1853), so a labelled statement is taken to stand in a statement list; iterator
statements and [/*@drevealstate@*/] are left out; of the conditions only a known value of the
test of a [while] and the presence of a test in a [for] are kept.

### `Format_model.v`

Model of the check of calls of functions like printf and scanf: checkPrintfArgs and
checkScanfArgs, src/exprNode.c 1445-1784 and 1790-2102.
The format is the value kept for a string literal: the token without its first and last double
quote (src/exprNode.c 862-874).  Escapes are not expanded, and between adjacent literals, which
the scanner takes as one token (src/cscanner.l 176), the quotes and the white space remain.
A pointer into the format is the rest of the text from there on; the terminating NUL stands at
the empty rest, and stepping over it is the outcome [Overrun].  The assignment
[*( --code) = '%'] (1612, 1938) is the rest with a percent sign put before it.
Simplifications:
- an argument is an element of some type [A]; [is_error] is exprNode_isError, [matches] is the
test at 1700-1706 (exprNode_matchArgType, or a pointer to void for an abstract type);
- the checks of the state of the argument (checkOneArg, exprNode_checkUse,
exprNode_checkCallModifyVal), the columns and the text of the messages are left out;
- isdigit is that of the C locale, characters are not negative.

### `Guard_model.v`

What splint concludes from a test: the guards of a condition, i.e. the references it takes to
be non-null when the condition is true and when it is false.
Sources: guardSet.c 54-345, sRefSet.c 85-111, 276-297, 347-362, 544-607, sRef.c 1807-1917
([sRef_similar]) and 2034-2096 ([sRef_realSame]), exprNode.c 505-700 (copies of nodes, null
values, unknown constants), 1330-1345 (references of array elements), 4169 (parentheses),
4492-4700 (unary operators), 5004-5040 (casts), 5326-5670 (binary operators), 6094-6300
(assignment), 6342-6470 (conditional expressions), 6898-6910 ([exprNode_produceGuards]), 8222-8262
(comma), 3747-3840 (calls of functions annotated nullwhentrue / falsewhennull), and
cgrammar.y 1039-1070, 1961 (where [exprNode_produceGuards] is called).
Simplified: of an expression node only guards, reference, type (as far as tests look at it),
value and "is an unknown constant" are kept; references are variables (parameters and other
variables alike), fields, dereferences, array elements and constants - addresses, conjunctions
and derived storage are left out; results of calls have no meaningful reference; values of the
machine type [long] are unbounded; pointer identity of [sRef]s (the first line of
[sRef_similar] and [sRef_realSame]) is not modelled, it never contradicts the structural
answer for the references kept.

### `Hash_model.v`

Model of the table of macros, src/cpphash.c: [cpphash_hashCode] 246–257, [cpphash_lookup]
269–302, [cppReader_deleteMacro] 344–391, [cpphash_install] 405–463, [hashNode_copy] 132–241,
[cppReader_saveHashtab] 81–89, [cppReader_restoreHashtab] 91–99; and of the parts of
src/cpplib.c which use it, [do_defineAux] 2866–2951 and [do_undef] 5305–5323.
Nodes live in a heap indexed by address; a freed node is gone from it, and using it or a null
pointer is undefined behaviour ([None]).  [DEFINITION]s are values (their sharing with an
expansion in progress is not modelled, nor that [cppReader_deleteMacro] frees their parts).
A field that [dmalloc] leaves unset is [None].  Allocation does not fail.  Names are given
with their length, so [isIdentifierChar] does not matter.

### `Inits_model.v`

Checking of initializers with braces (exprNode_checkOneInit, src/exprNode.c 8300-8550;
grammar of initializers src/cgrammar.y 1199-1232).
Modelled: the recursion over type and initializer, the counts of elements and fields, the
flags, the limit on the number of errors of an array, designated initializers.
Simplified: types are finite trees with typedefs resolved (all tests of the code look at
the real type); whether a value may initialize an object of a type without braces
(exprNode_matchType) and whether it is a string are parameters; gentypeerror is one flag;
what doAssign reports about null, definition and ownership is left out, as are variables
of unknown type.

### `Intset_model.v`

intSet: a set of integers in an array
Source: src/intSet.c, Headers/intSet.h.  Reading an array slot that was never written
gives an unspecified value, passed in with each operation; reading outside the array
is undefined behaviour ([None]).
Simplification: allocation never fails; the counters do not overflow (the arrays
would need more than 2^31 elements).

### `Limit_model.v`

Limiting repeated messages, and the CSV rows (llerror.c)
Simplifications: only messages that passed the suppression tests and the duplicate test
are operations; the location printed in front of a message, the herald, annotations and
line wrapping are left out (an accepted message is its text); the counter is unbounded
(it would take 2^31 messages to overflow); the limit is fixed during the run.

### `Lits_model.v`

Integer and character constants of C programs: the rules of the scanner
(src/cscanner.l 56-66, 228-288) and the functions that compute values and
types (src/cscannerHelp.c 1950-2103, 2740-2784, src/exprNode.c 702-739).
Modelled: which rule of the scanner takes how many characters (flex: the
longest match, of equally long matches the first rule), the value as a C
[long] with overflow as undefined behaviour, the messages, the type and
whether the constant is marked as null.
Simplified: the rules for floating constants are left out (they need a point
or an exponent after the digits); locations and the text kept in the
expression are left out; types that are conjunctions are lists.

### `Loc_model.v`

Source locations and the log of reported messages
Sources: src/fileloc.c, src/fileTable.c, src/messageLog.c.  Undefined (null) locations
are [None].  Comparing two pointers for identity: copies share the object only for
undefined, built-in and external locations (fileloc.c:128-150, 495-530).
Simplifications: memory management is not represented; message texts are defined
strings.

### `Macro_model.v`

Macro definitions and macro calls in splint's preprocessor
(src/cpplib.c).
Modelled function by function: the character tables
(initialize_char_syntax), collect_expansion, unsafe_chars, the part of
cpplib_macroExpand that builds the text of a call (stringified, raw and
expanded arguments), the trimming of the invented space markers in
push_macro_expansion and cpplib_getTokenAux, the collection and the
counting of arguments (macarg, cpplib_macroExpand), and the rescanning of
object-like macros (the stack of buffers, T_DISABLED,
cppReader_macroCleanup).
Simplified: texts are lists of characters, the pointers into the buffers
are positions in those lists; -traditional is off (its branches are not
modelled); no rest arguments (`...'); the call stands on one line, so no
newlines are added after the expansion; the message text is replaced by
a constructor per kind of message.

### `Mark_model.v`

Suppression comments: the list of flag markers
Sources: src/flagMarker.c, src/flagMarkerList.c, src/context.c:283-460.
Elements carry defined locations (they are created at the current location).
The array is represented by the list of its elements; growing is not represented
(every write is preceded by a growth check, flagMarkerList.c:184-189, 293-296).

### `Match_model.v`

Model of the comparison of types: ctbase_genMatch, src/ctbase.i 1287-1600, with ctype_genMatch,
ctype_match, ctype_matchDef and ctype_matchArg, src/ctype.c 1649-1784, and the functions they
call.
Simplifications:
- a type is a tree, not an index into the table of types (that table is the subject of
Ctab_model.v); [c1 == c2] on indices (quickMatch) is the function [same], of which the theorems
only assume that it holds of equal types only;
- a typedef name, tag or abstract type is a number, [E] gives its entry in the symbol table;
- tags are numbers, told apart from the tags made up for structures without one;
- the parameters [force] and [arg] are left out: ctbase_genMatch only passes them on;
- the calls of llcontbug and llassert are left out, the value returned after them is kept;
- the recursion has fuel, [None] being the outcome when it is used up.

### `Mods_model.v`

How splint checks that the body of a function modifies only what its modifies clause lists: the
table of aliases of references (with fields, pointers and elements of arrays), the test whether the
clause allows a reference to be modified, and the test that everything listed is modified.
Sources: sRef.c 1095-1533 ([sRef_canModifyVal], [sRef_canModify], [sRef_checkModifyVal],
[sRef_checkModify], [sRef_doModifyVal], [sRef_doModify]), 1807-1909 ([sRef_similar]), [sRef_same],
[sRef_includedBy], [sRef_sameName], [sRef_isReference], [sRef_fixBase], [sRef_fixBaseParam],
[sRef_makePointer], [sRef_makeAddress], 8310-8358 ([sRef_aliasCheckPred]); sRefSet.c 82-110, 226-260,
265-322, 604-610, 683-697, 837-930; aliasTable.c 86-158, 190-262, 267-500, 634-690; usymtab.c 2168-2262
([usymtab_handleParams]), 3060-3190 ([usymtab_popBranches]), 5734-5809; context.c 2091-2127
([context_checkGlobMod]); exprChecks.c 366-391, 556-650 ([exprNode_checkAllMods]), 1157-1246
([checkModifyAuxAux]), 1248-1322 ([checkModifyAux]), 1331-1480 ([checkCallModifyAux],
[exprNode_checkCallModifyVal]); exprNode.c 2945-3185 ([checkGlobMods]), 4441, 4790, 6057-6092
([exprNode_checkAssignMod]), 10644-10706 ([checkAnyCall]), 11342-11385 ([updateAliases]); clabstract.c
2414-2445 ([modListArrayFetch]); system_constants.h 51.
Simplified: the function has a modifies clause and the flag modifies is set (so the messages are given
under that flag); there are no observers, no file-static or external storage, no internalState and
fileSystem, no conditional expressions (so that no reference stands for one of two); the references
are well typed, so that every alias of a pointer can be followed and has the fields asked for; locals
are declared at the top of the body, and blocks of branches declare none; no name is declared twice;
no statement leaves the function early; array variables are pointers to their elements; a called
function has no result and is not a macro.  The warning about references of more than 25 steps (sRef.c
3467-3490) and the one about searches for aliases which are cut off are left out; that they are cut
off is not.

### `Name_model.v`

Model of the name comparison of src/cstring.c (used for the distinct-names checks,
src/usymtab.c 6140–6400, and the case-insensitive comparisons).
Simplified: both names are defined; [toupper] is that of the C locale; the shortcut
for identical pointers (cstring.c 333) is not modelled (it returns [CGE_SAME], as the
loop does for equal texts).

### `Names_model.v`

Model of the checks of names, src/nameChecks.c 58–71, 79–430 (name space prefixes), 1135–1173
(C++ words), 1175–1505 (names reserved by the standard), 1507–1556 (names of parameters of
declarations), src/Headers/constants.h 181–203, and src/uentry.c 2890–2942, 5554–5600,
8544–8590.
Names are sequences of ASCII characters (the scanner accepts letters, digits, '_' and '$',
src/cscanner.l 59), so isupper etc. are called with defined arguments. A prefix flag is on
exactly when it has a string: setting it, with + or -, turns it on (src/context.c 3892,
src/flags.def 2463 [idemStringFlag]) and gives it its argument. Each message is represented
by the flag that controls it and its kind; +namechecks is on, nothing is suppressed by
comments, and the location of the name is not in a system file
(src/nameChecks.c 1224–1227).

### `Nullflow_model.v`

How splint follows null states through a function body: which dereferences it complains of.
Sources: usymtab.c 2500-2566 (true branches), 2570-2617 and 2721-2760 (operands of || and &&),
2939-3001 ([updateNullState]), 3003-3214 ([usymtab_popBranches]), 3218-3248 (false branches),
4349-4385 (leaving a block), 4886-4995 (looking up a variable), 5503-5560 (guards); uentry.c
10030-10100 (copies, [uentry_setState], [uentry_mergeUses]), 10290-10420 and 10600-10690
([uentry_mergeState]); sRef.c 9550-9612 ([sRef_combineNullState]), 5554-5590; varKinds.c
95-105; guardSet.c 68-78, 157-225, sRefSet.c 155-185; transferChecks.c 2428-2500
([transferChecks_assign]); exprNode.c 4755-4783 (dereference), 10344-10365 (the mark that a
variable is set), 11342-11388 ([updateAliases]); context.c 1580-1590, 1748-1819, 2316-2433;
clabstract.c 589-603 (parameters); cgrammar.y 1039-1070, 1702-1985.
Simplified: variables are pointers, parameters or variables declared in the outermost block of
the function, all initialised, whose addresses are not taken; they are assigned null, fresh or
possibly null values, not copied from each other, so no aliases arise; blocks declare
nothing; tables of entries are functions; every message is really given.  Of the null state of a
reference the reasons kept for messages are left out.

### `Oper_model.v`

Model of the checking of unary and binary operators: exprNode_makeOp, checkIntegral,
checkNumerics, exprNode_preOp (for minus, plus, not and complement), exprNode_cast (the type and
the known value), exprNode_matchLiteral and exprNode_matchTypes of src/exprNode.c, the arithmetic
on known values of src/multiVal.c, and the functions on types of src/ctype.c they use.
Simplified: names of types are replaced by what they stand for, so realType and realishType do
nothing (no abstract types, no access to bool); charintliteral is off, so the constant 0 is the
only one whose type is a choice; the assigning operators, which run through the same code, are left out; a message is present
when its flag is on (no control comments); the state of a reference is one bit, whether it is
possibly null and not guarded; no variable is called FLT_EPSILON, DBL_EPSILON or LDBL_EPSILON.

### `Order_model.v`

Checking that the value of an expression does not depend on the order in which its operands are
evaluated ([evalorder], [evalorderuncon]).
Sources: exprNode.c 506-656 (copies of nodes), 752-770 ([exprNode_getValue]), 1358-1398 (subscripts),
2318-2438 ([checkExpressionDefinedAux]), 2440-2503 ([checkExpressionDefined]), 2726-2876
([checkSequencingOne], [checkSequencing]), 2961-3025 and 3202-3204 ([checkGlobMods]), 3746-3796
([functionCallSafe]), 4169-4187 ([exprNode_addParens]), 4376-4400 ([exprNode_postOp]), 4500-4640
([exprNode_preOp]), 5246-5253 ([evaluationOrderUndefined]), 5329-5347, 5447-5480, 6030-6036
([exprNode_makeOp]), 6040-6056 ([exprNode_op]), 6095-6320 ([exprNode_assign]), 6345-6400
([exprNode_cond]), 8222-8251 ([exprNode_comma]), 10129-10187 ([exprNode_mergeUSs],
[exprNode_checkUse]), 10345-10352 ([exprNode_checkSetAny]), 10354-10455 ([exprNode_checkSet]),
10577-10695 ([checkAnyCall]); sRef.c 1806-1918 ([sRef_similar]), 1926-2010 ([sRef_includedBy]),
2033-2099 ([sRef_realSame]), 2115-2170 ([sRef_same]), 2325-2376 ([sRef_fixBaseParam]), 6063-6066;
sRefSet.c 84-111, 276-296 ([sRefSet_insert], [sRefSet_union]), 543-619; multiVal.c 107-129, 294-376.
Simplified: the objects are integer variables and arrays of integers, which are different objects
when their names differ; there are no structures and no pointers other than the names of arrays given
to functions.  The values of constants are unbounded.  All expressions have the right types, all
variables are defined, [evalorder] is on, and no messages are suppressed.  Functions return fresh
integers (no parameter is [returned]) and have no [out], [yield] or [sef] parameters; what they may
have modified only perhaps ([msets]) is always empty.  Values of functions, which are known but mean
nothing, are left out of the sets (2350, 2371: such elements are passed over).

### `Own_model.v`

How splint follows the ownership of storage held by local variables through straight-line code:
which variables are known to hold the same storage, which of them must release it, and which uses
are reported as uses of released storage, which losses as leaks.
Sources: aliasTable.c 86-104 ([aliasTable_lookupRefs]), 107-158 ([aliasTable_addMustAlias]), 190-262
([aliasTable_clearAliases]), 267-345 ([aliasTable_aliasedByAux]), 385-500 ([aliasTable_canAlias]);
sRefSet.c 80-110 ([sRefSet_insert]), 188-195, 226-260 ([sRefSet_deleteBase]), 302-322
([sRefSet_unionExcept]); usymtab.c 5734-5830 (aliases), 3849-4147 ([usymtab_checkFinalScope]),
4493-4498; exprNode.c 6095-6343 ([exprNode_assign]), 10175-10333 ([exprNode_checkUse]), 10719-10725,
11342-11385 ([updateAliases]); transferChecks.c 1864-2268 ([transferChecks_passParam]), 2437-2497
([transferChecks_assign]), 2595-2765 ([checkTransferAssignAux]), 2771-2925
([checkOnlyTransferAux]), 2931-3016 ([checkOwnedTransferAux]), 3020-3163
([checkFreshTransferAux]), 3415-4003 ([checkTransferAux]), 4317-4425 ([checkTransfer]), 4427-4529
([dependentReference], [transferChecks_canLoseReference], [canLoseLocalReference]); sRef.c 3224-3231,
5150-5160, 5481-5490, 5630-5765 (kinds of ownership, [sRef_kill]), 5792-5816
([sRef_killComplete]), 7612-7660 ([sRef_resetState]), 8430-8453 ([sRef_aliasSetComplete]);
exprChecks.c 895-940.
Simplified: the variables are declared without initialisers, in one block, with an abstract mutable
type which is neither null nor looked into; storage is obtained from a function whose result is
annotated only and defined, released by passing it to a parameter annotated only, used by passing
it to a parameter without annotation (implicitly temp); there are no parameters or globals which
could be aliased; the statements follow each other without branches.  The message about a variable
stands for all the texts in which it is given (with or without "Last reference"); every message is
really given.

### `Ownbr_model.v`

Ownership of storage held by local variables (Own_model) where control flow divides and meets:
conditional statements, loops and returns.
Sources: usymtab.c 2500-2548 ([usymtab_trueBranch], [usymtab_popTrueBranch]), 3003-3204
([usymtab_popBranches]), 3217-3250 ([usymtab_altBranch]), 4952-4990 ([usymtab_lookupAux]); uentry.c
10123-10421 ([branchStateError], [uentry_incompatibleMemoryStates], [branchStateAltError],
[uentry_relevantReference], [uentry_mergeAliasStates]), 10665-10684 ([uentry_mergeState]); sRef.c
3804-4010 ([sRef_mergeStateAux]), 8789-8950 ([sRef_combineAliasKindsError]), 8955-9088
([sRef_combineAliasKinds]), 9090-9150 ([sRef_combineDefState]); aliasTable.c 640-702
([aliasTable_levelUnion], [aliasTable_levelUnionNew]); varKinds.c 428-450 ([alkind_equal]), 494-570
([exitkind_combine]); context.c 2300-2330, 2374-2430 ([context_exitWhileClause],
[context_exitDoWhileClause]), 2483-2512 ([context_returnFunction]); exprNode.c 255-266, 6707-6760,
7658-7726 ([exprNode_doWhile]), 8198-8220 ([exprNode_return]); exprChecks.c 895-940
([exprNode_checkFunctionBody]).
Simplified: as Own_model; the conditions do not touch the variables, and nothing is known about
their values; there are no [break], [continue], [switch] or [goto]; the loops are not known to be
executed.  Whether a variable has been looked up in a branch (which decides which of the two states
is changed into the other, usymtab.c 4975-4982) is left open: it is any function of the branch and the
state in which it is entered.  The messages where branches meet are given in the order of the
declarations; when a message is given, other names of the variable are left as they are (uentry.c
10230-10234 makes them defined).

### `Path_model.v`

Model of src/fileLib.c (path and extension handling) and of the parts of
src/cstring.c it uses.  Built for a Unix-like system: CONNECTCHAR is '/'
(src/Headers/osd.h, default branch), ALTCONNECTCHAR is not defined, neither OS2
nor MSDOS is defined.
Simplified: [undefined] (NULL) paths are not modelled except where a result may
be undefined ([option]); the temporary store of NUL into the argument
(fileLib.c 66–69, 145–148), undone before returning, is taken as reading the
prefix.

### `Pos_model.v`

Model of the tracking of source positions in the preprocessor, src/cpplib.c:
[adjust_position] 3134–3145, [update_position] 3149–3170,
[cppBuffer_getLineAndColumn] 3172–3199, parse marks 7384–7447, the assignment of
[do_line] 5280, and of the line markers it writes, [output_line_command] 3242–3329 with
the places that count output lines (6121–6123, 6245–6253, 6273, 6445–6447, 6723–6728).
Simplified: one file buffer; counters are unbounded integers; positions are indices into
the text of the buffer; of the output only what decides line numbers is kept.

### `Prim_model.v`

Model of the comparison of primitive types, src/cprim.c and src/Headers/cprim.h.

### `Reader_model.v`

Model of the library-file reader primitives, /repo/src/reader.c, and of the
dump/undump of constant values, /repo/src/multiVal.c.
Simplifications:
- the [char **s] cursor is the remaining string; writing a temporary NUL
into the buffer (reader.c:131-133) is not visible outside;
- [llbug] (llerror.c:1485) reports an internal bug and possibly continues;
the model stops with [RBug];
- reading at or beyond the terminating NUL, and signed overflow, is [RUB].

### `Redef_model.v`

Model of how the body of a #define is stored and compared with an earlier one, src/cpplib.c:
[initialize_char_syntax] 550–591, [collect_expansion] 1511–1843 (not in -traditional mode,
which is off: 974), [create_definition] 2214–2450, [compare_defs] 2762–2803,
[comp_def_part] 2816–2843.
Simplified: the text between [buf] and [limit] is a list; [expansion] and the [nchars] of the
pattern are kept as one text per item (the [nchars] characters before that use of a parameter)
and the text after the last one; what is reported is left out; [$] is not an identifier
character ([dollars_in_ident]).  Reading past [limit] finds nothing of interest there.
The tables are indexed by plain [char]: a character from 128 on indexes before them, which is
undefined; [create] then gives [None].

### `Scope_model.v`

Scopes: which declaration a name refers to, shadowed and unused variables
Sources: src/usymtab.c ([usymtab_getIndex] 1405-1434, [usymtab_addEntryQuiet] 453-511,
[usymtab_supEntryAux] 713-1043, [usymtab_enterScope] 2142-2160, [usymtab_trueBranch] 2500-2520,
[usymtab_popTrueBranch] 2530-2550, [usymtab_popTrueExecBranch] 2559-2568, [usymtab_popOrBranch]
2571-2622, [usymtab_newCase] 2632-2703, [usymtab_popAndBranch] 2709-2759, [usymtab_exitSwitch]
2772-2937, [usymtab_popBranches] 3004-3206, [usymtab_altBranch] 3218-3245, [usymtab_allUsed]
3471-3725, [usymtab_exitScope] 4410-4567, [usymtab_dropEnv] 4652-4682, [usymtab_addRefEntry]
4887-4950, [usymtab_lookupAux] 4952-4996, [usymtab_lookupQuietAux] 4999-5023), src/uentry.c
([uentry_mergeSetStates] 10599-10663, [uentry_setState] 10073-10088, [uentry_mergeUses]
10090-10100, [uentry_setUsed] 10686-10770), src/context.c (entering and leaving clauses,
1580-1591, 1714-1813, 2298-2500), src/cgrammar.y (1040-1072, 1842-1910, 1958-1990, 2164-2176).
The symbol table is a stack of tables, one for each block and one for each branch of a condition;
in a branch the first use of a variable makes a copy of its entry in the table of the branch,
and at the end of the branch the copies are merged with the entries they were made of.
Simplified:
- of an entry only the name, the declaration it comes from and whether it was used are kept; all
entries are variables which are not functions (so all are copied into branches), declared in the
checked file, and not private, yielded or of unknown type; the flags shadow and varunused are on;
- functions are seen from inside: a table of the global names and the body; parameters are left
out;
- a declaration in the table where the name is already declared is merged with it, its messages
are left out; case labels stand directly in the block of their switch;
- whether a branch cannot be left at its end (exprNode_mustEscape) is written in the program.

### `Strlit_model.v`

Model of the length computation for string literals: src/cstring.c 903–1138
([doMergeString], [doExpandEscapes], [cstring_expandEscapes],
[cstring_lengthExpandEscapes]) and its use for initialised arrays, src/exprNode.c
1057–1127 ([exprNode_checkStringLiteralLength]).
The text is the value kept for a literal: the token without its first and last double
quote (src/exprNode.c 862–874); for adjacent literals, which the scanner takes as one
token (src/cscanner.l 176), the inner quotes and the white space are still in it.
Undefined behaviour (reading an unwritten cell, signed overflow, an index out of the
buffer) is the distinct outcome [UB]; reporting an internal error and stopping
(BADEXIT) is [Bad].
Simplified: [toupper] is that of the C locale.

### `Switch_model.v`

Model of the checking of the labels of a switch: src/exprNode.c [exprNode_isDefaultMarker],
[exprNode_isCaseMarker], [exprNode_isLabelMarker] 6582–6610, [exprNode_caseMarker] 6612–6636,
[exprNode_defaultMarker] 6672–6681, [checkSwitchExpr] 7208–7363, [exprNode_switch] 7367–7420,
[exprNode_getUentry] 3938–3951, [exprNode_rootVarName] 9426–9504, [exprNode_flatten] 10043–10066,
[exprNode_firstStatement] 10097–10127; src/enumNameList.c [enumNameList_addh], [enumNameList_member],
[enumNameList_subtract], [enumNameList_unparse] 93–170; grammar src/cgrammar.y 1106–1144, 1551–1571,
1824–1853, 1889–1920, 1983–1984.
Simplified: the exit codes computed by [checkSwitchExpr] are in Flow_model; of a case expression
names, parentheses, integer constants, casts and sums are kept; statements are splint's parse trees
without syntax errors, in which a marker is a statement of its own; statements with statements
inside (if, loops) are kept as one statement with a body; messages are kept without places.

### `Table_model.v`

Hash tables from names to values
Sources: src/cstringTable.c (names to numbers) and src/genericTable.c (names to
objects).  [None] is undefined behaviour: an access outside an array, a division by
zero, signed overflow.  A failing llassert / llbug / llcontbug reports an internal
bug and execution goes on (Headers/llerror.h:17-23, llerror.c:1485-1557); this is
the boolean returned by each operation.
Simplifications: allocation never fails; sharing of key strings is not represented.

### `Tspec_model.v`

Model of the combination of type specifiers: src/cgrammar.y 1393-1468 and ctype_combine,
src/ctype.c 2401-2664.
Simplifications:
- alternate types (annotation [alt], 2407-2425) are left out;
- structures, unions, typedef names and the types of the annotations are [Other n]: for
ctype_combine they are only different from all the types it mentions;
- storage classes, const, volatile and annotations are [Qual]: they are kept in a list beside
the type (qtype_addQual, src/qtype.c 58-69) and do not touch the type;
- a message is recorded as one of the two flags which guard it.

### `Uses_model.v`

Recording where a global name is used (uentry_setUsed, src/uentry.c 10686-10797; the lists of
src/filelocList.c 73-175; fileloc_sameModule, src/fileloc.c 337-376), the messages about
names that are exported but used in one module only (usymtab_exportLocal, src/usymtab.c
3413-3467) and about names that are not used at all (usymtab_allUsed, 3469-3650).
Simplified: global names only (no parameters or local variables, no fields); places are
in files that are not libraries, or builtin or external; redefinitions keep the first place;
the flags of the two kinds of messages are the same at all places; uses of a name that has
not been declared yet belong to no entry and are dropped.

### `Wrap_model.v`

Splitting messages into lines (llerror.c)
Simplifications: lengths are unbounded (a message is shorter than INT_MAX); the comparison
of pointers with NULL in maxcp is taken as "NULL is smaller"; storage is not modelled;
the assertions on pointers, which only report, are left out.

Not modelled at all: the C scanner (apart from comments, string literals and constants) and grammar (apart from declarators), the symbol table apart from scopes, uses and shadowing (C139-C141), LCL specifications,
storage states apart from the fragments named above (null, definition and ownership states of local variables, modifies clauses),
macros with rest arguments, and all input/output except through the texts above.

## Status

| id | status | property | remarks |
|----|--------|----------|---------|
| C01 | partial | Simplifying a bounds expression never changes its value | Full statement false (5 - (3 - i), differences of two declared constants, literals beyond int: refuted with witnesses). Termination and value preservation proved by induction for every well-typed expression of the class `regular` (every + or - node has a name occurring once on the left, or a right operand that is constant or starts with a name occurring once). |
| C02 | partial | A bounds requirement is only discharged when it really follows | Full statement false for strict comparisons (i > 3 discharged by i >= 3). Proved otherwise for operands without a + (0 - b), sizeof, and constants adding up to 2^31 or more. |
| C03 | partial | A requirement silently dropped as always true is always true | Full statement false: i <= i + (0 - 5), maxSet(p) >= sizeof(p) - 1 for elements larger than a byte; one input reads the wrong union member. Proved for the remaining requirements. |
| C04 | partial | Merging a new bound into a set of bounds never changes what the set says | Full statement false with alternatives and strict comparisons (witnesses). Proved for every sequence of additions of single-alternative non-strict bounds. |
| C05 | partial | Simplification of a bounds constraint terminates and keeps its truth value | Full statement false outside the class (5 - (3 - i) >= j). Termination and equivalence proved for the class `solvable`. |
| C06 | partial | Substituting known inequalities into a requirement never weakens it | Strong form proved (rewriting without restriction; with the final simplification for the class of C05). The plain form and the last-attempt form are refuted with witnesses. |
| C07 | partial | #if expressions are evaluated as C prescribes | Proved for every tree of the C grammar in the supported class (simulation of the operator stack machine); full statement refuted: 2 * -3 and !-1 are syntax errors, -6u / 4 groups as -(6u / 4), shifts by 32 and more, nested ?: in the middle operand, unsignedness of a skipped division, overflow in skipped operands. |
| C08 | partial | Unevaluated operands of #if operators cause no diagnostics | Division by zero reported exactly when evaluated, for the supported class of C07; refuted outside it (skipped signed/unsigned division loses its type). |
| C09 | partial | Integer constants in #if are read with their exact value and signedness | Exact characterisation of what is read for every integer constant with C90 suffixes, and of what is accepted in silence; refuted: 0xu accepted, 1ll rejected; undefined behaviour from 2^63 on is part of the statement. |
| C10 | proved | Conditional inclusion keeps exactly the group C selects | For every properly nested file (any depth and length), any effects of lines and conditions: the environment reached is the one C prescribes, the stack is restored, no error. For arbitrary files the number of errors is exactly the number of misplaced #elif/#else/#endif. Finding (C10_unterminated_refuted, outside the statement): a conditional still open at the end of a file is not reported. |
| C11 | proved | Skipping an already guarded header changes nothing | Proved for headers whose first line (after comments) is #ifndef, with no #elif belonging to it and no inclusion of a file without tokens. Each of the three conditions is shown to be needed by a refutation (C11_elif_refuted, C11_undef_before_refuted, C11_quiet_include_refuted): without it splint can drop text or definitions C would keep. |
| C12 | proved | #define/#undef behave as a finite map from names to definitions | Proved at pointer level: doubly linked chains in a heap, any history of #define/#undef/built-in installation, any collisions. Every operation is defined behaviour (no use of freed or null nodes, every walk ends). |
| C13 | partial | Macros given before the first file are unchanged for every file | False of the code: hashNode_copy keeps only one parameter use, does not set its nchars, and leaves noExpand and rest_args unset (C13_parameter_uses_refuted, C13_noexpand_refuted). Proved: the set of names, parameter counts, texts, positions and built-ins come back after any intervening history. |
| C14 | proved | A redefinition is silent exactly when it is the same up to white space | Both directions for all bodies and parameter lists meeting the stated conditions; the conditions on #, white space in literals, "..." and 8-bit characters are each shown necessary by a refutation (C14_*_refuted). |
| C15 | proved | Suppression comments hide exactly the region they delimit | Full characterisation proved for every history of comments and messages in ordinary user files; the preconditions (text order within a file, no system header) are shown necessary by refutations, and a counted line inside a region is shown to end the region. |
| C16 | proved | No message is reported twice for the same place | Full statement proved for every sequence; the restriction to known source locations is shown necessary by three refutations. |
| C17 | proved | Repeated messages beyond the limit are counted, not lost | Conservation proved for every history and limit, with the exact output for each run of equal messages; C17_similar_refuted records that only identical texts count as similar, C17_no_flush_refuted that the final flush matters. |
| C18 | partial | CSV error output can be read back | False in general: texts with a double quote and file names with a comma are refuted; the round trip is proved for all files of messages without those characters. |
| C19 | proved | Wrapping long messages loses no text | Proved with exact bounds; larger indentations are refuted for every line length (printing never ends), as are multi-line messages and line lengths below 42. |
| C20 | proved | Equivalent spellings of a flag name the same flag | Spellings are given by an inductive specification (21 long/short pairs, separators anywhere). Refuted and not part of the claim: the manual's pair global/glob is not implemented (globaluse is unknown), and canonicalising is not idempotent (func-tion). The four options whose argument is part of the word (-I -S -D -U) are apart. |
| C21 | proved | /*@=flag@*/ restores the command-line setting | Stated for simple flags and for files without mode names in comments; refuted and not part of the claim: restoring a compound flag (after /*@=null@*/ null dereference checking is off in the default mode), mode names and numeric values in comments outlive the file, a flag that cannot be turned off is turned on by restoring it. |
| C22 | proved | A mode gives the same checking whatever came before | Exact: after a mode is selected a mode flag is on iff the mode lists it; other flags and all numeric values are kept. |
| C23 | proved | Numeric options never take an out-of-range value | Numbers above INT_MAX are undefined behaviour in the conversion (C23_big_number_refuted), a distinct outcome in the model; message limit -1 means unlimited. A line length below 20 becomes 20. |
| C24 | proved | Security risk levels stay ordered | Restated to the direction the code implements; the other direction is refuted (+its4low alone). |
| C25 | proved | The symbol index is a faithful string-to-number map | Full statement proved. The two preconditions are shown necessary: an 8-bit character in a name gives an out-of-bounds read, and storing the reserved number hides entries (refutations). |
| C26 | partial | The generic name table is a faithful map | Proved for at most 50512 insertions into a table created with at most 214750 buckets; beyond that the int arithmetic of growth overflows (refuted for 82000 buckets and 50619 insertions). Duplicate inserts keep the old value but are reported. |
| C27 | partial | A set of integers answers membership correctly | Full statement false (order 3,2,1 loses a member and miscounts; the fifth ascending insertion reads past the array; uninitialised slots are compared). Proved: nothing is invented, nothing is lost from the iteration in the absence of coincidences with uninitialised memory, and ascending histories of up to four numbers are exact. |
| C28 | proved | Source locations are totally ordered | Full statement proved; the restriction of the equality clause is shown necessary by two refutations (library locations, derived files). |
| C29 | partial | Integers written to a library file are read back unchanged | Full statement false: a negative int is read back only if it has one significant digit (-12 reads as -8). Exact characterisation proved (C29_read_back_iff), non-negative case proved. |
| C30 | partial | Constant values survive dumping to a library | Full statement false for longs outside int, most negative ints, doubles (two decimals), and string constants in the constant line format. Exact condition proved for integers and characters; strings proved only when directly followed by '#'. |
| C31 | partial | Bounds annotations survive dumping to a library | Full statement false: terms named Result/Param/sRef_dump and integer literals that do not survive C29 come back different (refuted with witnesses). Everything else, including whole lists, proved by induction. |
| C32 | proved | Type descriptions survive dumping to a library | Proved: exact content after loading for every non-empty table whose numbers fit in an int, whose texts do not contain their own end markers and whose lines are shorter than 16382 characters; identity when there are no parser-internal markers and no user type called like the boolean type; every table the modelled constructors can build satisfies the conditions on kinds and links. Refutations show the conditions are needed: lines of 16382 and 16383 characters are written but are fatal on loading (C32_long_line); pointers to a user type named like the boolean type come back as pointers to the built-in one. Parameter and field lists are modelled as their text. |
| C33 | proved | Pointer-to and dereference are inverse on every type | Proved for every history of constructions and every answer of the two sharing tests (parameters): asking again gives the same pointer / unspecified-size array type without changing the table, dereferencing gives the element type, distinct element types have distinct pointer types, every type number has exactly one structural meaning and it never changes. The reserved slot of the boolean type (index 57) is not an 'existing' type. C33_fixed_array_refuted: equal fixed-size arrays are new type numbers each time, so 'the same type' is only claimed for pointers and arrays of unspecified size. |
| C34 | partial | Relaxing a type-matching flag never adds type errors | Proved for relaxtypes, floatdouble, charint, shortint, longint over all pairs and settings; relaxquals: exact characterisation of the one situation in which it adds an error; refuted for relaxquals (+longint), ignoresigns and ignorequals (arbitrary unsigned integral types, inverted test), matchanyintegral (with relaxtypes). See C50 for ordinary types. |
| C35 | partial | An arbitrary integral type never matches a non-integer | Proved with relaxtypes off and unless the value is of the arbitrary signed type with matchanyintegral on; refuted in that case (it matches every primitive type) and with relaxtypes. |
| C36 | proved | Nested array declarations keep C's dimension order | Proved for every reachable table, every element type which is not itself an array and every list of dimensions, each given or left open. (The parser applies the dimensions to a fresh 'unknown' type, so the restriction on the element type is met there.) |
| C37 | partial | File-name extension handling respects directories | True when no directory name contains a dot or the last component has an extension (C37_add_partial, C37_remove_partial); false for dotted directories such as "../lib/ansi" (nothing added; removal yields "."). Cleaning "./x" returns an unterminated buffer (C37_clean_unterminated). |
| C38 | partial | Look-alike and prefix name comparison is symmetric | Exact: order matters iff there is a limit, one name has exactly that length, the other is longer and they agree up to the limit (C38_order_matters_iff_partial); C38_order_refuted: "abc"/"abcd" with 3 significant characters. |
| C39 | partial | String literal length is the number of characters C stores | Holds for a single literal in which short octal escapes are not followed by 8 or 9; "\18" and every pair of adjacent literals give a wrong or undefined length, and octal values are wrong ("\07" taken for a null character). |
| C40 | proved | Searching a sorted name list finds every member | Exact for both lists in the source (C40_cpp_names, C40_reserved_names). For other lists the last entry is missed exactly for lengths 1, 4-5, 10-13, 22-29, ... (C40_any_list, C40_last_entry_refuted). |
| C41 | proved | Options are taken in order, each exactly once | Command line and options file as item lists; -i (drops the rest), obsolete flags (table overrun), --Idir, separated mode names and option-like arguments in the first pass are refuted separately and excluded by the well-formedness condition. |
| C42 | proved | Every generated source position is the position of the text | Positions are exact for every legal schedule of reading, marks and synchronisation; after #line n the exact line is given, and it is the expected one when no newline was read since the last synchronisation (the refutation shows that this is needed: a multi-line comment before #line is counted twice). |
| C43 | partial | Storage references survive dumping to a library | Full statement false: a value attached to a compound reference is written exactly like one attached to its inner reference; string/double values and multi-digit negative indices do not survive. The rest is proved by induction over references. |
| C44 | proved | Rewriting a requirement with known equalities never changes what it says | Proved for the replacement loop for every direction choice; the simplification that follows it is the subject of C05. |
| C45 | proved | Base names and extension tests look only at the last path component | All paths; extensions without a directory separator. |
| C46 | proved | Unlimited name comparison is exact and symmetric | toupper of the C locale; names are NUL-free C strings. |
| C47 | proved | Expanding a string literal never overruns its buffer | Signed overflow in hexadecimal escapes of 8 and more significant digits is a separate outcome (UB), not excluded. |
| C48 | proved | Line numbers after preprocessing stay in step with the source | Proved for all sequences of good lines, the condition shown exact, and the lasting error of other lines computed; refuted without the condition (a string continued by backslash-newline plus a continuation outside it shifts all later line numbers by two). |
| C49 | proved | Comments end where C says and leave the layout unchanged | Extent (both directions), layout, blanking, annotation text and suppression triggers proved for all texts; refutations show the preconditions needed (spliced */, marker * or newline) and two code defects (nestcomment test never true; commentchar without a character). |
| C50 | proved | Between ordinary types relaxing flags never add type errors | All nine flags; relaxquals except where a short is expected and an int given (C34_relaxquals_refuted shows the exception is real). |
| C51 | proved | Where an arbitrary integral type is expected only integers are accepted | With relaxtypes off; C35_relaxtypes_refuted shows that is needed. |
| C52 | proved | relaxquals accepts exactly the conversions which keep every value | Proved: exact characterisation of acceptance over all pairs of ordinary primitive types, and value preservation in every implementation described by the ranking constraints of the C standard (parameters of the specification). |
| C53 | partial | Equivalence flags make the named types match in both directions | Proved for charint, shortint, floatdouble, ignoresigns and relaxtypes; refuted for longint, with the exact condition under which it works. |
| C54 | proved | relaxquals does not loosen the comparison of pointers | For ordinary types; C54_arbitrary_refuted shows the restriction is needed. |
| C55 | proved | Declarations without parentheses get the type C gives them | Proved for every legal declarator without parentheses, in declarations, abstract declarators and old-style headers. Parameter lists are opaque; the base type is not itself a pointer, array or function type. |
| C56 | proved | Pointers to functions get the type C gives them | Proved for every number of stars inside and outside the parentheses and any number of unsized array suffixes. C56_sizes_lost / C56_sizes_refuted: with sized arrays of function pointers every size is forgotten (int (*x[3])(void) becomes an array of unspecified size), so the statement is limited to suffixes without size. |
| C57 | proved | Functions returning function pointers are called with the right arguments | Proved for every number of stars on the final result. The type stored is 'function returning function' (C57_pointers_lost: the pointer is always dropped, however many stars were written), which agrees with C only as far as calling goes, because splint lets functions and pointers to functions be called alike. |
| C58 | partial | Every declaration gets the type C gives it | False in general; the provable part is C58_declared_partial (declarators without parentheses and function pointers). Refuted: anything in parentheses not followed by a suffix loses its structure (int (*x), int (x[5]), int (x(p)) are all int: C58_parenthesised_lost for every inner declarator), a pointer to an array becomes an array of pointers (C58_pointer_to_array), sizes of arrays of function pointers are lost (C56_sizes_refuted). |
| C59 | proved | Stricter modes check at least as much | Order proved on every mode flag whatever the settings before, and on every flag of the table from the same settings; flags which allow something (boolint, charint, relaxquals, ...) are listed in the specification and compared the other way round. |
| C60 | partial | No missed path without return | Proved for functions with no label inside a switch, with the cases of each switch directly in its body (blocks allowed), and with no label or case hidden in a statement control cannot reach from the statement before it. Refuted without each of these: a label in a switch after a return, a case nested in an if before the first case, a label inside a block whose unreachable-code message is suppressed. See C64 for the label-free part. |
| C61 | proved | Path-with-no-return messages are exact in structured code | Structured code: no labels, switch, do, infinite loops, comma; C61_comma_refuted, C61_do_refuted and C61_continue_refuted show that outside this the message can be wrong (a false alarm). |
| C62 | partial | Code reported unreachable is never executed | Proved when no label or case stands inside the code in question; refuted with a label in a block after a return. |
| C63 | proved | No missed fall-through into a case | C63_label_refuted shows that the exception for labels matters: a label before the case silences the message though control falls through. |
| C64 | proved | No missed path without return in functions without labels | The label-free part of C60. |
| C65 | proved | Null tests guard what they test, on both branches | Conditions of other forms are the subject of C67, which is refuted for several of them. |
| C66 | proved | Conclusions from conditions follow the laws of logic |  |
| C67 | partial | Conclusions from any condition are right | Proved only that conditions made of arithmetic, relational operators and casts of numbers lead to no conclusion (and C65 for the usual null tests). Refuted for: comparing a test with 0; elements with variable index; a[1] against *a; constants of unknown value; comma expressions (twice); conditional expressions (twice); bitwise operators; pointer sums; assignment in the second operand of &&. |
| C68 | partial | A for condition leads to the same conclusions as a while condition | Proved in one direction, and both when the condition is not a bare pointer; refuted for the bare pointer, where for ( ; p; ) does not guard p. |
| C69 | partial | No complaint means no null dereference | Proved for bodies whose loops assign no pointers and, if left by break, compare none; whose do loops have no break or continue of their own; without a call that does not return on the right of a \|\| comparing pointers; and whose branches assign a pointer compared by the condition only if they do not end normally, or have no branches inside and the other branch may end normally. Refuted, each by a program, where one of these is dropped, for null constants of abstract types, and with the flag whileloopexec. |
| C70 | proved | A dereference after a null test is not complained of |  |
| C71 | proved | In straight-line code the null messages are exact |  |
| C72 | partial | No complaint means no use of an undefined variable | Proved with whileloopexec and forloopexec off for bodies in which operands do not interfere, the right of && assigns nothing that may be undefined, do loops have no break or continue of their own, the increments of for loops assign only variables in use by then, loops taken to be executed really are, switches do not test a mere variable, and what a switch assigns is mentioned in every case after which control may be after the switch, with breaks only at the ends of cases. Refuted, each by a program, where one of these is dropped. |
| C73 | partial | A variable complained of is used undefined in some run | Proved for bodies of expressions without conditional evaluation, if, while and do whose tests are calls, where no statement follows one never left at its end, and a branch never left at its end which has an else mentions what the else assigns. Refuted where the else alone assigns the variable, and for endless loops. |
| C74 | partial | A for loop taken to be executed at least once is | Proved for !=, <= and >=; refuted for ==, < and >, with a use of an undefined variable that goes unreported in consequence. |
| C75 | proved | In straight-line code the messages about undefined variables are exact |  |
| C76 | partial | Type specifiers denote the type C gives them | Proved: every list C allows is accepted silently and has the right type if and only if neither char nor double stands before another specifier. Refuted for char unsigned, double long and char signed; signed char is not kept apart from char. |
| C77 | proved | The order of integer type specifiers does not matter |  |
| C78 | partial | Contradictory type specifiers are reported | Proved for lists of int, long, short and unsigned with at most one int and two long, with ignorequals off. Refuted for long long long, int int, signed unsigned, long float, float char, double short, and with ignorequals on. |
| C79 | partial | printf: a message about the number of arguments exactly if the number is wrong | Proved for formats in which no other flag stands behind a flag 0, and arguments without errors; refuted for %0-*d, and for an argument with an error for a star. |
| C80 | partial | printf: one message for each argument of a wrong type, and no other | Proved for formats in which no other flag stands behind a flag 0, n has no modifier and l does not stand before conversions of doubles; refuted for %lf, %ln and %hn. |
| C81 | partial | The check of a format stays inside of the format | Proved for formats without [ and m whose last character cannot stand inside of a directive. Refuted for 100% and %[ (reads behind the end of the text), %[abc (fatal error) and %5m (variable without value). |
| C82 | partial | scanf: a message about the number of arguments exactly if the number is wrong | Proved for formats in which suppressed sets, and negated sets with a closing bracket, have no percent sign; refuted for %*[^%d] and %[^]%d]. |
| C83 | partial | scanf: one message for each argument of a wrong type, and no other | Proved for formats as in C82 without %p, without modifiers of n and without the modifier hh; refuted for %p, %hhd and %ln. |
| C84 | proved | Hidden representations do not change type errors | Without forwarddecl; with it refuted. |
| C85 | partial | An abstract type matches nothing but itself | Proved for types without arrays of abstract types, when the number of a type name is not the index of a boolean type, without forwarddecl. Refuted: an array of an abstract type for void *; a boolean for an abstract type; forwarddecl. |
| C86 | partial | Exactly the assignments are accepted that C allows without a cast | Proved for types without pointers to void, arrays and functions inside of other types, without names for void, and with relaxquals for types without functions and arrays of known size. Refuted in seven ways, e.g. char ** accepted for void **, int[3] for long *, a pointer to an array for a pointer to a pointer. |
| C87 | proved | A type always matches itself under another name |  |
| C88 | proved | The comparison of types ends | Refuted for typedefs that stand for each other, which C does not allow. |
| C89 | partial | Two declarations agree exactly if their types are compatible | Proved for types without pointers to void and arrays, when not one is a function and the other a pointer. Refuted for these: int a[3] and int a[4], void *p and char *p, int f () and int ( *f) () are accepted together. |
| C90 | proved | Variables taken to hold the same storage do hold it |  |
| C91 | partial | Variables holding the same storage are known to | Proved if no variable is assigned to itself and only variables are copied whose storage was not copied from another variable since they were assigned, and, both ways, if no storage is held by three variables at a time. Refuted otherwise: q = p; r = p; p = q; and p = p;. |
| C92 | partial | Uses of released or undefined storage are reported | Proved for the code of C91, in particular for two variables without self-assignment. Refuted with three variables, and with a self-assignment: use after release with no message. |
| C93 | proved | No false alarms about uses |  |
| C94 | proved | All storage is released by a function about which nothing is said |  |
| C95 | partial | All storage is released by an inner block about which nothing is said | Proved for blocks which copy no variables. Refuted with a copy: the two variables excuse each other. |
| C96 | partial | Nothing is said about a function exactly if it is correct and leak-free | Proved in both directions as long as no storage is held by three variables at a time, without self-assignment; no false alarms also for code which assigns each variable once. Refuted with three variables in both directions (false leak, false alarm about dependent storage; and C92). |
| C97 | partial | Uses of released storage are reported with branches and loops | Proved without loops for ways along which only variables are copied that are up to date (C91), and with while loops for functions which copy no variables. Refuted otherwise: a copy in use across a while loop, and a release in a do loop. |
| C98 | partial | No false alarms about uses with branches and loops | Proved for functions without returns in branches, with any copies and loops. Refuted with a return in a branch which copies a variable: the copy is remembered after the branch. |
| C99 | partial | All storage is released on every way through a function about which nothing is said | Proved for functions which copy no variables, create storage for each variable where it is declared, and have no do loops and no statements after a return. Refuted otherwise: copies in two branches, variables with storage in one branch only, a variable whose state was found inconsistent, and do loops. |
| C100 | proved | Exactness for functions which copy no variables |  |
| C101 | partial | Conflicts between unordered accesses are reported | Proved for expressions in which right operands are not themselves calls, left operands call no function which modifies what its argument points to, subscripts do not modify elements of their array and are no comma or conditional expressions, arrays are given to functions by name, and functions have modifies clauses and no arrays in their globals lists. Each restriction is shown to be needed by a refutation. |
| C102 | partial | An expression about which nothing is said has one result | Proved for the same expressions as C101, when functions keep to their globals lists and modifies clauses. Refuted for g + f () where f modifies g and for a[a[0]++] = 7. |
| C103 | partial | No false alarms about order of evaluation | Proved for expressions with constants or variables as subscripts, right sides of = without sequence points (or a call itself), and arrays named as arguments where functions modify through pointers, apart from messages about unconstrained functions. Together with C101 this gives exactness. Refuted for x = (x++, 3), x = f () + 1 and, with evalorderuncon, g = f (). |
| C104 | partial | Functions modify only what their modifies clause lists | Proved for bodies in which pointers are stored only in local pointer variables and parameters (never from a place which starts at the same variable, nor within loops), places have at most seven steps, addresses of variables are taken only if they hold numbers, globals are checked, the flags modglobs and moduncon are set (or every called function has a clause), and called functions store no pointers. Each restriction is shown to be needed by a refutation. |
| C105 | partial | No false alarms about undocumented modifications | Proved for straight-line bodies as in C104 in which either no addresses are taken or no elements are fetched, addresses are not taken of parameters or members of variables, and called functions modify what their parameters point to, when no two ways lead to the same object at entry: one statement of the body stores only where it must not, or calls a function one of whose listed items stands only for what must not be modified. Refuted for g = h; g = NULL, addresses of parameters and their members, elements of addresses, and parameters with the same value. |
| C106 | partial | What is listed in a modifies clause is modified, or reported | The first half is proved for bodies as in C105 with branches and loops but without calls, the second for straight-line bodies without calls. Refuted for calls (both halves), parameters with the same value, and branches. |
| C107 | partial | Replacing a macro call neither joins nor splits tokens | Proved for definitions without comments, @ and ##, in which every # stands before a parameter, arguments whose literals are closed, and neighbours other than / and *, - and >, a word ending with $ and what continues it, L and a string made by #, and . and a digit. Each exception is shown to be needed by a refutation; parameters within numbers are replaced too. The part not proved: definitions with ## (see C113), rest arguments. |
| C108 | partial | The # operator gives the spelling of the argument as one string literal | Proved for arguments in which literals are closed, without comments, @ and backslashes outside of literals, with printing ASCII characters apart from white space. Refuted for characters outside of ASCII and control characters (more bytes are stored than reserved) and for @. |
| C109 | partial | Macros are replaced to the end, but not within themselves | Proved for the texts written one after another, for macros without parameters whose definitions have no comments, @ and #. Refuted for the text as a whole: two tokens written one after another can join when the output is read again. Macros with parameters are not covered. |
| C110 | proved | The arguments of a macro call are what was written |  |
| C111 | partial | The number of arguments of a macro call is reported exactly if it is wrong | Proved apart from calls with nothing between the parentheses of macros with one parameter. Refuted for these: f() is reported, f( ) is not. |
| C112 | partial | Misplaced # and ## in definitions are reported | Proved for definitions without ## (both directions, for # ) and for ## at the front. Refuted for ## at the end, if white space follows it. |
| C113 | partial | The ## operator joins its operands | Proved for definitions consisting of two parameters and ##, if the second argument has no mark @- and the first does not end with a minus sign. Refuted for an argument that begins with a marker for a space (from another macro), for a mark in the argument behind the one that is joined (undefined behaviour), and for a minus sign behind a newline. Missing: ## in longer definitions. |
| C114 | partial | A statement reported to have no effect changes nothing | Proved if functions are given arrays by name (not through a conditional or comma), for functions that keep to their declarations; the converse if what a function modifies through an argument is an array. Refuted for a conditional argument; results thrown away are only reported if the statement is a call outermost. |
| C115 | partial | A loop reported to be infinite never ends | Proved for bodies without break, return and switch, subscripts that are no commas or conditionals, arrays given by name, and conditions calling no functions with arrays in their globals lists. Each exception is shown to be needed by a refutation. |
| C116 | partial | If nothing is said about a loop, something its condition depends on may change | Proved for while loops in which subscripts are constants or variables, what is assigned has no sequence points inside or is a call, and what functions modify through a pointer is an array given by name. Refuted for do and for loops, which are never checked, and for comma expressions as subscripts. |
| C117 | partial | A shift about which nothing is said has non-negative operands | Proved with shiftnegative, shiftimplementation and bitwiseops on, if arithmetic on an unsigned operand is carried out in an unsigned type, without enumerated types and if no constant part wraps; exact for variables as right operands. Refuted for unsigned short operands, long constants beside unsigned ones, enumerated types, casts, wrapping constants, and without bitwiseops; not exact for bool and character constants. |
| C118 | partial | An operation on bits about which nothing is said has non-negative operands | Proved under the conditions of C117 for the left operand, and for the right operand if the left one is not constant. Refuted for constant left operands (5 \| x) and for unsigned short operands. |
| C119 | partial | The type splint gives to an expression is the one C gives | Proved for expressions over int, long and long long (or all unsigned) without casts, comparisons and the constant 0. Refuted for int with unsigned, long with double, unsigned short, long constants, and remainders of mixed types. |
| C120 | partial | A comparison of an unsigned value with zero is reported exactly if its result is always the same | Proved for < and >= with a constant on the right and <= with a constant on the left, if arithmetic on an unsigned operand is carried out in an unsigned type; exact for a variable and the constant 0. Refuted: u <= 0, 0 < u and 0 >= u are reported though they depend on u; 0 > u and i < 0u are not reported though always false. |
| C121 | partial | Operators about which nothing is said are applied to operands C allows | Proved with strictops, type, boolops and ptrnumcompare on, apart from: an integer minus a pointer, arithmetic on a real and an integer, pointers compared by order with integers, and pointers compared with integers in which 0 is an operand. Each is needed. + - * / and signs on numbers other than char and bool never lead to messages, under any flags. Refuted without strictops; valid expressions reported: 1 + a (array), p - q, 0 == p, ~0 + i. |
| C122 | partial | Arithmetic on a possibly null pointer is reported exactly if the pointer is possibly null | Proved for a variable plus or minus an integer expression without the constant 0. Refuted: i + p with a null p is accepted, 0l + p is reported for a p that is not null, and p + 0 is not seen as pointer arithmetic. |
| C123 | partial | A constant accepted by its value where another integer type is expected fits that type | Proved for types of the rank of int or more and constants that fit an int. Refuted for short, and for constants that do not fit an int. |
| C124 | partial | The known value of a constant expression is its value in C | Proved for values that need no reduction to their type; complete for constants other than 0 combined by + - * / and signs. Refuted: values are not reduced (1u - 2u, (char) 300), splint overflows its own long for valid unsigned long expressions, and the minus of a character constant is an internal bug with charint. |
| C125 | partial | A representation is accessible exactly where there is a reason for it | Proved in both directions for files, functions, macros and iterators; the second direction without noaccess comments for the type. Not for declarations of functions. Refuted: files of the same name in other directories, constants and iterators named like a type, files included in functions, declarations of functions, and accessfile before another file is entered. |
| C126 | partial | The last access or noaccess comment decides until the file is left | Proved for an access comment with no earlier noaccess comment in force, and for a noaccess comment where the type is accessible, outside declarations of functions (and iterators, for noaccess). Refuted: noaccess followed by access, noaccess for a type that is not accessible, noaccess in an iterator. |
| C127 | partial | Including a file does not change what is accessible after it | Proved with accessmodule for types without noaccess comments (kept), and for types never refused and not named like the file (nothing gained). Refuted: noaccess comments are forgotten, access comments are forgotten without accessmodule, access comments last for other files of the same name. |
| C128 | partial | A cast about which nothing is said does not break an abstraction | Messages are proved true for all types; silence is proved to mean no crossing for non-zero expressions, without voidabstract, if no pointer is hidden behind a type name and the written names themselves are not accessible. Refuted: names for pointers to abstract types, access to a type defined by another abstract one, casts to the same pointer type reported. |
| C129 | partial | Every type named in an access comment is taken into account | Proved for names separated by a comma or blank followed by any white space. Refuted for newlines and tabs after a name, and for a blank before a comma. |
| C130 | partial | A missing case is reported exactly if a member of the type is not handled | Silence is proved to mean that every member has a case (no restriction); the message is proved exact, with its text, where all labels are names standing directly in the switch and a label with the value of a member is its name. Refuted: members of the same value, labels which are no names, labels inside of other statements. |
| C131 | partial | Repeated labels of a switch are reported | Messages are proved true (no restriction); one message for each repetition is proved where all labels are names standing directly in a switch over an enumerated type. Refuted: repeated integers, members of the same value, labels inside of other statements. |
| C132 | partial | A case which is no member of the type is reported | Proved exact for names standing directly in the switch. Refuted: numbers, and names inside of other statements. |
| C133 | partial | Code before the first case of a switch is reported | Proved in both directions, silence without declarations of types, messages without empty blocks and declarations of variables without initial value. Refuted: two declarations of types hide a statement, a declared variable is taken for a statement, an empty switch is reported. |
| C134 | partial | Control passes by no switch taken to handle all values | Proved for integers and for the values of members; exact for switches whose labels are names standing directly in them. Refuted: a value which is that of no member. |
| C135 | partial | If no bounds message is given, no access is out of bounds | Proved for straight-line code in which a variable is not assigned once it was mentioned, for upper ends, indices being a variable or number plus and minus numbers. Refuted: negative indices, variables copied then changed, assignments in the body of an if, all rounds of a loop but the first, a check made after the use, a body that only may return, differences of differences, constants on the left of a test, alternatives. |
| C136 | partial | A bounds message about two numbers is true | Proved for the same code as C135. Refuted: code never executed, assignments in the body of an if. |
| C137 | partial | No bounds message for code whose accesses are all within bounds | Proved, as an equivalence, for stores at indices which are numbers. Refuted: reads of elements not written in the function, reads after a write at a variable index, different values in two branches, an early return before an access at a computed index, a test against a variable of known value. |
| C138 | proved | A store guarded by a comparison is accepted exactly if it is right | The bound on the numbers is needed: they are cut to 32 bits (refuted without). |
| C139 | partial | Names refer to the innermost declaration | Proved for bodies in which switches have a case and declare nothing directly in their own block. Refuted for variables declared after a case label: they are unknown in the following cases. |
| C140 | partial | Exactly the variables never used are reported | Proved for bodies in which switches have a case and declare nothing directly in their own block. Refuted: variables declared in the block of a switch are never reported; an outer variable counts as used if one of its name declared in the block of a switch is used; a switch without cases in a case of another one makes used variables reported. |
| C141 | proved | Exactly the shadowing declarations are reported | For bodies in which switches have a case and declare nothing directly in their own block, as the statement says. |
| C142 | partial | A name passes its prefix exactly if it begins as the prefix says | Exact for prefixes without a star; with a star what passes is characterised exactly and names that fit are not reported if long enough. Refuted: the second character matched by the star is not looked at (the manual's "~*" lets Ab pass); "T^*" does not accept T. |
| C143 | partial | The most specific prefix that is set governs a name | Proved except for iterators without an iterprefix. Refuted: an iterator, which is exported, is not compared with the external prefix. |
| C144 | partial | Exclusions report exactly the foreign names that use a prefix | Proved for nine of the eleven flags; for externalprefixexclude except for unchecked macros, iterators and constants with a prefix of their own. Refuted: constprefixexclude and iterprefixexclude do nothing; exported constants with a constprefix are reported not to be external; unchecked macros are not reported. |
| C145 | partial | Names reserved by the standard are reported, and only they | Proved: when each message is due, for all names; every function of the library except those of <math.h> is reported. Refuted: functions named like those of <math.h> (sqrt) are not reported; members of enumerations beginning with an underscore are not; EOF is reported as a name for <errno.h>. |
| C146 | partial | Words of C++ are reported | Proved up to five missing and two extra words, named in the theorem. Refuted for typename (missing) and const_class (extra). |
| C147 | partial | Names of parameters in declarations | Proved for literal prefixes and for each flag alone. Refuted: the codes of Figure 23 have no meaning in this prefix; +declparamname does nothing when a prefix is set. |
| C148 | partial | Integer constants are read with the value C gives them | Proved for values up to LONG_MAX, with the bound shown exact, and for binary constants. Refuted: for 0xffffffffffffffff the value is computed by signed overflow; 08 and 1lL are accepted without a message. |
| C149 | partial | Integer constants have the type C gives them | Proved: the type given is always the first of C's list for the suffix, and is that of C exactly if the value fits it. Refuted for 0xffffffff (unsigned int in C) and 9999999999 (long in C), both taken as int. |
| C150 | partial | Character constants are read with the value C gives them | Proved exactly for which constants the value is right: all characters, the escapes n, t, double quote, quote, backslash, and whatever denotes 0; all others are taken as 0. Refuted: \a and \r have equal values, \101 is 0, L'a' has the value of a quote. |
| C151 | partial | A constant is null exactly if it is zero | Proved, except that only constants without a suffix get the type of a pointer or boolean. Refuted for 0L with +zeroptr. |
| C152 | partial | An initializer that passes is valid C | Proved with +initsize, +fullinitblock and type checking, for initializers without designations and without blocks for pointers. Refuted without these: with -fullinitblock the values of a short structure are not looked at, a block for a pointer passes, designations (index and value) are not checked. |
| C153 | partial | Valid complete initializers are not reported | Proved: with the flags on, exactly the initializers with all braces and a fitting value for every part pass (no designations, blocks for pointers, strings in braces), and these pass whatever the flags. Refuted: int a[2][2] = {1,1,1,1}, int x = {1} and char s[6] = {"hello"} are valid and complete but reported. |
| C154 | proved | Messages about initializers say what is wrong and where | Every message is right and of a flag that is on; every mistake of a part, reached by position, is reported unless the message is given that further errors are not. |
| C155 | partial | Errors in long initializers are limited, and this is said | Proved: at most four elements of an array with more than six values are reported, the cut off is announced only when four are, never for blocks of up to six. Refuted: it is also announced when there is no further error. |
| C156 | partial | A name reported as exported but not used outside its module is not used elsewhere | Proved for modules as splint knows them (files with the same base name). Refuted for files: a function defined in a/util.c and used in b/util.c is reported. Refuted for uses: a function declared with extern in a header that is read for two files is reported though nothing uses it. |
| C157 | partial | Every name used in one module only is reported | Proved exactly: if the first declaration is in the module of the definition, or with +showuses, and there is no further declaration with extern. Refuted: declared in api.h, defined and used only in impl.c: not reported, but reported with +showuses; an extern declaration in another file counts as a use there. |
| C158 | proved | The order of files and uses does not matter to messages about exported names | Only the set of places decides; the bound on the kept places loses nothing. |
| C159 | partial | Unused global names are reported, used ones are not | Proved: reported exactly if neither used nor declared again with extern, by the message of its kind; never both messages; main gets neither. Refuted: a variable that is only declared again with extern, or a function with an extern declaration in a header that is read for two files, is not reported. |

## Findings

Statements which are false of the model, each with a witness proved in Rocq (theorems `_refuted`) or an exact description of the failure.

* `C01_nested_minus_refuted`: 5 - (3 - i) is simplified to an expression with another value.
* `C01_constant_difference_refuted`: The difference of two declared constants is replaced by their sum.
* `C01_large_literal_refuted`: A literal beyond the range of int is truncated.
* `C02_strict_refuted`: i > j is discharged by i >= j.
* `C03_zero_minus_refuted`: i <= i + (0 - 5) is dropped as always true.
* `C03_sizeof_refuted`: maxSet(p) = sizeof(p) - 1 is dropped as always true whatever the element size and whatever comparison: here p has 10 elements of 4 bytes.
* `C03_wrong_union_member_refuted`: maxSet(p) >= (i + j) - 1 makes the classification read a union member of the wrong kind.
* `C04_alternative_refuted`: i >= 5 is dropped when the list holds (i >= 5 or j >= 5).
* `C04_strict_refuted`: i > 3 is dropped when the list holds i >= 3.
* `C05_simplify_constraint_refuted`: 5 - (3 - i) >= j is changed to a constraint with another truth value.
* `C06_plain_substitute_refuted`: The plain form replaces i >= j by i >= 1 when 0 < j is known.
* `C06_last_attempt_refuted`: So does the form used only in the last attempt before a message: i >= 3 becomes 9 >= 3 when i <= 9 is known.
* `C07_unary_operand_refuted`: [2 * -3] is rejected.
* `C07_unary_nested_refuted`: [! -1] is rejected.
* `C07_unary_grouping_refuted`: [-6u / 4] is computed as [-(6u / 4)]: wrong value.
* `C07_shift_refuted`: [1 << 32] is 0 and [1 << 32 == 0] true: the wrong branch is taken.
* `C07_nested_conditional_refuted`: [1 ? 1 ? 2 : 3 : 4] is rejected.
* `C07_skipped_type_refuted`: [(0 ? 1 / 1u : 0) - 1 < 0]: the skipped division loses its unsignedness, the comparison is signed and true where C says false.
* `C07_skipped_overflow_refuted`: [0 && (9223372036854775807 + 1)]: the skipped addition is carried out, which is undefined behaviour in the evaluator.
* `C08_skipped_type_refuted`: [(0 ? 1 / 1u : 0) - 1 < 0 && 1 / 0]: the right operand is unevaluated in C (0u - 1 is not negative), yet a division by zero is reported.
* `C09_no_digits_refuted`: [0xu] is accepted as 0 in silence.
* `C09_long_long_refuted`: The C99 constant [1ll] draws an error.
* `C10_unterminated_refuted`: C10. Nothing is said of a conditional that is not closed; in C it is an error.
* `C11_elif_refuted`: C11. The three conditions are needed. With an #elif: the part after it is lost.
* `C11_undef_before_refuted`: With #undef before the guard, the file is read every time by C.
* `C11_quiet_include_refuted`: After an #include of a file without tokens, an #ifndef counts as the first thing of the file.
* `C13_parameter_uses_refuted`: C13. The second use of a parameter is lost, and how much text precedes the first is undetermined.
* `C13_noexpand_refuted`: C13. For every macro, whether it is to be expanded at all is undetermined afterwards.
* `C14_literal_white_refuted`: C14. White space inside a string literal is part of it, but its amount is not compared.
* `C14_paste_refuted`: C14. With ##, which is dropped from the stored text, different lists are taken for the same.
* `C14_variadic_refuted`: C14. "..." after the last parameter is not compared.
* `C14_high_character_refuted`: C14. A body with a character from 128 on indexes the character tables before their start.
* `C15_nested_line_refuted`: A counted line inside a region ends the region: the message on line 7 lies between the ignore of line 3 and the end of line 9, and is shown.
* `C15_order_refuted`: Without the order of the text: a comment met after one that stands behind it in the file, and before every other one, is filed at the end; a message between the two is then hidden by a region that begins behind it.
* `C15_system_refuted`: In a system header: a region of a user file whose comments were met before hides messages in the header, and the other way round.
* `C16_library_refuted`: The restriction is needed. Library locations: the same message is reported again.
* `C16_unknown_refuted`: Unknown locations: mixed with known ones, a known message is reported twice.
* `C16_derived_refuted`: Derived files: a message at the same position of a derived file is taken for a repetition and dropped.
* `C17_similar_refuted`: Messages that differ only after the colon are not similar: with limit 0 a message whose text up to the colon is that of the one before is printed all the same.
* `C17_no_flush_refuted`: Without a final flush (there is none after the global checks) messages are lost.
* `C18_quote_refuted`: A quote in the message text (a string literal in the source): not readable, or read as something else.
* `C18_comma_refuted`: A comma in a file name: another number of fields.
* `C19_indent_refuted`: For every larger indentation there is a word of 20 letters whose printing never comes to an end: the limit in the theorem above is exact. With -linelen 20 an indentation of 5 is enough, with -linelen 80 one of 60.
* `C19_multiline_refuted`: A short message of two lines is printed wider than the line length.
* `C19_narrow_refuted`: 42 is exact: with a line length of 41 a one-line message is printed wider.
* `C20_global_refuted`: The manual's pair "global" for "glob" is not in the program (it has "globals" for "globs").
* `C20_idempotent_refuted`: Canonicalising twice is not the same as once: long words are sought before separators go.
* `C21_restore_compound_refuted`: Restoring a compound flag does not restore the flags it stands for: after /*@=null@*/ checking of null dereferences is off, though it is on in the default mode and nothing was changed.
* `C21_mode_comment_refuted`: A mode named in a comment stays after the file.
* `C21_value_comment_refuted`: So does a value.
* `C21_idem_refuted`: A flag that cannot be turned off is turned on by restoring it.
* `C23_big_number_refuted`: A number too big for an [int] is not refused: its conversion is undefined.
* `C24_severe_levels_refuted`: The other direction does not hold: +its4low alone leaves the severe levels off.
* `C25_eight_bit_name_refuted`: The preconditions are needed: a character outside the 7-bit range makes the hash index its array of random numbers with a negative number.
* `C25_reserved_number_refuted`: An update to the reserved number hides the entry without any report, and the name can then be inserted a second time, with the new number unreachable.
* `C26_growth_overflow_refuted`: Overflow: a table of 82000 buckets is asked to grow at its 50619th entry, and the computation of the new size overflows int.
* `C26_duplicate_keeps_old_refuted`: A second insertion under the same name keeps the old object (and reports a bug).
* `C27_member_refuted`: The full statement is false: 3, 2, 1 leaves 2 unreported, and inserting it again makes the size wrong.
* `C27_size_refuted`: after inserting 3, 2, 1 the size is wrong too.
* `C27_overread_refuted`: A new maximum inserted into a full array reads past its end.
* `C27_uninitialised_refuted`: Before that, the slot read is uninitialised: if it happens to hold the number, the number is dropped.
* `C28_equal_library_refuted`: Outside that, equality is not the zero of the order: a library location is not equal to a copy of itself, and a location in a derived file is equal to a different one.
* `C28_equal_derived_refuted`: locations in files derived from one another are equal though the files differ.
* `C29_read_back_refuted`: Witness: -12 is read back as -8.
* `C30_string_constant_refuted`: In the line format used for constants (value, then two more fields, then '#' and the name, uentry.c:5280-5289) every string constant absorbs the fields behind it, so it never survives.
* `C30_double_refuted`: Doubles are written with two decimals: 1/8 comes back as 12/100.
* `C30_long_refuted`: A long constant outside int (here 2^32) comes back as a different value.
* `C31_name_refuted`: A constraint on a variable named "Result" becomes a constraint on the function's result; one with literal -12 becomes one with -8.
* `C31_literal_refuted`: a bound with the literal -12 comes back with another number.
* `C32_long_line_refuted`: an entry whose line has 16382 characters is written but is fatal when loaded.
* `C32_named_bool_refuted`: A pointer to a user's type named like the boolean type comes back as a pointer to the built-in boolean type: the constituent and the link of the same entry then disagree.
* `C32_empty_member_refuted`: A member name that is empty, or a name containing the closing character, would not come back; C identifiers are neither.
* `C33_fixed_array_refuted`: Finding: arrays of the same size and element type are different type numbers each time they are written, so they are not equal for the tests that compare type numbers (ctype_compare).
* `C34_relaxquals_refuted`: C34 is false: +longint accepts an int for a short, +longint +relaxquals does not.
* `C34_ignoresigns_refuted`: C34 is false: with ignorequals an int is accepted for an arbitrary unsigned integral type (size_t), with ignoresigns as well it is not: the test of ignoresigns is the wrong way round.
* `C34_ignorequals_refuted`: C34 is false: for the same reason ignorequals adds an error for size_t := long.
* `C34_matchanyintegral_refuted`: C34 is false: relaxtypes with longsignedintegral accept a float for an arbitrary signed integral type, matchanyintegral as well does not.
* `C34_longintegral_refuted`: A flag outside C34's list: longintegral overrides longunsignedintegral.
* `C35_signed_refuted`: C35 is false: with matchanyintegral a value of the arbitrary signed integral type (ssize_t) is accepted wherever any primitive type is expected (the code tests the wrong type).
* `C35_relaxtypes_refuted`: The precondition on relaxtypes is needed in C35 and C51.
* `C37_directory_dot_refuted`: ... and removing "the extension" can remove the file name: "../lib/ansi" gives ".".
* `C37_clean_refuted`: cleaning "./x" returns a buffer without terminating NUL.
* `C38_order_refuted`: C38 is false: "abc" and "abcd" with 3 significant characters.
* `C39_octal_refuted`: C39 is false: "\18" is two characters in C, one for splint.
* `C39_adjacent_refuted`: two adjacent literals are given the wrong length.
* `C39_octal_value_refuted`: C39: the values of octal escapes are wrong: "a\07" ends in the character 7, and is reported as ending in a null character; the second digit is never added.
* `C40_last_entry_refuted`: C40 is false for other lists: the only entry of a one-entry list, and the last of four.
* `C41_init_option_refuted`: Not so for -i: what follows its argument, options and files, is dropped.
* `C41_obsolete_flag_refuted`: An obsolete flag, announced as ignored, makes the program write outside a table.
* `C41_long_directory_refuted`: "--" before a flag is allowed, but --Iinc searches the directory "Iinc".
* `C41_mode_spelling_refuted`: A spelling of a mode with a separator is taken for the mode but sets no mode.
* `C41_argument_as_option_refuted`: The argument of an option is looked at as an option by the first pass.
* `C42_line_after_comment_refuted`: a multi-line comment before #line on its line is counted twice.
* `C43_value_position_refuted`: A value attached to the pointed-to storage and one attached to the pointer are written identically, so one of them cannot survive: *p with value 3 is read back as the target of (p with value 3).
* `C43_index_refuted`: An array element with index -12 of parameter 0 comes back with index -8.
* `C48_mixed_continuations_refuted`: C48. Without the condition: a string continued once, then a backslash-newline outside it; ten lines on the numbers are still two too low.
* `C49_nestcomment_refuted`: /* inside a comment is not reported although nestcomment is on.
* `C49_spliced_end_refuted`: C49. The conditions of the layout theorem are needed: a splice inside the closing [*/] of a syntactic comment, the marker [*] with an empty comment, and a newline as marker (which [commentchar] accepts).
* `C49_star_marker_refuted`: with * as comment marker an ordinary comment is not blanked.
* `C49_newline_marker_refuted`: with a newline as comment marker the lines are not kept.
* `C49_commentchar_default_refuted`: C49. A [commentchar] comment without a character takes the [%] written over its own end.
* `C53_longint_refuted`: C53 is false for longint: a long is not accepted for an int (a misspelt CTX_LINT), unless another flag accepts it.
* `C54_arbitrary_refuted`: The precondition is needed: the comparison with an arbitrary integral type forgets that it is deep, so with longintegral and relaxquals an [int *] is accepted for a pointer to dev_t, which stands for a long.
* `C56_sizes_refuted`: Finding: int ( *x[3])(p7) is an array of unspecified size.
* `C58_parenthesised_refuted`: int ( *x); int (x[5]); int (x(p7)) are all taken to be int.
* `C58_pointer_to_array_refuted`: int ( *x)[3]
* `C60_label_in_switch_refuted`: Control can enter a switch by a label; what follows a label is taken to be left like the statements before it. [if (c) goto out; switch (x) { default: return 1; out: x = 2; }] falls off the end, without any message.
* `C60_nested_case_refuted`: Statements before the first case of a switch are not considered, though a case may stand inside them: [switch (x) { if (c) { case 1: break; } default: return 1; }].
* `C60_hidden_label_refuted`: When the message about unreachable code is suppressed, the code is taken not to be reached even if it has a label: [if (c) goto out; return 1; { out: x = 2; }].
* `C61_comma_refuted`: Outside structured code the message may be wrong though nothing falls off the end: [exit (1), x;] as last statement; [do { return 1; } while (c);]; [while (1) { if (c) continue; return 1; }] — a continue counts as a break.
* `C61_do_refuted`: A do loop whose body returns is reported as possibly not returning.
* `C61_continue_refuted`: A continue in an infinite loop is taken for a way out of it.
* `C62_label_refuted`: [if (c) goto out; return 1; { out: x = 2; }]: the block is called unreachable, but is reached.
* `C63_label_refuted`: A label before the case silences the message, though control falls through it: [case 1: x = 2; out: case 2:].
* `C67_compared_refuted`: (p != NULL) == 0 is taken like p != NULL: comparing a test with zero keeps the guards of the test, so p is taken to be non-null exactly where it is null.
* `C67_index_refuted`: a[i] != NULL guards a[j] for any index which is not a number.
* `C67_element_refuted`: a[1] != NULL guards [*a].
* `C67_constant_refuted`: p != LIMIT guards p for a constant LIMIT of unknown value, which need not be null.
* `C67_comma_refuted`: The comma expression [p != NULL, x] has the guards of its left operand, though its value is that of the right one.
* `C67_comma_value_refuted`: The comma expression (0, x) has the value of its left operand, so p != (0, x) counts as a null test of p.
* `C67_conditional_refuted`: The conditional expression [p != NULL ? x : y] has the guards of its predicate, though it may be true by its third operand.
* `C67_conditional_ref_refuted`: The conditional expression [c ? p : q] of pointers counts as a test of p.
* `C67_bitor_refuted`: The operator | keeps the guards of its left operand: [(p != NULL) | x] guards p.
* `C67_complement_refuted`: The operator ~ keeps the guards of its operand.
* `C67_pointer_sum_refuted`: Pointer plus number counts as a test of the pointer: if (p + 1) guards p.
* `C67_assigned_refuted`: An assignment in the second operand of && does not remove the guard of the first: p != NULL && (p = NULL) == NULL.
* `C68_for_refuted`: for ( ; p; ) does not guard p in its body, while (p) does.
* `C69_break_refuted`: A loop left by break is taken to have ended because its condition was false: while (p == NULL) { break; } *p.
* `C69_continue_refuted`: A continue in a do loop is taken not to reach the rest: do { if (p == NULL) { continue; } } while (c); *p.
* `C69_do_break_refuted`: A break in a do loop likewise: do { if (p == NULL) { break; } } while (c); *p.
* `C69_second_round_refuted`: A loop body is gone through only once: while (c) { *p; p = NULL; }.
* `C69_or_exit_refuted`: Of p == NULL || exit (1) the opposite is concluded, that p is not null afterwards.
* `C69_assigned_branch_refuted`: What the condition says is kept after the branch it holds in has assigned the pointer: if (p == NULL) { return; } else { p = maybe (); } *p.
* `C69_mark_refuted`: That a branch has assigned the pointer is forgotten when both branches of an if inside it mention the pointer: if (p != NULL) { p = maybe (); if (c) { p; } else { p; } } else { p = fresh (); } *p.
* `C69_constant_refuted`: A null constant of an abstract type disappears when joined with a value which is not null: if (c) { p = fresh (); } else { p = nullconstant; } *p.
* `C69_loopexec_refuted`: With the flag whileloopexec the condition of a loop is taken to hold after the loop: while (p != NULL) { f (); } *p.
* `C72_case_without_assignment_refuted`: A case which does not mention x leaves it undefined, but splint takes x to be defined after the switch: [switch (f ()) { case 1: x = 1; break; case 2: break; default: x = 1; } use x].
* `C72_switch_on_undefined_variable_refuted`: The controlling expression of a switch is not checked when it is just a variable: [switch (x) { default: ; }].
* `C72_break_before_return_refuted`: A case which ends with a return is left out of account, although a break inside it leads out of the switch: [switch (f ()) { case 1: if (f ()) break; return; default: x = 1; } use x].
* `C72_assignment_after_and_refuted`: A variable assigned in the right operand of && is taken to be defined afterwards, although the operand need not be evaluated: [(void) (f () && (x = 1)); use x].
* `C72_for_increment_refuted`: What the increment of a for loop assigns is taken to be defined in the first round already: [for (; f (); x = 1) use x].
* `C72_for_test_refuted`: So is the test which is just that variable: [for (; x; x = 1) ;].
* `C72_continue_refuted`: A continue leads to the increment without what the rest of the body assigns: [for (; f (); y = x) { if (f ()) continue; x = 1; }].
* `C72_break_in_do_refuted`: A break leaves a do loop before what its body assigns later: [do { if (f ()) break; x = 1; } while (f ()); use x].
* `C72_break_in_obvious_loop_refuted`: Likewise a loop taken to be executed at least once: [for (i = 0; i < 3; ) { if (f ()) break; x = 1; } use x].
* `C72_comma_refuted`: A comma hides the use of a variable assigned after it: [x, x = 1].
* `C72_loops_taken_to_be_executed_refuted`: With [+whileloopexec] or [+forloopexec] what a loop assigns is taken to be defined after it; the first test may be false.
* `C73_return_before_else_refuted`: A branch which returns still makes what only the else assigns undefined: [if (f ()) return; else x = 1; use x].
* `C73_endless_loop_refuted`: So does a loop which is left only after the assignment: [while (1) { x = 1; break; } use x].
* `C74_comparison_refuted`: A loop with [==], [<] or [>] is taken to be executed although its first test is false: [for (i = 0; i == 1; )], [for (i = 0; i < 0; )], [for (i = 0; i > 0; )].
* `C74_undefined_use_after_loop_refuted`: So what its body assigns is taken to be defined: [for (i = 0; i < 0; ) x = 1; use x].
* `C76_char_unsigned_refuted`: [char unsigned] is the type unsigned char of C; it is taken for unsigned int, silently.
* `C76_double_long_refuted`: [double long] is the type long double of C; it is taken for long int, silently.
* `C76_char_signed_refuted`: [char signed] is a character type; it is taken for int.
* `C76_signed_char_refuted`: Two types which C keeps apart, char and signed char, are one type.
* `C78_long_long_long_refuted`: [long long long] is accepted.
* `C78_int_int_refuted`: [int int] is accepted.
* `C78_signed_unsigned_refuted`: [signed unsigned] is accepted, as unsigned.
* `C78_long_float_refuted`: [long float] is accepted, as float.
* `C78_float_char_refuted`: [float char] is accepted: the last word counts.
* `C78_double_short_refuted`: [double short] is accepted, as short, though [short double] is reported.
* `C78_unsigned_enum_refuted`: [unsigned enum e] is accepted, as unsigned int.
* `C78_ignorequals_refuted`: Under the flag ignorequals, which is described as being about comparisons of types, [long short] is accepted too.
* `C79_flag_order_refuted`: [%0-*d] needs two arguments; given two, splint says there is one too many: for it the minus is an unknown conversion, and what follows is text.
* `C79_error_argument_refuted`: If there was an error in the argument for the star of [%*d], the rest of the directive is taken as text, and its argument for one too many.
* `C80_long_double_refuted`: [%lf] takes a double (C99 7.19.6.1); splint wants a long double.
* `C80_long_count_refuted`: [%ln] takes a pointer to long; splint wants a pointer to int.
* `C80_short_count_refuted`: [%hn] gives a message about contradictory type modifiers.
* `C81_percent_at_end_refuted`: The format [100%]: splint steps over the NUL and searches behind the end of the text.
* `C81_open_set_overrun_refuted`: The format [%[]: splint steps over the NUL.
* `C81_open_set_fatal_refuted`: The format [%[abc]: the program stops.
* `C81_width_m_refuted`: The format [%5m]: a variable which has no value is used.
* `C82_suppressed_set_refuted`: [%*[^%d]] needs no argument; the [%d] in the suppressed set is taken for a directive.
* `C82_negated_bracket_refuted`: [%[^]%d]] needs one argument; the set is taken to end before the [%d].
* `C83_pointer_refuted`: [%p] reads a pointer; splint says it should not be used in scanf.
* `C83_char_refuted`: [%hhd] stores a char; splint wants a pointer to int.
* `C83_long_count_refuted`: [%ln] stores a long; splint wants a pointer to int.
* `C84_forwarddecl_refuted`: With +forwarddecl the answer depends on hidden representations: an abstract type represented by a pointer to a structure matches pointers to that structure, everywhere.
* `C85_array_refuted`: An array of values of an abstract type is accepted for [void *] when the array comes first (as the declared type), though a pointer to them is not without +abstvoidp.
* `C85_boolean_refuted`: A boolean is accepted for an abstract type, if the number of the abstract type's name happens to be the index of a boolean type: the wrong member of a union is read.
* `C85_forwarddecl_refuted`: With +forwarddecl pointers to the structure match the abstract type.
* `C86_unnamed_structures_refuted`: Two structures without tags are different types in C (6.1.2.6, 6.5.2.3), but match if their fields have the same names and matching types; with a field of another type or name they do not match.
* `C86_void_pointers_refuted`: [void **] accepts [char **].
* `C86_fixed_array_refuted`: With relaxquals an array [int a[3]] is accepted for [long *], an array [int a[]] is not.
* `C86_parameters_refuted`: With relaxquals a pointer to a function taking an int is accepted for one to a function taking a long, which will be called with longs.
* `C86_void_name_refuted`: A pointer to a typedef for void is not taken for a pointer to void.
* `C86_pointer_to_array_refuted`: A pointer to an array of three characters is accepted for [char **].
* `C86_array_of_functions_refuted`: An array of pointers to functions is accepted for a pointer to a function, if the array comes first or has a size.
* `C86_pointer_to_function_pointer_refuted`: A pointer to a pointer to a function is refused for [void *] with castfcnptr, though it does not point to a function.
* `C88_cycle_refuted`: Two typedefs for each other, which stand for no type, would make it run forever.
* `C89_array_size_refuted`: The sizes of arrays are not compared.
* `C89_void_pointer_refuted`: [void *p] may be declared again as [char *p].
* `C89_function_pointer_refuted`: A function may be declared again as a pointer to a function.
* `C91_three_variables_refuted`: [q = p; r = p; p = q;]: [p] and [r] hold the same storage, and nothing is known about it.
* `C91_self_assignment_refuted`: [p = p;] makes everything forgotten that is known about [p].
* `C92_three_variables_refuted`: [q = p; r = p; p = q; destroy (p); use (r);]: nothing at all is reported.
* `C92_self_assignment_refuted`: [q = p; p = p; destroy (q); use (p);]: nothing at all is reported.
* `C95_aliased_refuted`: [{ T p, q; p = create (); q = p; }]: the storage is lost, and each of the two variables is taken to be the reference that remains of the other.
* `C96_false_alarm_refuted`: [q = p; r = p; p = create (); destroy (r); destroy (p);]: all is well, but the first release is reported, for it is forgotten that [q] holds the storage of [r].
* `C96_false_leak_refuted`: A leak is reported although another variable still holds the storage, and releases it.
* `C97_loop_copies_refuted`: [p = create (); q = p; while (c) { use (p); destroy (q); q = create (); } destroy (q);]: in the second iteration [p] has been released; the loop is looked at once, and that [p] and [q] may be different storage after it leaves [p] with a kind about which nothing is said.
* `C97_do_loop_refuted`: [p = create (); do { destroy (p); } while (c);]: released twice; the body of a [do] loop is treated as if it were executed once.
* `C98_returning_branch_refuted`: [p = create (); q = create (); if (c) { destroy (q); q = p; destroy (p); return; } destroy (p); destroy (q);]: that [q] holds the storage of [p] is remembered after the branch that returns, so [q] is said to have been released.
* `C99_copies_refuted`: [p = create (); if (c) { q = p; r = q; } else { r = p; q = r; }]: one of the variables must release the storage after either branch, but not the same one, and no message is given at the end.
* `C99_undefined_refuted`: [T x; if (c) x = create (); x = create (); destroy (x);]: where the branches meet [x] counts as undefined, and nothing is lost by assigning to it.
* `C99_error_kind_refuted`: [p = create (); q = p; if (c) { use (p); destroy (q); q = create (); } if (d) p = create (); destroy (q);]: all storage is lost that [p] obtains in the last branch.
* `C99_do_loop_refuted`: [T x; do x = create (); while (c); destroy (x);]: what the iterations before the last have created is lost.
* `C100_unreachable_refuted`: Statements after a return are looked at though they are not executed.
* `C101_call_on_right_refuted`: The value of the left operand is not compared with what a call on the right modifies: [v0 + f2 ()] and [v0 += f2 ()], where [f2] modifies [v0], are passed over, though [v0 + (f2 ())] is reported.
* `C101_subscript_refuted`: An element is not compared with what its own subscript modifies: [a0[a0[0]++] = 1].
* `C101_pointer_refuted`: The value of the right operand is compared with [sRef_same], which does not know that what an array points to are its elements: [f1 (a0) + a0[0]], where [f1] modifies what its argument points to, is passed over, though [a0[0] + (f1 (a0))] is reported.
* `C101_comma_subscript_refuted`: The known value of a comma expression is that of its first operand: [a0[(0, v1)] + (a0[1] = 2)] is taken to be about two different elements.
* `C101_global_array_refuted`: An array in the globals list of a function is not compared with its elements: [(a0[0] = 1) + (f3 ())], where [f3] uses [a0].
* `C101_chosen_argument_refuted`: Of an argument chosen by a condition only the first choice counts: [a1[0] + (f1 (v1 ? a0 : a1))].
* `C101_unconstrained_refuted`: With [evalorderuncon], only the storage an operand is itself in counts as global: [(v0 + 1) + f4 ()], where [f4] has no modifies clause, is passed over, though [v0 + f4 ()] is reported.
* `C102_call_on_right_refuted`: [v0 + f2 ()]: the value depends on the order, and nothing is said.
* `C102_subscript_refuted`: [a0[a0[0]++] = 7]: the final value of [a0[0]] depends on when it is incremented, and nothing is said.
* `C103_comma_refuted`: A false alarm: [v0 = (v0++, 3)] is reported, though the comma separates the two modifications.
* `C103_call_in_operand_refuted`: A false alarm: [v0 = f2 () + 1] is reported, where [f2] modifies [v0]: the assignment comes after the call in every order. [v0 = f2 ()] is not reported.
* `C103_unconstrained_refuted`: A false alarm with [evalorderuncon]: [v0 = f4 ()] is reported, where [f4] has no modifies clause.
* `C103_comma_subscript_refuted`: A false alarm: [a0[(v1, 0)] + (a0[1] = 2)] is reported, though the two elements are different.
* `C104_own_successor_refuted`: [p = p->next; p->val = 1;]: that [p] was a parameter is forgotten before the place it is set from is looked at, and nothing is said though nothing may be modified.
* `C104_stored_pointer_refuted`: [r = p; p->next = q; r->next->val = 1;]: the pointer stored through [p] is not known as one stored through [r].
* `C104_address_of_parameter_refuted`: [q = &p; ( *( *q)) = 1;] for a parameter [p]: no alias is recorded for the address of a parameter.
* `C104_address_of_pointer_refuted`: [q = &r; r = p; ( *( *q)) = 1;]: that [q] points to [r] is not used when [r] is set afterwards.
* `C104_address_given_to_function_refuted`: [r = &g; f (&r);] where [f] modifies what is reached from its parameter: the alias of [r] is dropped because it is an address.
* `C104_second_time_refuted`: [while (...) { p->val = 1; p = q; }]: the body is looked at once, with [p] as before the loop.
* `C104_unconstrained_refuted`: Without the flag moduncon nothing is said about a call of a function without a modifies clause, which may modify anything.
* `C104_callee_stores_pointer_refuted`: A function which modifies [p->next] may store the pointer [q] there; nothing is said about [f (p); p->next->val = 1;] if the clause lists [p->next].
* `C104_search_limit_refuted`: Searches for aliases end after eight steps: nothing is said about [( *( *( *( *( *( *( *( *p)))))))) = 1], though it is with one [*] less.
* `C104_unknown_global_refuted`: Globals which are not annotated as checked may be modified; with the flag allglobals they may not be set, but may be modified by a call.
* `C104_index_ignored_refuted`: The index of an element in a clause is dropped: a function which lists [p[3]] may set [p[4]].
* `C105_global_alias_refuted`: [g = h; g = NULL;] where the clause lists [g]: a modification of [h] is reported, because [g] has the value of [h] when it is set again.
* `C105_address_of_parameter_refuted`: [f (&n)] for a number which is a parameter, where [f] modifies what its argument points to: reported, though the caller cannot see [n].
* `C105_member_of_parameter_refuted`: [q = &s.val; q[0] = 1;] for a structure [s] which is a parameter: reported, though the caller cannot see [s].
* `C105_element_of_address_refuted`: [p = &g.val; p[0].next = 1;] where the clause lists [g.val.next]: reported.
* `C105_aliased_parameters_refuted`: If [p] and [q] point to the same object, [q->val = 1] modifies nothing but what is listed as [p->val].
* `C106_modified_below_refuted`: [f (p)] where [f] modifies what its argument points to and all that is reached from it: the clause lists [*p] and [p->next->val], and the second is reported, though it may be what [f] modifies.
* `C106_aliased_parameters_refuted`: If [p] and [q] point to the same object, [q->val = 1] modifies [p->val], which is reported as not modified.
* `C106_branch_refuted`: [if (...) p->val = 1;]: [p->val] is not reported, though it may be left alone.
* `C106_call_refuted`: [f (p)] where [f] may modify what its argument points to: [*p] is not reported, though [f] may leave it alone.
* `C107_divide_refuted`: [#define DIV(a,b) a/b]: [DIV(x,*p)] begins a comment, which swallows the rest of the line.
* `C107_arrow_refuted`: [#define NEG(x) -x]: [NEG(>b)] gives the token [->].
* `C107_number_refuted`: [#define M(f) 1.f]: the parameter is replaced within the number [1.f].
* `C107_wide_refuted`: [#define W(x) L#x]: [W(a)] gives one wide string, though [L] and the string are two tokens.
* `C107_dollar_refuted`: [#define N 1$]: [N.5] gives one number, though [1$] and [.5] are two.
* `C107_dot_refuted`: [#define X 5]: [.X] gives the number [.5], though it is two tokens.
* `C108_not_ascii_refuted`: A character outside of ASCII in the argument: [sprintf] stores thirteen bytes where four are reserved.
* `C108_control_refuted`: A control character in a literal in the argument: it is written as [\001], which is not the spelling of the argument, and one byte more is stored than reserved.
* `C108_at_sign_refuted`: [@] in an argument is doubled when the argument is read, and [#] does not undo it; before a space one of them is taken for a marker and the space is lost: [STR(@ y)] gives ["@y"] and [STR(@y)] gives ["@@y"].
* `C109_joined_refuted`: [#define A +], [#define B A]: the text [B+] is written as [ ++], which is one token when it is read again.
* `C111_empty_argument_refuted`: [#define f(x)]: [f()] is reported as a call without arguments, [f( )] is not.
* `C112_paste_last_refuted`: [#define P(x) x##] followed by white space at the end of the line is not reported.
* `C113_marker_refuted`: [#define EQ =], [#define JOIN(a,b) a##b], [#define APPLY(a,b) JOIN(a,b)]: in [APPLY(+,EQ)] the second argument of [JOIN] is [=] behind a marker for a space, so that two tokens are written instead of [+=].
* `C113_next_argument_refuted`: [#define f(x,y) a##x y], [#define h(z) f(foo,z)], [#define g h(g)]: for [g] the arguments of [f] are [foo] and [@-g]. The test for the mark [@-] behind [foo] reads the text of the next argument, and the length of the rest of the first becomes negative: undefined behaviour.
* `C113_minus_refuted`: A minus sign behind a newline at the end of the left operand is lost with the newline.
* `C114_conditional_argument_refuted`: [f1 (v0 ? 0 : a0);] is reported to have no effect, though it sets the elements of the array to 0 if [v0] is 0: of a conditional argument only the first alternative is looked at.
* `C114_result_in_parentheses_refuted`: Results that are thrown away are only looked for if the whole statement is a call: [f0 (v0);] is reported, but [(f0 (v0));] and [f0 (v0), f0 (v1);] are not.
* `C115_jumps_refuted`: [while (v0) break;] and [while (v0) { if (v1) return; }] are reported as infinite loops: jumps are not looked for.
* `C115_switch_refuted`: [while (v0) switch (1) { case 1: v0 = 0; }] is reported as an infinite loop: what the clauses of a switch modify is not counted.
* `C115_global_array_refuted`: [while (f2 ()) a5[0] = 0;], where [f2] has the array [a5] in its globals list, is reported as an infinite loop: the array as a whole is not compared with its elements.
* `C115_conditional_argument_refuted`: [while (a0[0]) f1 (v0 ? 0 : a0);] is reported as an infinite loop: see [C114_conditional_argument_refuted].
* `C115_comma_subscript_refuted`: [while (a0[(0, 1)]) a0[1] = 0;] is reported as an infinite loop: the value of a comma expression is taken to be that of its first operand.
* `C116_other_loops_refuted`: Nothing is said about [for (; v0; ) ;] and [do ; while (v0);], which never end if [v0] is not 0: only [while] loops are checked.
* `C116_comma_subscript_refuted`: Nothing is said about [while (a0[0]) a0[(v1, 1)] = 2;], though nothing the condition depends on is modified: the value of the comma expression is not known.
* `C117_promotion_refuted`: An unsigned short operand is taken to make the arithmetic unsigned, though it is promoted to int: [u << (s - t)] with a shift by -1 is accepted.
* `C117_literal_refuted`: An operand with a known value gets the type of the other one: [1u << (5l - u)] with u = 10 shifts by -5 where long is longer than unsigned int, and is accepted.
* `C117_enum_refuted`: A variable of an enumerated type is taken to be non-negative; C allows negative members.
* `C117_cast_refuted`: A cast keeps the known value: [1u << (short) 40000] is accepted, though the value is -25536.
* `C117_wrapped_refuted`: Known values are not reduced: [1u << ((1u - 2u) * -1l)] is accepted with the known value 1; the value is 1 - 2^32.
* `C117_bitwise_refuted`: Without bitwiseops, [l | u] counts as unsigned although the result is a long: [1u << (l | u)].
* `C117_exact_refuted`: The message is not exact: a shift by a bool or by a character constant is reported though no value of the operand is negative.
* `C118_right_refuted`: If the left operand is signed with a known non-negative value, the right one is not looked at: [5 | x] with a signed x.
* `C118_promotion_refuted`: An unsigned short operand is taken to make the arithmetic unsigned: [(s - t) & 7u] with a negative difference is accepted.
* `C119_mixed_refuted`: The sum of an int and an unsigned int is taken to be an int.
* `C119_real_refuted`: The product of a long and a double is taken to be a long.
* `C119_short_refuted`: The sum of two unsigned shorts is taken to be an unsigned short.
* `C119_literal_refuted`: The type of a constant does not count: [5l + i] is taken to be an int.
* `C119_remainder_refuted`: A remainder has the type of its left operand: [i % l] is taken to be an int.
* `C120_meaningful_refuted`: [u <= 0], [0 < u] and [0 >= u] are reported, though they depend on the value of u.
* `C120_left_refuted`: [0 > u] is always false, and not reported.
* `C120_signed_refuted`: [i < 0u] is always false for an int i, and not reported.
* `C121_minus_refuted`: An integer minus a pointer is accepted (apart from pointerarith).
* `C121_zero_refuted`: An expression of the constant 0 is taken for a null pointer: [p == ~0] and [p < 0] are accepted.
* `C121_real_refuted`: The sum of a long and a double is taken for a long, so its remainder is accepted.
* `C121_strictops_refuted`: Without strictops (off in the standard mode) the product of two pointers, the sum of two pointers and the sum of two structures are accepted.
* `C121_false_refuted`: Reports against the rules of C: [1 + a] with an array a is reported as a type mismatch; under strictops the difference of two pointers is reported; with zerobool off, [0 == p] is reported while [p == 0] is not; [~0 + i] is reported as pointer arithmetic.
* `C122_right_refuted`: If the pointer is the right operand, the left one is asked whether it is null: [1 + p] with a possibly null p is accepted.
* `C122_zero_refuted`: And [0l + p] is reported although p is not null.
* `C122_plus_zero_refuted`: [p + 0] is not seen as pointer arithmetic: nothing is reported for a possibly null p, and the type of the sum is lost, so that nothing is checked about it.
* `C123_short_refuted`: Types shorter than int: 100000 is accepted for a short.
* `C123_int_refuted`: Constants that do not fit an int: 5000000000 is accepted for an int.
* `C124_wrap_refuted`: Values are not reduced to their type: [1u - 2u] is known to be -1, [(char) 300] to be 300.
* `C124_overflow_refuted`: Splint computes known values in a long: the valid expression [9223372036854775807ul + 1ul] makes splint itself overflow, which is undefined behaviour.
* `C124_char_refuted`: The minus of a character constant is reported as an internal bug of splint when charint is set.
* `C125_same_name_refuted`: Another file of the same name, in another directory, has access too.
* `C125_constants_refuted`: A constant or an iterator that is called like the type has no access, unlike functions and macros.
* `C125_include_in_function_refuted`: A file included within a function takes away what the function has because of its name.
* `C125_declarations_refuted`: The declaration of a function right after the definition of a type is not read with access to it, and after a [noaccess] comment it still is.
* `C125_file_name_refuted`: With [accessfile] only, the file called like the type has no access as long as no file is entered after the type has been defined.
* `C126_noaccess_access_refuted`: After [noaccess] and then [access], functions that have access to any type because of their names do not get the access back; other functions do.
* `C126_early_noaccess_refuted`: A [noaccess] comment for a type to which there is no access at that point is not remembered: a function called like the type has access after it.
* `C126_iterator_refuted`: Within the definition of an iterator a [noaccess] comment changes nothing there.
* `C127_noaccess_forgotten_refuted`: An included file makes splint forget the [noaccess] comments before it.
* `C127_access_forgotten_refuted`: Without [accessmodule] an included file makes splint forget the [access] comments before it.
* `C127_comment_in_header_refuted`: An [access] comment lasts for all files with the name of its file: also for later source files.
* `C128_hidden_pointer_refuted`: A name for pointers to an abstract type hides it: the pointer may be cast to any other.
* `C128_access_to_another_refuted`: Access to a type that is defined as an abstract type without access is enough for casts of pointers.
* `C128_same_type_refuted`: A cast of a pointer to an abstract type to its own type is reported.
* `C129_newline_refuted`: Names after a newline or a tab that follows a name are not read.
* `C129_blank_before_comma_refuted`: A blank before a comma makes an empty name, which is then reported as an unrecognized type.
* `C130_same_value_refuted`: Members with the same value: [enum { a, b = 0 }], [switch (x) { case a: ; }]: a case for the second is reported missing, though C forbids writing it.
* `C130_not_a_name_refuted`: A case whose label is a number, a cast or a sum does not count: [case (enum c) 0:] is a case for the first member, but that is reported missing.
* `C130_inner_default_refuted`: A case, or the default, inside of another statement of the switch does not count (a loop which is entered in the middle, for example).
* `C131_integers_refuted`: Labels of the same value in a switch over an integer are not reported: [case 1: case 1:].
* `C131_same_value_refuted`: Nor are different members with the same value.
* `C131_inner_refuted`: Nor a second default inside of another statement.
* `C132_number_refuted`: A label which is a number is not reported, though no member of the type has its value.
* `C132_inner_refuted`: Nor a constant of another type inside of another statement.
* `C133_hidden_refuted`: Two declarations of types before a statement hide it: [{ typedef int t; typedef int u; f (); case 1: ; }].
* `C133_declaration_refuted`: A variable declared at the start of a switch is taken for a statement, though nothing is lost.
* `C133_empty_refuted`: So is the brace which ends a switch in which nothing is written.
* `C134_other_value_refuted`: A variable of an enumerated type may have a value which is that of no member, for example [red | green]; then control goes past a switch with a case for every member, which splint takes to be impossible.
* `C135_negative_index_refuted`: Nothing is ever said of lower ends: [a[-1] = 0] is accepted for every array.
* `C135_copied_then_changed_refuted`: A variable copied before it gets a new value: [j = 20; i = j + 1; j = 3; a[i] = 0] is taken for an access at 4, the new value of [j] being put into the equation of [i].
* `C135_body_of_if_refuted`: What the body of an if does is forgotten: [i = 0; if (c) i = 20; a[i] = 0]
* `C135_loop_refuted`: Only the first round of a loop is checked: [i = 0; while (i < 12) { a[i] = 0; i = i + 1; }]
* `C135_check_after_use_refuted`: A check made after the use hides the error in the use: [a[i] = 0; if (i >= 10) return; a[i] = 0]: the requirement of the first store is dropped because the second one implies it, and that one is met thanks to the check.
* `C135_may_return_refuted`: A body which may leave the function is taken to leave it always: [if (i >= 10) { if (c) return; } a[i] = 0]
* `C135_nested_difference_refuted`: A difference of a difference is turned round wrongly: [i = 9; a[5 - (3 - i)] = 0] is an access at 11.
* `C135_constant_on_the_left_refuted`: A test with a constant on the left: after [if (9 <= i)] the access [a[20]] is compared with [i].
* `C135_alternatives_refuted`: A read dropped because of one alternative of a requirement which was met by the other: [a[4] = 0; { if (i < 5) x = a[i]; x = a[i - 1]; }]
* `C136_unreachable_refuted`: Code never executed is accused: [i = 0; if (i) a[12] = 0]
* `C136_body_of_if_refuted`: An assignment in an if is forgotten: [i = 20; if (c) i = 0; a[i] = 0] is called a likely error also where [c] is true.
* `C137_read_refuted`: Reading an element which was not written in the same function, as of an array with an initializer: nothing says how much of an array can be read.
* `C137_read_after_write_refuted`: Reading below an element written at a variable index: [i = 3; a[i] = 0; x = a[2]]
* `C137_if_else_refuted`: Different values in the branches: [if (c) i = 3; else i = 7; a[i] = 0]
* `C137_early_return_refuted`: Leaving the function early is enough for [a[i]] but not for [a[i - 1]]: [if (i >= 10) return; a[i - 1] = 0]
* `C137_known_bound_refuted`: The bound of the test being a variable whose value is known: [n = 10; if (i < n) a[i] = 0]
* `C138_wide_numbers_refuted`: Numbers are cut to 32 bits: [if (i < 5) a[i + 4294967296] = 0] is accepted for an array of ten elements.
* `C139_case_declaration_refuted`: A variable declared after a case label is unknown in the following cases, although it is in scope there.
* `C140_switch_block_refuted`: A variable declared in the block of a switch is never reported.
* `C140_switch_shadow_refuted`: Cases are merged by name with what is outside the switch: an outer variable counts as used if one of the same name in the block of the switch is used.
* `C140_empty_switch_refuted`: After a switch without cases in a case of another switch the uses in the cases of that are forgotten: a variable which is used is reported.
* `C142_skipped_character_refuted`: With the sample convention of the manual, -uncheckedmacroprefix "~*" (no lowercase letters), a macro named Ab gets no message: the character after the first one of the rest is skipped.
* `C142_short_name_refuted`: The manual says that the prefix "T^*" matches T (12.2, printed there as "T&*"); a type named T gets a message.
* `C143_iterators_refuted`: An iterator is an exported identifier, but without an iterprefix it is not compared with the external prefix (as types, constants and global variables are).
* `C144_constants_refuted`: +constprefixexclude does nothing.
* `C144_iterators_refuted`: +iterprefixexclude does nothing.
* `C144_exported_constant_refuted`: With both a constprefix and an externalprefix, and +externalprefixexclude, a constant, which is exported, is reported not to be external.
* `C144_unchecked_macro_refuted`: An unchecked macro may use the external prefix even with +externalprefixexclude.
* `C145_math_refuted`: A function of the program named like one of <math.h> gets no message: the list of names leaves these functions out and the rule only looks at them with f or l appended.
* `C145_eof_refuted`: The macro EOF of <stdio.h> is reported, but as a name reserved for <errno.h>.
* `C145_enum_refuted`: A member of an enumeration that begins with an underscore, which is reserved at file scope, gets no message.
* `C146_missing_refuted`: typename is a word of C++ and is not reported.
* `C146_extra_refuted`: const_class (meant to be const_cast) is not a word of C++ and is reported.
* `C147_codes_refuted`: The codes of Figure 23 mean nothing in -declparamprefix: with "p^", a parameter named pX is reported.
* `C147_both_refuted`: +declparamname is said to report every named parameter; with a -declparamprefix it reports none.
* `C148_big_refuted`: The constant [0xffffffffffffffff] of C, an unsigned long, is beyond the bound: signed overflow in splint.
* `C148_octal_refuted`: [08] is not a constant of C, yet it is read as 8 without a message.
* `C148_suffix_refuted`: [1lL] is not a constant of C, yet it is read as 1 without a message.
* `C149_hex_refuted`: [0xffffffff] is an unsigned int in C, an int for splint.
* `C149_dec_refuted`: [9999999999] is a long in C, an int for splint.
* `C150_wide_refuted`: The value of [L'a'] is taken to be that of a quote.
* `C150_escape_refuted`: The values of ['\a'] and ['\r'] are taken to be 0, hence equal.
* `C150_octal_refuted`: The value of ['\101'], which is that of A, is taken to be 0.
* `C151_long_refuted`: [0L], a null pointer constant of C, is not given the type of a pointer with +zeroptr.
* `C152_short_struct_refuted`: Without fullinitblock the values of a structure with fewer values than fields are not looked at: any value passes.
* `C152_pointer_refuted`: A block with two values for a pointer is not reported, though invalid.
* `C152_designation_refuted`: A designation is not checked: neither that the index is in the array nor the value.
* `C153_elision_refuted`: [int a[2][2] = {1, 1, 1, 1}] is valid C, but reported: braces may not be left out.
* `C153_scalar_refuted`: [int x = {1}] is valid C, but reported.
* `C153_string_refuted`: [char s[6] = {"hello"}] is valid C and sets every element, but is reported as setting one.
* `C155_cutoff_refuted`: The message that further errors are not reported is given though there are none.
* `C156_other_file_refuted`: A reported name may be used in another source file, and cannot be static: files of different directories with the same name are one module.
* `C156_not_used_refuted`: A function may be reported as not used outside its module though it is used nowhere: its header is read for two source files and declares it with extern.
* `C157_other_header_refuted`: A function declared in api.h, defined and used only in impl.c is not reported.
* `C157_extern_refuted`: A declaration with extern in another file is taken for a use there, though the name is not used in this file.
* `C157_showuses_refuted`: Whether all places of uses are shown decides whether the message is given.
* `C159_extern_refuted`: A variable that is only declared again with extern is used nowhere but not reported.
* `C159_header_refuted`: A function declared with extern in one header only and used nowhere is not reported if the header is read for two source files.

## Assumptions

`Print Assumptions` of every theorem of MANIFEST.json (all files `*_props.v` also print it when built):

**Closed under the global context**

* `Access_props.v`: `C125_access_has_a_reason_partial`, `C125_a_reason_gives_access_partial`, `C125_same_name_refuted`, `C125_constants_refuted`, `C125_include_in_function_refuted`, `C125_declarations_refuted`, `C125_file_name_refuted`, `C126_access_comment_partial`, `C126_noaccess_comment_partial`, `C126_noaccess_access_refuted`, `C126_early_noaccess_refuted`, `C126_iterator_refuted`, `C127_include_keeps_access_partial`, `C127_include_gives_no_access_partial`, `C127_noaccess_forgotten_refuted`, `C127_access_forgotten_refuted`, `C127_comment_in_header_refuted`, `C128_silent_cast_partial`, `C128_message_is_true`, `C128_casts_are_checked`, `C128_hidden_pointer_refuted`, `C128_access_to_another_refuted`, `C128_same_type_refuted`, `C129_all_names_read_partial`, `C129_newline_refuted`, `C129_blank_before_comma_refuted`
* `Args_props.v`: `C41_command_line_left_to_right`, `C41_options_file_in_order`, `C41_first_pass`, `C41_last_occurrence_wins`, `C41_init_option_refuted`, `C41_obsolete_flag_refuted`, `C41_long_directory_refuted`, `C41_mode_spelling_refuted`, `C41_argument_as_option_refuted`
* `Bounds_props.v`: `C135_silence_no_access_beyond_end_partial`, `C135_negative_index_refuted`, `C135_copied_then_changed_refuted`, `C135_body_of_if_refuted`, `C135_loop_refuted`, `C135_check_after_use_refuted`, `C135_may_return_refuted`, `C135_nested_difference_refuted`, `C135_constant_on_the_left_refuted`, `C135_alternatives_refuted`, `C136_message_about_numbers_true_partial`, `C136_unreachable_refuted`, `C136_body_of_if_refuted`, `C137_constant_stores_exact_partial`, `C137_read_refuted`, `C137_read_after_write_refuted`, `C137_if_else_refuted`, `C137_early_return_refuted`, `C137_known_bound_refuted`, `C138_guarded_store_exact`, `C138_guarded_store_message`, `C138_wide_numbers_refuted`
* `Bsearch_props.v`: `C40_cpp_names`, `C40_reserved_names`, `C40_any_list`, `C40_last_entry_refuted`
* `Comment_props.v`: `C49_extent`, `C49_block_skipped`, `C49_line_skipped`, `C49_unterminated`, `C49_layout_kept`, `C49_newlines_written`, `C49_ordinary_blank`, `C49_annotation_kept`, `C49_ignore_exactly`, `C49_nestcomment_dead`, `C49_nestcomment_refuted`, `C49_spliced_end_refuted`, `C49_star_marker_refuted`, `C49_newline_marker_refuted`, `C49_commentchar_default_refuted`
* `Cond_props.v`: `C10_selected_groups`, `C10_nesting_errors`, `C10_unterminated_refuted`, `C11_recognised`, `C11_skip_changes_nothing`, `C11_second_reading_silent`, `C11_elif_refuted`, `C11_undef_before_refuted`, `C11_quiet_include_refuted`
* `Constr_props.v`: `C01_simplify_value_partial`, `C01_nested_minus_refuted`, `C01_constant_difference_refuted`, `C01_large_literal_refuted`, `C02_discharged_follows_partial`, `C02_strict_refuted`, `C03_always_true_partial`, `C03_zero_minus_refuted`, `C03_sizeof_refuted`, `C03_wrong_union_member_refuted`, `C04_add_all_partial`, `C04_merge_partial`, `C04_alternative_refuted`, `C04_strict_refuted`, `C05_simplify_constraint_partial`, `C05_simplify_constraint_refuted`, `C06_strong_substitute_partial`, `C06_strong_rewrite_sound`, `C06_plain_substitute_refuted`, `C06_last_attempt_refuted`, `C44_equalities_sound`
* `Cppexp_props.v`: `C07_value_partial`, `C07_unary_operand_refuted`, `C07_unary_nested_refuted`, `C07_unary_grouping_refuted`, `C07_shift_refuted`, `C07_nested_conditional_refuted`, `C07_skipped_type_refuted`, `C07_skipped_overflow_refuted`, `C08_division_by_zero_partial`, `C08_skipped_operand_silent_partial`, `C08_skipped_type_refuted`, `C09_value_partial`, `C09_rejects_partial`, `C09_no_digits_refuted`, `C09_long_long_refuted`
* `Ctab_props.v`: `C33_pointer`, `C33_array`, `C33_fixed_array`, `C33_distinct`, `C33_meaning_unique`, `C33_meaning_built`, `C33_meaning_kept`, `C33_fixed_array_refuted`, `C36_dimensions`
* `Ctdump_props.v`: `C32_roundtrip`, `C32_identity`, `C32_reachable`, `C32_long_line`, `C32_long_line_refuted`, `C32_named_bool_refuted`, `C32_empty_member_refuted`
* `Decl_props.v`: `C55_unparenthesised`, `C56_function_pointer`, `C56_sizes_lost`, `C56_sizes_refuted`, `C57_function_returning_function`, `C57_pointers_lost`, `C58_declared_partial`, `C58_parenthesised_lost`, `C58_parenthesised_refuted`, `C58_pointer_to_array`, `C58_pointer_to_array_refuted`
* `Def_props.v`: `C72_no_message_no_undefined_use_partial`, `C72_case_without_assignment_refuted`, `C72_switch_on_undefined_variable_refuted`, `C72_break_before_return_refuted`, `C72_assignment_after_and_refuted`, `C72_for_increment_refuted`, `C72_for_test_refuted`, `C72_continue_refuted`, `C72_break_in_do_refuted`, `C72_break_in_obvious_loop_refuted`, `C72_comma_refuted`, `C72_loops_taken_to_be_executed_refuted`, `C73_complaints_are_real_partial`, `C73_return_before_else_refuted`, `C73_endless_loop_refuted`, `C74_obvious_loop_begins_partial`, `C74_comparison_refuted`, `C74_undefined_use_after_loop_refuted`, `C75_straight_line_code`
* `Dump_props.v`: `C31_constraint_read_back_partial`, `C31_list_read_back_partial`, `C31_name_refuted`, `C31_literal_refuted`, `C43_sref_read_back_partial`, `C43_value_position_refuted`, `C43_index_refuted`
* `Eff_props.v`: `C114_noeffect_partial`, `C114_noeffectuncon_partial`, `C114_silent_effect_partial`, `C114_conditional_argument_refuted`, `C114_result_in_parentheses_refuted`, `C115_infinite_loop_partial`, `C115_all_loops_partial`, `C115_jumps_refuted`, `C115_switch_refuted`, `C115_global_array_refuted`, `C115_conditional_argument_refuted`, `C115_comma_subscript_refuted`, `C116_silent_loop_partial`, `C116_other_loops_refuted`, `C116_comma_subscript_refuted`
* `Flagname_props.v`: `C20_every_spelling_selects_the_flag`, `C20_spellings_are_distinct`, `C20_mode_names`, `C20_global_refuted`, `C20_idempotent_refuted`
* `Flagset_props.v`: `C21_files_leave_no_flag_changed`, `C21_restore`, `C21_restore_own_setting`, `C21_restore_compound_refuted`, `C21_mode_comment_refuted`, `C21_value_comment_refuted`, `C21_idem_refuted`, `C22_mode_decides`, `C22_mode_keeps_values`, `C22_same_whatever_before`, `C23_values`, `C23_name_lengths`, `C23_in_range`, `C23_refused`, `C23_big_number_refuted`, `C24_levels_ordered`, `C24_severe_levels_refuted`, `C59_modes_ordered`, `C59_all_flags_ordered`, `C59_modes_differ`
* `Flow_props.v`: `C60_no_missed_fall_off_partial`, `C60_label_in_switch_refuted`, `C60_nested_case_refuted`, `C60_hidden_label_refuted`, `C61_exact`, `C61_comma_refuted`, `C61_do_refuted`, `C61_continue_refuted`, `C62_unreachable_sound_partial`, `C62_label_refuted`, `C63_no_missed_fall_through`, `C63_label_refuted`, `C64_no_missed_fall_off`
* `Format_props.v`: `C79_printf_number_partial`, `C79_flag_order_refuted`, `C79_error_argument_refuted`, `C80_printf_types_partial`, `C80_long_double_refuted`, `C80_long_count_refuted`, `C80_short_count_refuted`, `C81_any_format_partial`, `C81_percent_at_end_refuted`, `C81_open_set_overrun_refuted`, `C81_open_set_fatal_refuted`, `C81_width_m_refuted`, `C82_scanf_number_partial`, `C82_suppressed_set_refuted`, `C82_negated_bracket_refuted`, `C83_scanf_types_partial`, `C83_pointer_refuted`, `C83_char_refuted`, `C83_long_count_refuted`
* `Guard_props.v`: `C65_guards_sound`, `C66_conjunction`, `C66_negation`, `C66_spelling`, `C67_values_partial`, `C67_compared_refuted`, `C67_index_refuted`, `C67_element_refuted`, `C67_constant_refuted`, `C67_comma_refuted`, `C67_comma_value_refuted`, `C67_conditional_refuted`, `C67_conditional_ref_refuted`, `C67_bitor_refuted`, `C67_complement_refuted`, `C67_pointer_sum_refuted`, `C67_assigned_refuted`, `C68_for_partial`, `C68_for_refuted`
* `Hash_props.v`: `C12_finite_map`, `C12_other_names`, `C13_restored_partial`, `C13_parameter_uses_refuted`, `C13_noexpand_refuted`
* `Inits_props.v`: `C152_silence_partial`, `C152_short_struct_refuted`, `C152_pointer_refuted`, `C152_designation_refuted`, `C153_exact_partial`, `C153_full`, `C153_elision_refuted`, `C153_scalar_refuted`, `C153_string_refuted`, `C154_right`, `C154_all`, `C155_limit`, `C155_short`, `C155_cutoff_refuted`
* `Intset_props.v`: `C27_no_invention_partial`, `C27_no_loss_partial`, `C27_ascending_partial`, `C27_member_refuted`, `C27_size_refuted`, `C27_overread_refuted`, `C27_uninitialised_refuted`
* `Limit_props.v`: `C17_conservation`, `C17_unlimited`, `C17_run`, `C17_change`, `C17_similar_refuted`, `C17_no_flush_refuted`, `C18_round_trip_partial`, `C18_quote_refuted`, `C18_comma_refuted`
* `Lits_props.v`: `C148_values`, `C148_bound`, `C148_big_refuted`, `C148_binary`, `C148_octal_refuted`, `C148_suffix_refuted`, `C149_types_partial`, `C149_hex_refuted`, `C149_dec_refuted`, `C150_values_partial`, `C150_wide_partial`, `C150_wide_refuted`, `C150_escape_refuted`, `C150_octal_refuted`, `C151_zero_partial`, `C151_long_refuted`
* `Loc_props.v`: `C16_first_occurrences`, `C16_library_refuted`, `C16_unknown_refuted`, `C16_derived_refuted`, `C28_total_order`, `C28_lessthan`, `C28_notAfter`, `C28_equal_source`, `C28_equal_library_refuted`, `C28_equal_derived_refuted`
* `Macro_props.v`: `C107_call_replaced_partial`, `C107_plain_replaced_partial`, `C107_divide_refuted`, `C107_arrow_refuted`, `C107_number_refuted`, `C107_wide_refuted`, `C107_dollar_refuted`, `C107_dot_refuted`, `C108_string_spelled_partial`, `C108_not_ascii_refuted`, `C108_control_refuted`, `C108_at_sign_refuted`, `C109_rescan_partial`, `C109_joined_refuted`, `C110_arguments_as_written`, `C110_nothing_lost`, `C111_count_reported_partial`, `C111_empty_argument_refuted`, `C112_hash_reported_partial`, `C112_paste_first_reported_partial`, `C112_paste_last_refuted`, `C113_paste_joins_partial`, `C113_marker_refuted`, `C113_next_argument_refuted`, `C113_minus_refuted`
* `Mark_props.v`: `C15_hidden_iff`, `C15_hidden_names`, `C15_nested_line_refuted`, `C15_order_refuted`, `C15_system_refuted`
* `Match_props.v`: `C84_hidden_representations`, `C84_forwarddecl_refuted`, `C85_abstract_types_partial`, `C85_array_refuted`, `C85_boolean_refuted`, `C85_forwarddecl_refuted`, `C86_exact_partial`, `C86_unnamed_structures_refuted`, `C86_void_pointers_refuted`, `C86_fixed_array_refuted`, `C86_parameters_refuted`, `C86_void_name_refuted`, `C86_pointer_to_array_refuted`, `C86_array_of_functions_refuted`, `C86_pointer_to_function_pointer_refuted`, `C87_same_type`, `C88_comparison_ends`, `C88_cycle_refuted`, `C89_redeclaration_partial`, `C89_array_size_refuted`, `C89_void_pointer_refuted`, `C89_function_pointer_refuted`
* `Mods_props.v`: `C104_silent_keeps_clause_partial`, `C104_own_successor_refuted`, `C104_stored_pointer_refuted`, `C104_address_of_parameter_refuted`, `C104_address_of_pointer_refuted`, `C104_address_given_to_function_refuted`, `C104_second_time_refuted`, `C104_unconstrained_refuted`, `C104_callee_stores_pointer_refuted`, `C104_search_limit_refuted`, `C104_unknown_global_refuted`, `C104_index_ignored_refuted`, `C105_message_is_true_partial`, `C105_global_alias_refuted`, `C105_address_of_parameter_refuted`, `C105_member_of_parameter_refuted`, `C105_element_of_address_refuted`, `C105_aliased_parameters_refuted`, `C106_reported_items_untouched_partial`, `C106_unreported_items_modified_partial`, `C106_modified_below_refuted`, `C106_aliased_parameters_refuted`, `C106_branch_refuted`, `C106_call_refuted`
* `Name_props.v`: `C38_answers_partial`, `C38_order_matters_iff_partial`, `C38_exact_length`, `C38_order_refuted`, `C46_answers`, `C46_lookalike`, `C46_letter_case`, `C46_symmetric`, `C46_case_insensitive`, `C46_no_overrun`
* `Names_props.v`: `C142_plain`, `C142_star_partial`, `C142_no_false_message_partial`, `C142_skipped_character_refuted`, `C142_short_name_refuted`, `C143_most_specific`, `C143_unique`, `C143_copies`, `C143_iterators_refuted`, `C144_excluded_partial`, `C144_excluded_plain_partial`, `C144_constants_refuted`, `C144_iterators_refuted`, `C144_exported_constant_refuted`, `C144_unchecked_macro_refuted`, `C145_due`, `C145_library_functions_partial`, `C145_math_refuted`, `C145_eof_refuted`, `C145_enum_refuted`, `C146_cpp_partial`, `C146_missing_refuted`, `C146_extra_refuted`, `C147_prefix`, `C147_names`, `C147_match`, `C147_unnamed`, `C147_codes_refuted`, `C147_both_refuted`
* `Nullflow_props.v`: `C69_no_null_dereference_partial`, `C69_break_refuted`, `C69_continue_refuted`, `C69_do_break_refuted`, `C69_second_round_refuted`, `C69_or_exit_refuted`, `C69_assigned_branch_refuted`, `C69_mark_refuted`, `C69_constant_refuted`, `C69_loopexec_refuted`, `C70_tested_dereference`, `C71_straight_line_exact`
* `Oper_props.v`: `C117_shift_partial`, `C117_variable_partial`, `C117_promotion_refuted`, `C117_literal_refuted`, `C117_enum_refuted`, `C117_cast_refuted`, `C117_wrapped_refuted`, `C117_bitwise_refuted`, `C117_exact_refuted`, `C118_bits_partial`, `C118_right_refuted`, `C118_promotion_refuted`, `C119_type_partial`, `C119_mixed_refuted`, `C119_real_refuted`, `C119_short_refuted`, `C119_literal_refuted`, `C119_remainder_refuted`, `C120_same_partial`, `C120_variable_partial`, `C120_left_partial`, `C120_meaningful_refuted`, `C120_left_refuted`, `C120_signed_refuted`, `C121_constraints_partial`, `C121_comparison_partial`, `C121_quiet_partial`, `C121_minus_refuted`, `C121_zero_refuted`, `C121_real_refuted`, `C121_strictops_refuted`, `C121_false_refuted`, `C122_null_partial`, `C122_right_refuted`, `C122_zero_refuted`, `C122_plus_zero_refuted`, `C123_literal_partial`, `C123_short_refuted`, `C123_int_refuted`, `C124_known_partial`, `C124_complete_partial`, `C124_wrap_refuted`, `C124_overflow_refuted`, `C124_char_refuted`
* `Order_props.v`: `C101_silent_no_conflict_partial`, `C101_call_on_right_refuted`, `C101_subscript_refuted`, `C101_pointer_refuted`, `C101_comma_subscript_refuted`, `C101_global_array_refuted`, `C101_chosen_argument_refuted`, `C101_unconstrained_refuted`, `C102_order_irrelevant_partial`, `C102_call_on_right_refuted`, `C102_subscript_refuted`, `C103_report_conflict_partial`, `C103_exact_partial`, `C103_comma_refuted`, `C103_call_in_operand_refuted`, `C103_unconstrained_refuted`, `C103_comma_subscript_refuted`
* `Own_props.v`: `C90_known_aliases_real`, `C91_same_storage_known_partial`, `C91_pairs_known_partial`, `C91_three_variables_refuted`, `C91_self_assignment_refuted`, `C92_bad_uses_reported_partial`, `C92_two_variables_partial`, `C92_three_variables_refuted`, `C92_self_assignment_refuted`, `C93_no_false_use`, `C94_leaks_reported`, `C95_block_leaks_reported_partial`, `C95_aliased_refuted`, `C96_silent_exactly_if_good_partial`, `C96_two_variables_partial`, `C96_assigned_once_partial`, `C96_false_alarm_refuted`, `C96_false_leak_refuted`
* `Ownbr_props.v`: `C97_branches_safe_partial`, `C97_loops_safe_partial`, `C97_loop_copies_refuted`, `C97_do_loop_refuted`, `C97_released_kept_partial`, `C98_no_false_use_partial`, `C98_returning_branch_refuted`, `C99_branches_leak_free_partial`, `C99_owner_kept_partial`, `C99_copies_refuted`, `C99_undefined_refuted`, `C99_error_kind_refuted`, `C99_do_loop_refuted`, `C100_exact_without_copies`, `C100_unreachable_refuted`
* `Path_props.v`: `C37_add_partial`, `C37_remove_partial`, `C37_directory_dot_add`, `C37_directory_dot_refuted`, `C37_clean_partial`, `C37_clean_unterminated`, `C37_clean_refuted`, `C45_base_name`, `C45_has_extension`, `C45_header_file`, `C45_c_file`, `C45_without_extension`, `C45_leading_dots`
* `Pos_props.v`: `C42_position`, `C42_line_directive`, `C42_line_directive_exact`, `C42_line_after_comment_refuted`, `C48_lines_in_step`, `C48_exactly_good_lines`, `C48_stays_wrong`, `C48_mixed_continuations_refuted`
* `Prim_props.v`: `C34_relaxing_flags_partial`, `C34_relaxquals_exactly_partial`, `C34_relaxquals_refuted`, `C34_ignoresigns_refuted`, `C34_ignorequals_refuted`, `C34_matchanyintegral_refuted`, `C34_longintegral_refuted`, `C35_given_partial`, `C35_signed_refuted`, `C35_signed_matches_everything`, `C35_relaxtypes_refuted`, `C50_ordinary_types`, `C50_no_flags`, `C51_expected`, `C52_relaxquals_widening`, `C52_relaxquals_safe`, `C53_equivalences_partial`, `C53_relaxtypes_partial`, `C53_longint_refuted`, `C53_longint_exactly_partial`, `C54_deep`, `C54_arbitrary_refuted`
* `Reader_props.v`: `C29_written_numeral_standard`, `C29_read_back_partial`, `C29_read_back_iff`, `C29_read_back_refuted`, `C30_long_iff`, `C30_char_iff`, `C30_string_partial`, `C30_string_constant_refuted`, `C30_double_refuted`, `C30_long_refuted`
* `Redef_props.v`: `C14_silent_iff_same`, `C14_silent_iff_text`, `C14_literal_white_refuted`, `C14_paste_refuted`, `C14_variadic_refuted`, `C14_high_character_refuted`
* `Scope_props.v`: `C139_innermost`, `C139_case_declaration_refuted`, `C140_unused`, `C140_order`, `C140_switch_block_refuted`, `C140_switch_shadow_refuted`, `C140_empty_switch_refuted`, `C141_shadow`
* `Strlit_props.v`: `C39_length_partial`, `C39_warning_partial`, `C39_final_null_partial`, `C39_octal_refuted`, `C39_adjacent`, `C39_adjacent_refuted`, `C39_octal_value_refuted`, `C47_expansion_fits`, `C47_merge_fits`
* `Switch_props.v`: `C130_silence_covers`, `C130_exact_partial`, `C130_once`, `C130_same_value_refuted`, `C130_not_a_name_refuted`, `C130_inner_default_refuted`, `C131_duplicates_true`, `C131_default_true`, `C131_exact_partial`, `C131_default_exact_partial`, `C131_silence_partial`, `C131_integers_refuted`, `C131_same_value_refuted`, `C131_inner_refuted`, `C132_names_exact_partial`, `C132_number_refuted`, `C132_inner_refuted`, `C133_silence_partial`, `C133_said_partial`, `C133_hidden_refuted`, `C133_declaration_refuted`, `C133_empty_refuted`, `C134_members_partial`, `C134_other_types`, `C134_exact_partial`, `C134_other_types_exact_partial`, `C134_other_value_refuted`
* `Table_props.v`: `C25_history_faithful`, `C25_misuse_reported`, `C25_eight_bit_name_refuted`, `C25_reserved_number_refuted`, `C26_history_faithful_partial`, `C26_misuse_reported_partial`, `C26_growth_overflow_refuted`, `C26_duplicate_keeps_old_refuted`
* `Tspec_props.v`: `C76_specifiers_denote_partial`, `C76_char_unsigned_refuted`, `C76_double_long_refuted`, `C76_char_signed_refuted`, `C76_signed_char_refuted`, `C77_integers_any_order`, `C78_bad_specifiers_reported_partial`, `C78_long_long_long_refuted`, `C78_int_int_refuted`, `C78_signed_unsigned_refuted`, `C78_long_float_refuted`, `C78_float_char_refuted`, `C78_double_short_refuted`, `C78_unsigned_enum_refuted`, `C78_ignorequals_refuted`
* `Uses_props.v`: `C156_message_partial`, `C156_message_of`, `C156_untracked`, `C156_other_file_refuted`, `C156_not_used_refuted`, `C157_exact_partial`, `C157_showuses_partial`, `C157_other_header_refuted`, `C157_extern_refuted`, `C157_showuses_refuted`, `C158_order`, `C158_two_kept`, `C159_unused_partial`, `C159_special`, `C159_exclusive`, `C159_main`, `C159_extern_refuted`, `C159_header_refuted`
* `Wrap_props.v`: `C19_indent_message`, `C19_finished`, `C19_error`, `C19_error_fits`, `C19_indent_refuted`, `C19_multiline_refuted`, `C19_narrow_refuted`


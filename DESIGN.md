# Formal model of sudokutools in Rocq (Coq 8.16.1)

## Layout

`rocq/theories/`

| file | content |
|---|---|
| `PyBase.v` | Python fragments used by the model: exceptions as values (`res`), `range`, list indexing with negative indices, monadic loops |
| `PySet.v` | Python sets as strictly sorted lists (canonical, so set equality is `=`), `sorted` |
| `PyDict.v` | insertion-ordered dictionaries |
| `PyGen.v` | generators: `Ret / Yield / Raise`, resumption receives what the consumer left in the shared object |
| `PyStr.v` | Python strings (code points, classified as in Unicode 14): `split`, `join`, `replace`, `strip`, `int()`, `str()` |
| `M*.v` | the model of the code, one file per Python module, no proofs; every definition cites file and lines |
| `Spec.v` | the independent specification: fields, peers, solution grids, units, symmetries |
| `L*.v` | lemmas and proofs |
| `P*.v` | the property theorems only: statement, `exact lemma`, `Print Assumptions`, non-vacuity examples |
| `T*.v` | the project's own test suite (`sudokutools/tests`), docstring examples and the examples of README.md, run on the model with `vm_compute`; tests of the translation, no property rests on them |

## Modelling decisions

* **Exceptions are values.** Every operation that can raise returns `res A := Ok a | Err e`;
  list indexing, dictionary lookup, `list.remove`, `set.remove`, `int()`, `next()` raise in the model
  where they raise in Python. Nothing is totalised with a default in the model proper.
* **Integers** are `Z`; Python's `//` and `%` are `Z.div`, `Z.modulo` (both floor). Coordinates are `Z`,
  negative list indices wrap as in Python.
* **Mutation** is state passing: a function that changes a sudoku in place returns the new one.
  Aliasing is modelled where it matters (C05, shell stack) by an explicit heap of sudoku objects.
* **Sets** are canonical sorted lists. Where Python *iterates* over a set and the order is observable
  (which candidate is tried first, which matrix row is tried first, which hidden single is reported),
  the model takes the order from an *oracle* argument, and all theorems hold for every oracle that
  returns a permutation. The oracle may depend on the whole state of the search, so it covers
  history-dependent orders of CPython's hash sets.
* **Randomness** (`random.choice`, `random.shuffle`) is an oracle too: any index, any permutation.
* **Generators** are lazy values of type `gen I A R`; `next` runs to the first `Yield`, so "stop after
  two solutions" is modelled. For `find()` in solvers.py, `I = sudoku`: on resumption the generator
  sees the sudoku as the consumer left it, so the interleaving of `find` and `apply` in `solve()` is modelled.
* **Unbounded recursion/loops** use explicit fuel and return `Err OutOfFuel`; the top-level functions
  compute the fuel and the theorems show it is never exhausted (or, for `solve()`, that it is always
  exhausted on the divergence witness). Python's recursion limit is modelled only
  for the two searches (C108, `MRecursion.v`: the fuel is the number of nested calls).

## Properties

For each property: what is modelled, how it is proved.

| id | model | proof |
|---|---|---|
| C01-C03 | `MSudoku`: class Sudoku as two lists of lists | list update lemmas; induction over operation histories |
| C04 | `MSudoku.copy` | loop invariant over the row-major traversal |
| C05 | `MHeap`: heap of sudoku objects | induction over write histories on the heap |
| C06-C08 | `MSudoku` | filter lemmas over the row-major traversal; C07 refuted by witness, proved for equal N |
| C09-C12 | `MCoord` (coordinates.py) and the Sudoku methods | integer arithmetic (div/mod, nonlinear by hand) |
| C13-C17 | `MSolve`, `MAnalyze` | set lemmas; pigeonhole for "each number exactly once" |
| C18-C21 | `MSolve.bruteforce` | induction on fuel with invariant "candidates of empty fields are exact" |
| C22-C25 | `MDlx` | matrix invariant relative to the set of covered constraints; induction on fuel; exact covers = solution grids |
| C26, C27 | | corollaries |
| C28 | `MGenerate.create_solution` | explicit shifted-pattern solution of every size relabelled by the shuffle + C23 |
| C29-C34 | `MGenerate` | loop invariant (unique, count, union of orbits, orbits tried stay non-removable) |
| C35-C39 | `MSolvers` find/apply as generators | a small weakest-precondition calculus for generators with a rely condition; pigeonhole |
| C40, C42, C45, C46 | `MSolvers.solve` | invariant + decreasing measure |
| C41 | | refuted: witness on which every fuel is exhausted |
| C43, C44 | `MRate.rate/score` | from the solve invariant; C44 upper bound refuted by witness |
| C47 | `MSolvers.step` | sorting lemmas; the direction of the order in `PStepOrder.v` (spec `SpecStepOrder.v`) |
| C81-C87 | `MSolvers` find, consumer that changes nothing | the list of all steps as nested `flat_map` (`runs`), then its members against `SpecFind` |
| C88 | `MSolvers` solve | every round keeps the givens and the solutions; C41_stops_or_never: pigeonhole on the states of the loop |
| C89 | `MStepText` __repr__, __str__ | the texts are prefix codes; a step found is determined by its clues and values (`SpecFind`) |
| C48-C53, C71, C72 | `MCodec` + `PyStr` | string lemmas, decimal round trip; square root modelled exactly (see trusted base) |
| C54, C55 | `MCodec.view` | length computation |
| C56-C63, C73, C74 | `MNotation` (notation.py, actions.py) | string lemmas; group splitting; invariant of the character loop; dictionaries as relations |
| C64-C68, C75 | `MShell`, `MShellLib` | heap of sudoku contents; invariants by induction over command histories; commutation of commands with changes of prompt, loop state and output; `ast.literal_eval` and the library functions are oracles |
| C69, C70, C76-C80 | `MGame` (GameShell) | state of the game against an abstract history (earlier, current, later); measure for autofill; C80 refuted by witness |
| C90-C92 | `MHelp`: signatures of the commands, `signature_str`, `help_command`, binding of arguments | index arithmetic; documentation strings arbitrary; `bind` against the relation `binds` |
| C93-C95 | `MShellFull`: all library functions behind the commands | every call depends on the values of the parameters only; then the theorems about the library functions |
| C96, C97 | `MMain`: `__main__.main` | case analysis; lemmas about `strip` and `split` |
| C98 | `MGenerate.generate` | one iteration of the loop as a lemma (`loop_step`); for reachability the shuffle puts the empty fields first, then the class that ends the loop |
| C99 | the functions of C13, C16, C17, C23, C27 | `equivalent` is symmetric; the exact theorems about these functions on both sides |
| C100 | `MSudoku.object_eq`: the other object is the function `(row, col) -> number or exception` | loop of `__eq__` by induction over the fields |
| C101 | all of the above for box sizes with product <= 0 | the loops over the fields are empty |
| C102 | `MCodec.view` | the loops against a declarative text (`SpecView`: fields, separators, rules); width as a maximum |
| C103 | `MShell.parse` | `split` at blanks characterised by `concat`/no blanks inside; relations `means`, `reads`; `ast.literal_eval` is an oracle |
| C104 | `MGame` settings, `get_setting`, command settings | insertion sort gives the unique sorted permutation; the game commutes with a change of the other settings |
| C105 | `MNotation.ndecode`, `decode_single` | reading as relation (`SpecDecode`): groups, sections, numbers that count; existence and uniqueness of each step; invariant of the loop over characters |
| C106 | `MNotation.decode_action`, `PyStr.int_of_str`, `cut` | first occurrence as relation; `int_text`; combined with C76 for the game |
| C107 | `MCodec.decode`, `clean`, `read_fields`, `read_candidates`, `infer_box_size` | all separators: cleaning as a simultaneous substitution, `pieces` inductively, loops equal those on the first n*n items |
| C108 | `MRecursion.bruteforce_within`, `do_dlx_within`, `dlx_within` | the fuel of the two searches is the depth of the recursion; less fuel gives a prefix; every yield is at depth (empty fields + 1) |
| C109 | `MSolvers.apply`, `build_*`, `apply_all` | the actions built for one sudoku, executed on another; results compared field by field |
| C110 | `MSolvers.solve`, `hints`, `find`, `MRate` | two runs with different orders of sets compared step by step |
| C111 | `MHeapSolve`: bruteforce and dlx on the heap | simulation of heap generators by those on values, the working object being private |
| C112 | `MInit.sudoku_init`: the constructor on Python values | case analysis over the kinds of values; the spec lists the accepted shapes |
| C113 | `MNotationNum`: encode, decode, the_* with floats as width or height | equality with MNotation on ints; the text of encode as in C74; every unit raises, so the first group of decode does |
| C114 | `MInterrupt.run_int`: the loop of Shell.run with KeyboardInterrupt | invariants of C64-C68 under weaker assumptions about the library; case analysis of a step |
| C115 | the model at box sizes with a number <= 0 | two negative numbers: simulation by boxes of one column (same rows, columns, no further box fields), relation on results and generators |
| C116 | find of the tuple classes (C83, C84), apply (C109), solve | counting: in a unit a solution maps fields one to one to numbers; solve() keeps true that candidates are numbers of the sudoku, that filled fields have their number as only candidate and that it is no candidate of a peer; a class is only asked if the classes before it find nothing |
| C117-C119 | rate, solve, find of all classes (C82-C87), apply | a sudoku T in which the classes up to a level find nothing is left alone by every step these classes find in a sudoku that has all candidates of T (LLevel.v, LLevel2.v): a tuple, pointing tuple or fish of such a sudoku restricts candidates of T which would be restricted already, otherwise a smaller one would be found in T; hence every play stays above T and all ends are equal; solve() uses a class only if the classes before it find nothing, and the ratings rise along SOLVERS |
| C120 | rate, score | the candidates of the sudoku T of C117 are moved back along the move (LLevel5.v): what leaves T alone leaves the moved candidates alone, so plays stay above them |
| C121 | rate, score, solve, BasicFish, PointingTuple | the crossing lines and lines outside of a fish form a fish in the other direction (LSizes.v); if it is smaller it was looked for before and, by C117's lemma on fish, excludes the same candidates; the table of ratings is spelled out in SpecSizes.v |
| C122 | rate, is_unique | every step below Bruteforce keeps every solution of the sudoku it is found in (the invariant SInv with all solutions), so a complete end is the only solution (LUnique.v) |
| C123 | rate, is_unique | where singles find nothing, the filled fields are closed under two rules that mention only the solution (LForced.v); that a closed set of fields containing clues that determine the solution contains all fields is checked for 8 filled sudokus by a search over clues whose correctness is proved (`check_holds`), and moved to all others (LSmall.v, data in LSmallData.v); the other filled sudokus with the first row 1, 2, ... are listed by bruteforce (C19) |
| C124 | solve, score, rate | a relation `fills` between the sudoku before and after a list of steps, which composes over the rounds of solve (LScore.v); a filling step always finds its field empty; every other step but CalculateCandidates removes a candidate (measure of C41) |
| C125 | hints, apply, rate | hints() is the concatenation of the lists of all classes but Bruteforce (LHints.v), so playing with hints() is playing up to level 7 of C117/C118; the first hints of a sudoku without candidates are those of CalculateCandidates and end in init_candidates (LHints2.v) |
| C126 | `MDlx`: exact_cover, select, deselect, solve | the invariant of C22-C25 with any set of columns and any rows instead of those of a sudoku (LCover.v); every selected row has a column, which bounds the depth |
| C127 | is_unique, generate, generate_from_template | symmetries of a puzzle with a unique solution; patterns too poor for a unique solution (`SpecClues.v`: fewer than N-1 numbers, two empty lines in a band or stack, two empty bands or stacks); consequences for `is_unique`, `generate` and `generate_from_template`. |
| C128 | generate, calc_candidates | puzzles in which every number is needed (`SpecMinimal.v`): consequences for candidates and units, bounds for the count of the result of generate without symmetry |
| C129 | generate, SYMMETRY, count | the number of filled fields of a symmetric pattern modulo the class size (`SpecAxis.v`), distance of the result of generate from min_count |
| C130 | dlx, bruteforce | a movement of the puzzle onto itself without fixed solution pairs the solutions; renaming k absent numbers gives classes of k! solutions |
| C131 | generate, generate_from_template | two runs of the loop with the same decisions are equal until the one with the larger min_count stops; a larger part of the same solution stays unique |
| C132 | dlx, bruteforce, calc_candidates, is_unique | the solutions with number v in field p are those of the sudoku with v written into p; disjoint union over the candidates |
| C133 | `MObjects`: the functions that look at the content of a field, for arbitrary objects | a field holds the name of an object; a record gives truth, equality and key of every object; simulation by a sudoku of ints |
| C134 | `MReport`: solve() with a callback as a function with a state that may change the step | every find yields steps without actions (`find_unbuilt`); invariant: the other sudoku has the numbers and the known candidates of the empty fields (`mirrors`), so the actions built for it have the same effect |
| C135 | `MObjText`: encode, view and str for arbitrary objects, given by their truth and text | the lemmas about the layout of C102 with any content of the fields; the sudoku of the ints is built from the texts (`renum`) |
| C136 | `MShellO`: loop, pop and execute without the assert statements | messages are only ever added; if none was added, every call without assert returns the same as with it |
| C137 | `MSudoku`, `MSolve.calc_candidates`, `MAnalyze.find_conflicts` at indices that count from the end (spec `SpecWrap.v`) | `LWrap.v`: lists of coordinates modulo N |
| C138 | `MCodec.decode`, `MNotation.decode_action`, `MNotation.ndecode` on texts with digits and blanks of other scripts (spec `SpecScript.v`) | `LScript.v`: every step of the reading respects the relation of texts that differ in the script of their digits |
| C139 | `MSearches`: programs that run several generators of bruteforce and dlx interleaved, on the heap of `MHeapSolve` (spec `SpecSearches.v`: a search is a list of solutions from its first next() on) | `LSearches.v`: every suspended generator owns its working copy; the relation of C111 holds for any other objects, so those of the other generators are among them; references may be reordered (`hsim_swap`) |
| C140 | `empty`, `filled`, `diff` (`MSudoku`), `find_conflicts` (`MAnalyze`) as generators over the shared sudoku; `SpecLoop.v`: a for loop whose body replaces the sudoku before the generator is resumed | `LLoop.v`: the loops over fields are a walk over `coords s`; for conflicts a Hoare-style invariant over the two nested loops: fields already passed stay settled because bodies only clear |
| C141 | `find_conflicts` (`MAnalyze`) with the loop of `SpecLoop.v`; `keeps_first`, `keeps_last` describe the surviving numbers without the generator | `LLoop.v` (sections Second, First): invariants over the two nested loops; `PRepair.v` |
| C142 | `empty` (`MSudoku`), `calc_candidates` (`MSolve`) with the loop of `SpecLoop.v` | `LGreedy.v`: invariant of the walk of `LLoop.v`; candidates only get fewer because numbers are only added |
| C143 | as C142, with `rounds` (several loops) in `SpecLoop.v` | `LOnly.v`: every step keeps the set of solutions |

## Trusted base

* Coq 8.16.1 kernel. `Print Assumptions` is run under every property theorem; the expected output is
  "Closed under the global context" everywhere (no axioms, also none of the standard library).
* The reading of the Python code: the model is tied to the code only by the citations.
* Python semantics as listed above: in particular the behaviour of ints, lists, dicts (insertion
  ordered), sets, strings, generators.
* `count**0.5` and `float.is_integer` in `Sudoku.decode` are modelled by the exact integer square root
  (true of CPython for counts below 2^52).
* `item is empty` in `Sudoku.decode` is modelled as equality of strings that are empty or a single
  character below 256 (CPython caches these); other items are taken to be new objects, also if the whole
  text is one item.
* `int(str)` has no limit of 4300 digits; whitespace and decimal digits are classified as in
  Unicode 14 (the version of CPython 3.11; `is_space`, `DECIMAL_ZEROS` in `PyStr.v`). Characters 28-31 are blanks for
  `str.strip()` and `str.split()` but not for `int()`.
* In notation.py coordinates are ints. Widths and heights are ints, in `MNotationNum.v` ints or finite floats
  (exact, printed like 3.0, which holds below 10^15); infinities, NaN and other types are not modelled.
  A number or candidate of an action is an int or a str; applying an action is modelled for ints only.
* Shell: `ast.literal_eval`, `int()` of floats and the like, and the library functions behind the commands
  are arbitrary functions (record `world`), assumed to terminate, to raise only subclasses of `Exception`,
  and to touch no sudoku but the one they are given (that is C05 and the frame of the modelled functions).
  `MShellLib.std_world` fills in the modelled library functions for int arguments and is shown to satisfy
  the assumptions. Fields hold ints. Error messages that come from exceptions are recorded as the exception.
  `MShellFull.full_world` fills in all library functions, with positional and keyword arguments; only arguments of
  unexpected types and negative tries of generate_from_template
  are left to an arbitrary world. The table `SPECS` of signatures is read off the code (default values by their `repr`);
  `inspect.getargspec` only exists before Python 3.11. What `clear` writes to the terminal is not recorded.
  KeyboardInterrupt is modelled in `MInterrupt.v` only: while readline() waits and in the functions of the `world`.
  With python -O (no assert): `MShellO`, see C136. Not modelled: the attributes commands/keywords given to Shell().
* Game: the text of a step (`str(step)`, see `MStepText` for it) and the orders of sets are arbitrary (record `genv`); the random decisions of
  `generate` are arbitrary permutations. The input is a list of lines; the end of the input (EOFError) ends the list.
  Statements about play start from the settings of `GameShell.__init__` (no command changes them).
* vcheck's list of axioms includes those of `Coq.ssr.ssrunder`, a library file that comes with Coq and
  is loaded by the standard library; no theorem depends on them (`Print Assumptions` is closed).

## Not modelled

Recursion limit (except C108), memory, timing, terminal control (`clear`), signals (except Ctrl-C in C114), argparse, errors of
input and output other than from opening a file, fields with objects that are not ints outside
the functions of `MObjects.v` and `MObjText.v` (the solvers and the game; objects whose
`==`, `!=`, `bool` or `str` raise; objects of type set), Python 2.

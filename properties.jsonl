{"id": "C01", "title": "Writing one field changes exactly that field", "statement": "After sudoku[r, c] = v, reading sudoku[r, c] returns v; every other field, every candidate set and the box size are what they were before. The write and the read raise IndexError exactly when r or c is outside [-N, N) where N = box_width*box_height (negative indices count from the end, as for Python lists).", "quantifier": "every box size, every sudoku, every pair of coordinates (any integer), every value", "why_tests_cant": "The frame condition ranges over all other fields of grids of every size and over all integers as coordinates.", "anchors": ["sudokutools/sudoku.py:Sudoku.__getitem__", "sudokutools/sudoku.py:Sudoku.__setitem__", "sudokutools/sudoku.py:Sudoku.get_number", "sudokutools/sudoku.py:Sudoku.set_number"]}
{"id": "C02", "title": "Candidate writes are exact and local", "statement": "After set_candidates(r, c, vs) the candidates of (r, c) are exactly the values in vs; after remove_candidates(r, c, vs) they are exactly the previous candidates not in vs; all other candidate sets and all numbers are unchanged.", "quantifier": "every box size, sudoku, field, iterable of integers", "why_tests_cant": "Set contents and the frame condition range over unbounded sets and grids.", "anchors": ["sudokutools/sudoku.py:Sudoku.set_candidates", "sudokutools/sudoku.py:Sudoku.remove_candidates", "sudokutools/sudoku.py:Sudoku.get_candidates"]}
{"id": "C03", "title": "A new sudoku is empty and well formed; every public mutation keeps it well formed", "statement": "Sudoku(box_size=(w, h)) has w*h rows and columns, all numbers 0, all candidate sets empty, len() = w^2*h^2; after any sequence of successful number/candidate writes the grid still has that shape.", "quantifier": "all w, h >= 1 and every finite sequence of set_number/set_candidates/remove_candidates calls with arbitrary arguments (including failing ones)", "why_tests_cant": "Quantifies over all call histories.", "anchors": ["sudokutools/sudoku.py:Sudoku.__init__", "sudokutools/sudoku.py:Sudoku.__len__", "sudokutools/sudoku.py:Sudoku.__iter__"]}
{"id": "C04", "title": "copy() reproduces the sudoku", "statement": "copy() returns a sudoku of the same box size with the same number in every field and no candidates; copy(include_candidates=True) additionally has the same candidates everywhere. It never raises.", "quantifier": "every well-formed sudoku", "why_tests_cant": "Holds for all grids of all sizes and contents.", "anchors": ["sudokutools/sudoku.py:Sudoku.copy"]}
{"id": "C05", "title": "A copy is independent of its original", "statement": "After b = a.copy(include_candidates=True), any sequence of writes to b leaves everything readable from a unchanged and vice versa.", "quantifier": "every heap of sudokus, every sequence of writes", "why_tests_cant": "Aliasing bugs only show for particular write histories; the claim is for all of them.", "anchors": ["sudokutools/sudoku.py:Sudoku.copy", "sudokutools/shell.py:Shell.push_command"]}
{"id": "C06", "title": "diff(), == and equals() agree with field-wise comparison", "statement": "For two sudokus of the same dimensions diff() yields, in row-major order and without repetition, exactly the fields whose numbers differ; a == b iff there is none; a.equals(b, candidates=True) iff additionally all candidate sets agree.", "quantifier": "all pairs of well-formed sudokus with the same N", "why_tests_cant": "All pairs of grids of all sizes.", "anchors": ["sudokutools/sudoku.py:Sudoku.diff", "sudokutools/sudoku.py:Sudoku.__eq__", "sudokutools/sudoku.py:Sudoku.equals"]}
{"id": "C07", "title": "== is symmetric", "statement": "a == b implies b == a. (False of the code: a smaller sudoku equals a larger one with the same top-left corner, but not the other way round. True for sudokus with the same number of rows.)", "quantifier": "all pairs of well-formed sudokus", "why_tests_cant": "A relation over all pairs, across sizes.", "anchors": ["sudokutools/sudoku.py:Sudoku.__eq__"]}
{"id": "C08", "title": "empty() and filled() partition the fields", "statement": "empty() yields exactly the fields with number 0 and filled() exactly the others, both in row-major order without repetition; count() is the number of filled fields and len(list(empty())) + count() = len(sudoku).", "quantifier": "every well-formed sudoku", "why_tests_cant": "All grids of all sizes.", "anchors": ["sudokutools/sudoku.py:Sudoku.empty", "sudokutools/sudoku.py:Sudoku.filled", "sudokutools/sudoku.py:Sudoku.count"]}
{"id": "C09", "title": "row_of, column_of and box_of list exactly their unit", "statement": "For a field (r, c) of the grid row_of/column_of/box_of return, without repetition, exactly the N fields with the same row / the same column / the same box (rows r//h, columns c//w); with include=False exactly those except (r, c). None raises.", "quantifier": "all w, h >= 1, all fields", "why_tests_cant": "All box sizes.", "anchors": ["sudokutools/coordinates.py:row_of", "sudokutools/coordinates.py:column_of", "sudokutools/coordinates.py:box_of", "sudokutools/sudoku.py:Sudoku.row_of", "sudokutools/sudoku.py:Sudoku.column_of", "sudokutools/sudoku.py:Sudoku.box_of"]}
{"id": "C10", "title": "surrounding_of lists exactly the peers", "statement": "surrounding_of(r, c, include=False) lists, without repetition, exactly the fields other than (r, c) sharing a row, column or box with it; include=True adds (r, c) exactly once; the length is 3N - w - h (minus 1 without the field).", "quantifier": "all w, h >= 1, all fields", "why_tests_cant": "All box sizes.", "anchors": ["sudokutools/coordinates.py:surrounding_of", "sudokutools/sudoku.py:Sudoku.surrounding_of"]}
{"id": "C11", "title": "Boxes and parts are a coordinate system", "statement": "box_at(r, c) is the unique b with (r, c) in the_box(b); (r, c) lies in the_part(p) iff p = (c mod w) + (r mod h)*w; for every box b and part p in range exactly one field lies in both; the_row/the_column/the_box/the_part each list N distinct fields of the grid.", "quantifier": "all w, h >= 1, all fields, boxes and parts", "why_tests_cant": "All box sizes.", "anchors": ["sudokutools/coordinates.py:box_at", "sudokutools/coordinates.py:the_box", "sudokutools/coordinates.py:the_part", "sudokutools/coordinates.py:the_row", "sudokutools/coordinates.py:the_column", "sudokutools/sudoku.py:Sudoku.box_at"]}
{"id": "C12", "title": "the_row/the_column/the_box/the_part reject exactly the invalid numbers", "statement": "They raise ValueError iff the number is < 0 or >= w*h.", "quantifier": "all integers, all box sizes", "why_tests_cant": "All integers.", "anchors": ["sudokutools/coordinates.py:the_box", "sudokutools/coordinates.py:the_row", "sudokutools/coordinates.py:the_column", "sudokutools/coordinates.py:the_part"]}
{"id": "C13", "title": "calc_candidates is exact", "statement": "For a filled field calc_candidates returns just its number; for an empty field exactly the numbers 1..N that no peer contains.", "quantifier": "every well-formed sudoku (any integers as numbers), every field", "why_tests_cant": "All grids.", "anchors": ["sudokutools/solve.py:calc_candidates"]}
{"id": "C14", "title": "init_candidates sets the exact candidates everywhere and nothing else", "statement": "After init_candidates(s) every field's candidates are calc_candidates of the original numbers; with filled_only only filled fields are touched; numbers never change; never raises.", "quantifier": "every well-formed sudoku", "why_tests_cant": "All grids.", "anchors": ["sudokutools/solve.py:init_candidates"]}
{"id": "C15", "title": "Calculated candidates never lose a solution", "statement": "If f is any solution of the sudoku then f's value is among calc_candidates of every field.", "quantifier": "every sudoku, every solution", "why_tests_cant": "All grids and solutions.", "anchors": ["sudokutools/solve.py:calc_candidates", "sudokutools/solve.py:init_candidates"]}
{"id": "C16", "title": "find_conflicts reports exactly the conflicting pairs", "statement": "find_conflicts(s) yields ((r,c),(i,j),v) iff the two fields are peers both holding the non-zero number v; no triple is yielded twice; with explicit coordinates exactly the conflicts whose first field is among them.", "quantifier": "every well-formed sudoku with any integer contents, every list of coordinates", "why_tests_cant": "All grids.", "anchors": ["sudokutools/analyze.py:find_conflicts"]}
{"id": "C17", "title": "is_solved means: a complete valid sudoku", "statement": "For sudokus whose numbers are in 0..N, is_solved(s) iff s is a valid solution grid: every row, column and box contains each of 1..N exactly once. (Without the range hypothesis false: is_solved accepts grids with out-of-range numbers.)", "quantifier": "every well-formed sudoku", "why_tests_cant": "All grids.", "anchors": ["sudokutools/analyze.py:is_solved"]}
{"id": "C18", "title": "bruteforce yields only solutions", "statement": "Every sudoku yielded by bruteforce(s) has s's box size, no empty field, no conflicts and agrees with s on s's filled fields.", "quantifier": "every well-formed sudoku, every set-iteration order", "why_tests_cant": "All grids; depends on backtracking bookkeeping along every search path.", "anchors": ["sudokutools/solve.py:bruteforce", "sudokutools/solve.py:_do_bruteforce"]}
{"id": "C19", "title": "bruteforce yields every solution exactly once", "statement": "Every completion of s with numbers 1..N without conflicts is yielded by bruteforce(s), and no two yielded sudokus are equal; it terminates without exception.", "quantifier": "every well-formed sudoku, every set-iteration order", "why_tests_cant": "Completeness of a search.", "anchors": ["sudokutools/solve.py:bruteforce", "sudokutools/solve.py:_do_bruteforce"]}
{"id": "C20", "title": "bruteforce yields nothing on conflicting sudokus", "statement": "If two peers of s hold the same non-zero number, bruteforce(s) yields nothing.", "quantifier": "every well-formed sudoku", "why_tests_cant": "All grids.", "anchors": ["sudokutools/solve.py:bruteforce"]}
{"id": "C21", "title": "The backtracking search restores the working sudoku exactly", "statement": "When the in-place search finishes, numbers and candidates of the working sudoku are exactly those at its start.", "quantifier": "every reachable search state", "why_tests_cant": "All search paths.", "anchors": ["sudokutools/solve.py:_do_bruteforce"]}
{"id": "C22", "title": "dlx yields only solutions", "statement": "Every sudoku yielded by dlx(s) has s's box size, is a valid solution grid (each of 1..N once in every row, column, box) and agrees with s on its filled fields.", "quantifier": "every well-formed sudoku, every set-iteration order", "why_tests_cant": "All grids and search paths.", "anchors": ["sudokutools/solve.py:dlx", "sudokutools/dlx.py:do_dlx", "sudokutools/dlx.py:solve"]}
{"id": "C23", "title": "dlx yields every solution exactly once and never raises", "statement": "Every valid solution grid extending s is yielded by dlx(s) exactly once; the generator terminates and raises no exception.", "quantifier": "every well-formed sudoku, every set-iteration order", "why_tests_cant": "Completeness of a search through a mutable exact-cover matrix.", "anchors": ["sudokutools/solve.py:dlx", "sudokutools/dlx.py:do_dlx", "sudokutools/dlx.py:solve", "sudokutools/dlx.py:exact_cover"]}
{"id": "C24", "title": "dlx yields nothing on conflicts or out-of-range numbers", "statement": "If s has a conflict or a number outside 0..N, dlx(s) yields nothing (and raises nothing).", "quantifier": "every well-formed sudoku", "why_tests_cant": "All grids.", "anchors": ["sudokutools/dlx.py:do_dlx", "sudokutools/dlx.py:select"]}
{"id": "C25", "title": "deselect undoes select", "statement": "After select(X, Y, r) succeeds, deselect(X, Y, r, cols) restores every column of X to the same set of rows (the order of dictionary keys may differ).", "quantifier": "every reachable exact-cover state, every row", "why_tests_cant": "All reachable states.", "anchors": ["sudokutools/dlx.py:select", "sudokutools/dlx.py:deselect"]}
{"id": "C26", "title": "dlx and bruteforce find the same solutions", "statement": "For sudokus with numbers in 0..N, a grid is yielded by dlx(s) iff it is yielded by bruteforce(s), and both yield the same number of sudokus. (False without the range hypothesis: bruteforce completes a sudoku containing an out-of-range number, dlx yields nothing.)", "quantifier": "every well-formed sudoku, all iteration orders", "why_tests_cant": "All grids.", "anchors": ["sudokutools/solve.py:dlx", "sudokutools/solve.py:bruteforce"]}
{"id": "C27", "title": "is_unique means exactly one solution", "statement": "is_unique(s) returns True iff exactly one valid solution grid extends s, False otherwise; it never raises.", "quantifier": "every well-formed sudoku, all iteration orders", "why_tests_cant": "Counts solutions over the whole solution space.", "anchors": ["sudokutools/analyze.py:is_unique"]}
{"id": "C28", "title": "create_solution always succeeds", "statement": "create_solution((w, h)) returns a valid solution grid of that box size, never raising, whatever the random choices.", "quantifier": "all w, h >= 1, all outcomes of choice() and shuffle(), all iteration orders", "why_tests_cant": "Needs existence of a completion for every shuffled box of every size.", "anchors": ["sudokutools/generate.py:create_solution"]}
{"id": "C29", "title": "generate returns a puzzle with exactly one solution", "statement": "For min_count <= w^2*h^2 and a valid symmetry, generate returns normally and the returned sudoku has exactly one solution.", "quantifier": "all box sizes >= 1, min_count, symmetries, random outcomes", "why_tests_cant": "All random outcomes.", "anchors": ["sudokutools/generate.py:generate"]}
{"id": "C30", "title": "generate keeps at least min_count filled fields", "statement": "The sudoku returned by generate(min_count=m) has at least m filled fields.", "quantifier": "as above", "why_tests_cant": "All random outcomes.", "anchors": ["sudokutools/generate.py:generate"]}
{"id": "C31", "title": "generate honours the requested symmetry", "statement": "The pattern of filled fields of the returned sudoku is invariant under the requested symmetry.", "quantifier": "all symmetries, box sizes, min_count, random outcomes", "why_tests_cant": "All random outcomes.", "anchors": ["sudokutools/generate.py:generate", "sudokutools/generate.py:SYMMETRY"]}
{"id": "C32", "title": "generate produces minimal puzzles", "statement": "With min_count <= 0, emptying any further symmetry class of filled fields of the returned sudoku gives more than one solution; with symmetry=None no single clue is redundant.", "quantifier": "all symmetries, box sizes, random outcomes", "why_tests_cant": "Minimality refers to all later removals.", "anchors": ["sudokutools/generate.py:generate"]}
{"id": "C33", "title": "generate rejects invalid arguments", "statement": "generate raises ValueError iff min_count > w^2*h^2 or the symmetry is not one of the six supported ones.", "quantifier": "all arguments with w, h >= 1", "why_tests_cant": "All arguments.", "anchors": ["sudokutools/generate.py:generate"]}
{"id": "C34", "title": "generate_from_template reproduces the pattern or fails after exactly `tries` attempts", "statement": "A returned sudoku has a number exactly where the template has one and has exactly one solution; with tries >= 0 it terminates, and raises RuntimeError iff each of the `tries` attempts gave a non-unique sudoku (always for tries = 0).", "quantifier": "all templates, tries, random outcomes", "why_tests_cant": "All random outcomes.", "anchors": ["sudokutools/generate.py:generate_from_template"]}
{"id": "C35", "title": "Naked single and hidden single steps are sound", "statement": "If every field's candidates contain the solution's value, every NakedSingle/HiddenSingle step found sets its field to the solution's value, and applying it keeps the solution in all candidates.", "quantifier": "every sudoku, every solution consistent with it, every step found, with or without applying earlier steps in between", "why_tests_cant": "All grids, solutions and interleavings of find and apply.", "anchors": ["sudokutools/solvers.py:NakedSingle", "sudokutools/solvers.py:HiddenSingle", "sudokutools/solvers.py:_SingleFieldStep"]}
{"id": "C36", "title": "Naked tuple and hidden tuple steps are sound", "statement": "Under the same hypothesis no NakedPair..NakedQuint or HiddenPair..HiddenQuint step removes a solution value from any field.", "quantifier": "every n >= 1, sudoku, solution, interleaving", "why_tests_cant": "Pigeonhole over arbitrary units.", "anchors": ["sudokutools/solvers.py:NakedTuple", "sudokutools/solvers.py:HiddenTuple"]}
{"id": "C37", "title": "Pointing tuple steps are sound", "statement": "Under the same hypothesis no PointingPair/PointingTriple step removes a solution value.", "quantifier": "every n, sudoku, solution, interleaving", "why_tests_cant": "All grids.", "anchors": ["sudokutools/solvers.py:PointingTuple"]}
{"id": "C38", "title": "Fish steps are sound", "statement": "Under the same hypothesis no XWing/Swordfish/Jellyfish step removes a solution value.", "quantifier": "every n, sudoku, solution, interleaving", "why_tests_cant": "All grids; stale field lists.", "anchors": ["sudokutools/solvers.py:BasicFish"]}
{"id": "C39", "title": "Solve steps never raise and every affected field really changes", "statement": "Finding and applying steps of every class on a well-formed sudoku raises no exception, and every field in step.affected is changed by applying the step right after it was found (for CalculateCandidates: if the field has any possible value).", "quantifier": "every well-formed sudoku, every class", "why_tests_cant": "All grids.", "anchors": ["sudokutools/solvers.py:SolveStep.apply", "sudokutools/solvers.py:SOLVERS"]}
{"id": "C40", "title": "solve() solves every solvable sudoku", "statement": "If s has at least one solution, solve(s) terminates without exception and returns a complete valid solution grid extending s; if s has exactly one solution that solution is returned.", "quantifier": "every well-formed solvable sudoku, all iteration orders", "why_tests_cant": "Termination and correctness of an unbounded loop.", "anchors": ["sudokutools/solvers.py:solve"]}
{"id": "C41", "title": "solve() terminates on every sudoku", "statement": "solve(s) returns for every sudoku s. (False of the code: if an empty field has no possible value, CalculateCandidates reports a step for it in every round and the loop never ends.)", "quantifier": "every well-formed sudoku", "why_tests_cant": "Non-termination cannot be observed by a test.", "anchors": ["sudokutools/solvers.py:solve", "sudokutools/solvers.py:CalculateCandidates"]}
{"id": "C42", "title": "Deductive steps preserve the set of solutions", "statement": "Every step reported by solve(s) before the first Bruteforce step leaves the set of solutions of the working sudoku equal to that of s.", "quantifier": "every sudoku", "why_tests_cant": "All grids and solutions.", "anchors": ["sudokutools/solvers.py:solve"]}
{"id": "C43", "title": "rate is between 0 and 10 and is 0 exactly for solved sudokus", "statement": "For solvable s, 0 <= rate(s) <= 10, and rate(s) = 0 iff s has no empty field.", "quantifier": "every solvable well-formed sudoku", "why_tests_cant": "All grids.", "anchors": ["sudokutools/analyze.py:rate", "sudokutools/analyze.py:RATINGS"]}
{"id": "C44", "title": "score is between 0 and 10*empty", "statement": "For solvable s, 0 <= score(s) <= 10 * number of empty fields. (Upper bound false of the code: elimination steps are added on top.)", "quantifier": "every solvable well-formed sudoku", "why_tests_cant": "All grids.", "anchors": ["sudokutools/analyze.py:score"]}
{"id": "C45", "title": "apply_all of all solvers in order completes a solvable sudoku", "statement": "Running apply_all for every class in SOLVERS once, in order, on a solvable sudoku without candidates fills every field with a solution.", "quantifier": "every solvable sudoku without candidates", "why_tests_cant": "All grids.", "anchors": ["sudokutools/solvers.py:SolveStep.apply_all", "sudokutools/solvers.py:SOLVERS"]}
{"id": "C46", "title": "hints() only offers sound, applicable, non-Bruteforce steps", "statement": "Every hint on a sudoku whose candidates contain a solution is sound for it, none is a Bruteforce step, and asking for hints changes nothing.", "quantifier": "every sudoku", "why_tests_cant": "All grids.", "anchors": ["sudokutools/solvers.py:hints"]}
{"id": "C47", "title": "Solve steps are totally ordered and canonical", "statement": "== and < on solve steps form a total order consistent with equality of (clues, affected, values), and a step does not depend on the order in which clues, affected and values were given. a < b compares the clues, then the affected fields, then the values, each like Python tuples; the attributes of a new step are sorted in ascending order.", "quantifier": "all steps", "why_tests_cant": "All triples of steps.", "anchors": ["sudokutools/solvers.py:SolveStep.__init__", "sudokutools/solvers.py:SolveStep.__eq__", "sudokutools/solvers.py:SolveStep.__lt__"]}
{"id": "C48", "title": "decode(encode(s)) round-trips digits", "statement": "If all numbers of s are in 0..9 then decode(s.encode(), box_size=s.box_size) has s's box size and numbers.", "quantifier": "every well-formed sudoku with one-digit numbers", "why_tests_cant": "All grids.", "anchors": ["sudokutools/sudoku.py:Sudoku.encode", "sudokutools/sudoku.py:Sudoku.decode"]}
{"id": "C49", "title": "Separated encodings round-trip any numbers", "statement": "decode(s.encode(row_sep=x, col_sep=x), number_sep=x, box_size=s.box_size) has s's numbers for every suitable separator x (e.g. a space), whatever integers the fields contain.", "quantifier": "all sudokus, all integers, all non-empty separators without digits, signs, underscores or the characters | and ,", "why_tests_cant": "Unbounded integers and grids.", "anchors": ["sudokutools/sudoku.py:Sudoku.encode", "sudokutools/sudoku.py:Sudoku.decode"]}
{"id": "C50", "title": "Candidates round-trip for one-digit candidates", "statement": "If numbers and candidates are in 0..9, decode(s.encode(include_candidates=True), box_size=...) reproduces numbers and candidates.", "quantifier": "every such sudoku", "why_tests_cant": "All grids.", "anchors": ["sudokutools/sudoku.py:Sudoku.encode", "sudokutools/sudoku.py:Sudoku.decode"]}
{"id": "C51", "title": "Encoding with candidates is unambiguous", "statement": "Two sudokus with different candidates have different encode(include_candidates=True). (False for N > 9: {12} and {1, 2} are both written 12.)", "quantifier": "all pairs of sudokus of the same size", "why_tests_cant": "All pairs.", "anchors": ["sudokutools/sudoku.py:Sudoku.encode"]}
{"id": "C52", "title": "Automatic box size", "statement": "decode without box_size infers, for a string of N*N fields, (sqrt N, sqrt N) if N is a square, else (d, N/d) with d the least divisor >= 2 of N, and raises ValueError if N is prime or the number of fields is not a square; so it recovers s.box_size iff w = h or (N is no square, h >= 2 and w is the least divisor >= 2).", "quantifier": "all field counts", "why_tests_cant": "All sizes.", "anchors": ["sudokutools/sudoku.py:Sudoku.decode"]}
{"id": "C53", "title": "Whitespace is irrelevant when decoding", "statement": "Inserting or deleting whitespace anywhere in the input of decode (without number_sep) does not change the result.", "quantifier": "all strings, all whitespace insertions", "why_tests_cant": "All strings.", "anchors": ["sudokutools/sudoku.py:Sudoku.decode"]}
{"id": "C54", "title": "view() is rectangular", "statement": "For numbers in 0..N and box height >= 2 all lines of view(s) have the same length, there are N field lines and w-1 rules, for every alignment, prefix and candidate setting. (For box height 1 the rule has the wrong length.)", "quantifier": "every sudoku, prefix, alignment", "why_tests_cant": "All grids and candidate sets.", "anchors": ["sudokutools/sudoku.py:view", "sudokutools/sudoku.py:Sudoku.__str__"]}
{"id": "C55", "title": "view() ignores its number_sep argument", "statement": "The result of view does not depend on number_sep although the documentation says it separates candidates.", "quantifier": "every sudoku, all separators", "why_tests_cant": "All arguments.", "anchors": ["sudokutools/sudoku.py:view"]}
{"id": "C56", "title": "Notation round-trips", "statement": "decode(encode(cs)) = the sorted distinct coordinates of cs, for rncn, bnpn and automatic choice and for all separators without digits or the letters r, c, b, p (group separator non-empty).", "quantifier": "all box sizes >= 1, all non-empty collections of valid coordinates, all such separators", "why_tests_cant": "All coordinate sets of all sizes.", "anchors": ["sudokutools/notation.py:encode", "sudokutools/notation.py:decode"]}
{"id": "C57", "title": "Notation is canonical", "statement": "encode depends only on the set of coordinates, not on order or repetition.", "quantifier": "all coordinate collections", "why_tests_cant": "All permutations.", "anchors": ["sudokutools/notation.py:encode", "sudokutools/notation.py:_join_keys"]}
{"id": "C58", "title": "Notation encode rejects exactly invalid coordinates", "statement": "encode raises ValueError iff width < 1 or height < 1 or some coordinate is outside the grid; otherwise it returns.", "quantifier": "all integer arguments", "why_tests_cant": "All arguments.", "anchors": ["sudokutools/notation.py:encode"]}
{"id": "C59", "title": "A decoded group is the intersection of its parts", "statement": "decode of a group like r12c3b4p5 returns exactly the fields lying in one of the listed rows, one of the listed columns, one of the listed boxes and one of the listed parts (absent qualifiers do not constrain), sorted.", "quantifier": "all groups with distinct qualifiers and non-empty number lists", "why_tests_cant": "All groups.", "anchors": ["sudokutools/notation.py:decode", "sudokutools/notation.py:_decode_single"]}
{"id": "C60", "title": "Repeated qualifiers are rejected", "statement": "A group in which a qualifier occurs twice makes decode raise ValueError. (False of the code when the repetition is adjacent: r1r2c3 silently means r2c3.)", "quantifier": "all groups", "why_tests_cant": "All strings.", "anchors": ["sudokutools/notation.py:_decode_single"]}
{"id": "C61", "title": "Whitespace in notation", "statement": "decode ignores whitespace if the separators contain none. (False of the code: the whitespace removal never matches; a blank raises ValueError.)", "quantifier": "all strings", "why_tests_cant": "All strings.", "anchors": ["sudokutools/notation.py:decode"]}
{"id": "C62", "title": "decode_action understands set and remove actions", "statement": "decode_action(encode(cs) + '=' + n) is the action that sets n on cs and decode_action(encode(cs) + '<>' + ds) the action that removes ds from cs; applying them changes exactly those fields. Every string starting with '-' is rejected although the code has a branch for it.", "quantifier": "all coordinate sets, numbers, digit strings", "why_tests_cant": "All strings.", "anchors": ["sudokutools/notation.py:decode_action", "sudokutools/actions.py:SetNumber", "sudokutools/actions.py:RemoveCandidates"]}
{"id": "C63", "title": "encode_action fails on every action decode_action produces", "statement": "Whenever decode_action(s) succeeds, encode_action of its result raises TypeError, or returns None if the action removes no candidates; it never returns a string, so actions cannot be written back. Only an action whose number is a string is written; if it is the text of a number, reading it again gives the same fields and that number.", "quantifier": "all strings", "why_tests_cant": "All strings.", "anchors": ["sudokutools/notation.py:encode_action", "sudokutools/notation.py:decode_action"]}
{"id": "C64", "title": "push/pop is a stack of independent snapshots", "statement": "push saves numbers and candidates of the current sudoku; whatever commands follow, pop of that entry restores exactly what was saved; pop with a bad position or an empty stack reports an error and changes nothing.", "quantifier": "all command histories", "why_tests_cant": "All histories, including in-place changes of the current sudoku.", "anchors": ["sudokutools/shell.py:Shell.push_command", "sudokutools/shell.py:Shell.pop_command", "sudokutools/shell.py:Shell.execute"]}
{"id": "C65", "title": "loop n ... loop end runs the body exactly n times", "statement": "Commands given between 'loop n' and 'loop end' are not executed when entered and are executed n times in order at 'loop end', with the same effect as entering them n times; afterwards no loop is active; 'exit' takes effect immediately.", "quantifier": "all n >= 1, all command lists", "why_tests_cant": "All n and bodies.", "anchors": ["sudokutools/shell.py:Shell.loop_command", "sudokutools/shell.py:Shell.execute_line"]}
{"id": "C66", "title": "A failing command changes no shell state", "statement": "In interactive mode a command that reports an error leaves the current sudoku, the stack, the loop state and the running flag unchanged (except for partial effects of the failing library call itself); in non-interactive mode the first error terminates the shell with exit status 1.", "quantifier": "all commands and states", "why_tests_cant": "All histories.", "anchors": ["sudokutools/shell.py:Shell.execute", "sudokutools/shell.py:Shell.error"]}
{"id": "C67", "title": "get and get_candidates print their result", "statement": "The shell commands get and get_candidates print the requested value. (False of the code: the result is not a string, printing it raises TypeError, which is reported as an error.)", "quantifier": "all states", "why_tests_cant": "The unit tests replace the printing function, so they cannot see it.", "anchors": ["sudokutools/shell.py:Shell.execute", "sudokutools/shell.py:Shell._print"]}
{"id": "C68", "title": "Script lines: comments, continuation, blank lines", "statement": "Everything from the first # to the end of a line is ignored, a line ending in a backslash continues on the next one, blank lines do nothing, and ; separates commands exactly like separate lines.", "quantifier": "all line sequences", "why_tests_cant": "All scripts.", "anchors": ["sudokutools/shell.py:Shell.run", "sudokutools/shell.py:Shell.execute_line"]}
{"id": "C69", "title": "Undo/redo history", "statement": "The game shell's history index is always valid; undo after a change restores the previous sudoku including candidates, redo after undo restores the change, a new change discards the redo branch, and commands that change nothing do not touch the history.", "quantifier": "all command histories", "why_tests_cant": "All histories.", "anchors": ["sudokutools/shell.py:GameShell.run"]}
{"id": "C70", "title": "autofill terminates and only removes values of filled peers", "statement": "autofill with the default settings terminates, changes no number, and afterwards the candidates of each field are the previous ones minus the numbers of its filled peers. (With autoset and a field whose only candidate is 0 it never terminates.)", "quantifier": "every sudoku", "why_tests_cant": "Termination of an unbounded loop.", "anchors": ["sudokutools/shell.py:GameShell.autofill"]}
{"id": "C71", "title": "Encodings with one row per line round-trip", "statement": "decode(s.encode(row_sep=r, col_sep=x), number_sep=x, box_size=s.box_size) has s's numbers when r is a blank character (newline, blank, tab ...) that does not occur in x and x is a suitable separator.", "quantifier": "all sudokus, all integers, all blank characters, all such separators", "why_tests_cant": "Unbounded integers and grids.", "anchors": ["sudokutools/sudoku.py:Sudoku.encode", "sudokutools/sudoku.py:Sudoku.decode"]}
{"id": "C72", "title": "decode of too few or too many fields", "statement": "With a given box size decode leaves missing fields empty and ignores everything after the last field (up to the candidate separator), without any error.", "quantifier": "all digit strings of any length, all box sizes, arbitrary surplus characters", "why_tests_cant": "All strings.", "anchors": ["sudokutools/sudoku.py:Sudoku.decode"]}
{"id": "C73", "title": "Exceptions of notation.decode", "statement": "decode either returns fields of the grid in increasing order, or raises ValueError, or raises TypeError; TypeError only if no number separator is given and width * height <= 9 (e.g. for 'r').", "quantifier": "all strings, all integer box sizes, all separators", "why_tests_cant": "All strings.", "anchors": ["sudokutools/notation.py:decode", "sudokutools/notation.py:_decode_single"]}
{"id": "C74", "title": "The exact text of notation.encode", "statement": "encode writes, for use_boxes=False, one group rK cV for every class K of rows with the same set V of columns, in the order of the first row; for use_boxes=True the same with boxes and parts; by default the shorter of the two texts, the row text if both have the same length.", "quantifier": "all box sizes, all collections of valid coordinates, all separators", "why_tests_cant": "All coordinate sets.", "anchors": ["sudokutools/notation.py:encode", "sudokutools/notation.py:_join_keys", "sudokutools/notation.py:_dict_to_str"]}
{"id": "C75", "title": "The interactive shell survives every input", "statement": "No input makes the interactive shell raise an exception, provided that literal_eval raises nothing but SyntaxError and ValueError; an argument for which it raises something else (e.g. {[]}: TypeError) crashes the shell.", "quantifier": "all input, all library functions", "why_tests_cant": "All inputs.", "anchors": ["sudokutools/shell.py:Shell.run", "sudokutools/shell.py:Shell.execute_line", "sudokutools/shell.py:parse"]}
{"id": "C76", "title": "Lines that crash the game", "statement": "The game ends with an exception exactly on a blank line (IndexError), on the command settings (TypeError), and on an action whose fields make the notation raise TypeError, e.g. r=5; until then nothing changes, and every other line that is no command is reported as unknown.", "quantifier": "all lines, all states of the game", "why_tests_cant": "All strings.", "anchors": ["sudokutools/shell.py:GameShell.run"]}
{"id": "C77", "title": "check", "statement": "The command check prints exactly the filled fields whose number differs from the solution, in reading order, and changes nothing.", "quantifier": "all states of the game", "why_tests_cant": "All states.", "anchors": ["sudokutools/shell.py:GameShell.run"]}
{"id": "C78", "title": "conflicts", "statement": "The command conflicts prints every pair of peers with the same number exactly once (in one of its two orders), nothing else, and changes nothing.", "quantifier": "all states of the game", "why_tests_cant": "All states.", "anchors": ["sudokutools/shell.py:GameShell.run"]}
{"id": "C79", "title": "A new game", "statement": "Starting the game never fails: the puzzle is 9x9 and has exactly one solution, which is the one check compares with; every field has the candidates of calc_candidates; the rating shown is between 1 and 10.", "quantifier": "all random decisions, all orders of sets, all lines entered afterwards", "why_tests_cant": "All random decisions.", "anchors": ["sudokutools/shell.py:GameShell.new_sudoku", "sudokutools/shell.py:GameShell.run"]}
{"id": "C80", "title": "hint", "statement": "The command hint shows the steps of hints() for the current sudoku one after the other, starting again whenever the sudoku has changed.", "quantifier": "all states of the game", "why_tests_cant": "All states.", "anchors": ["sudokutools/shell.py:GameShell.run", "sudokutools/solvers.py:hints"]}
{"id": "C81", "title": "CalculateCandidates and NakedSingle find exactly what they should", "statement": "list(CalculateCandidates.find(s)) has one step for each field without candidates, in reading order, with the numbers no peer holds (or the field's own number); list(NakedSingle.find(s)) has one step for each empty field with exactly one candidate, in reading order.", "quantifier": "every sudoku", "why_tests_cant": "All candidate states.", "anchors": ["sudokutools/solvers.py:CalculateCandidates.find", "sudokutools/solvers.py:NakedSingle.find"]}
{"id": "C82", "title": "HiddenSingle finds exactly the hidden numbers", "statement": "list(HiddenSingle.find(s)) has one step for each empty field for which some number is a candidate of no other field of its column, row or box, in reading order, with such a number; a column is preferred to a row and a row to a box. The number need not be a candidate of the field: without candidates every empty field is reported.", "quantifier": "every sudoku, all orders of sets", "why_tests_cant": "All candidate states.", "anchors": ["sudokutools/solvers.py:HiddenSingle.find"]}
{"id": "C83", "title": "NakedTuple finds every naked tuple, once per set of clues", "statement": "A set of n fields of a unit with an empty field is reported if and only if each has 2 to n candidates, all together have at most n and another field of the unit has one of these; it is reported once only, for the first kind of unit (row, column, box) for which this holds.", "quantifier": "every sudoku, every n", "why_tests_cant": "All candidate states.", "anchors": ["sudokutools/solvers.py:NakedTuple.find"]}
{"id": "C84", "title": "HiddenTuple finds exactly the hidden tuples, each at least twice", "statement": "A set of n numbers of a unit with an empty field is reported if and only if each has 2 to n places in the unit, all together have at most n places and one of these has another candidate; the step is reported as many times in a row as there are places, at least twice.", "quantifier": "every sudoku, every n", "why_tests_cant": "All candidate states.", "anchors": ["sudokutools/solvers.py:HiddenTuple.find"]}
{"id": "C85", "title": "PointingTuple finds exactly the pointing tuples", "statement": "A step is reported if and only if a number has exactly n places in a box, all in one row or column (or in a row or column, all in one box), and another place in that row or column (box), which is affected; for n >= 2 no step is reported twice. (For n = 1 a box is compared with its row only.)", "quantifier": "every sudoku, every n", "why_tests_cant": "All candidate states.", "anchors": ["sudokutools/solvers.py:PointingTuple.find"]}
{"id": "C86", "title": "BasicFish finds exactly the fish", "statement": "A step is reported if and only if a number has 2 to n places in each of n rows (columns), which together lie in at most n columns (rows), at least two in each, and has another place in these, which is affected; no step is reported twice.", "quantifier": "every sudoku, every n >= 1", "why_tests_cant": "All candidate states.", "anchors": ["sudokutools/solvers.py:BasicFish.find"]}
{"id": "C87", "title": "Bruteforce reports one solution", "statement": "list(Bruteforce.find(s)) has one step for each empty field in reading order, with the numbers of one solution of s; it is empty if s has no solution.", "quantifier": "every sudoku, all orders of sets", "why_tests_cant": "All sudokus.", "anchors": ["sudokutools/solvers.py:Bruteforce.find"]}
{"id": "C88", "title": "solve() never raises and completes exactly the solvable sudokus", "statement": "On every sudoku, solvable or not, solve() raises no exception; if it returns, the result keeps every given number, every field has at least one candidate, and the result is a complete valid grid if and only if the sudoku has a solution (otherwise an incomplete or conflicting grid is returned without any sign of failure).", "quantifier": "every sudoku, all orders of sets", "why_tests_cant": "Unsolvable inputs are a small corner of the tests; quantifies over all sudokus.", "anchors": ["sudokutools/solvers.py:solve"]}
{"id": "C89", "title": "The text of a step identifies it", "statement": "repr of two steps is the same text only if class, clues, affected fields and values are the same; str (which leaves out the affected fields) is the same text only if class, clues and values are the same, and for two steps found in the same sudoku by the same class, or two hints for the same sudoku, only if all attributes are the same. Neither fails on a step found by a solving class, and both texts start with the name of the class.", "quantifier": "all steps, every sudoku, all orders of sets", "why_tests_cant": "All pairs of steps.", "anchors": ["sudokutools/solvers.py:SolveStep.__repr__", "sudokutools/solvers.py:SolveStep.__str__", "sudokutools/solvers.py:_SingleFieldStep.__repr__", "sudokutools/solvers.py:_SingleFieldStep.__str__", "sudokutools/solvers.py:hints"]}
{"id": "C90", "title": "help shows the signatures of the commands", "statement": "The signature of a command shown by help lists its parameters with their default values. (False of the code: the default values are shown in a rotated order unless there are none, as many as parameters or half as many; of the commands decode, encode, view and help are shown wrong.)", "quantifier": "all signatures", "why_tests_cant": "All signatures.", "anchors": ["sudokutools/shell.py:signature_str", "sudokutools/shell.py:COMMANDS"]}
{"id": "C91", "title": "help", "statement": "help prints every command exactly once, by sections, with name, signature and first line of its documentation; help COMMAND prints that line and (if verbose) the other lines of the documentation, the first of them on the same line; help end reports KeyError, help with any other value that is true AttributeError. Nothing else changes.", "quantifier": "all documentation strings, all states of the shell", "why_tests_cant": "Arbitrary documentation.", "anchors": ["sudokutools/shell.py:Shell.help_command", "sudokutools/shell.py:COMMANDS_HELP"]}
{"id": "C92", "title": "Arguments by position or by name", "statement": "Two command lines that give the same values to the parameters of a command (by position, by name in any order, or by default) have the same effect; a command line that gives a parameter no value or two, or has an unknown name or too many arguments, reports TypeError and changes nothing.", "quantifier": "all command lines, all states of the shell, all random decisions", "why_tests_cant": "All argument lists.", "anchors": ["sudokutools/shell.py:Shell.execute", "sudokutools/shell.py:parse", "sudokutools/shell.py:COMMANDS"]}
{"id": "C93", "title": "The command solve", "statement": "solve replaces the current sudoku by a completion of it (numbers kept, empty fields filled so that peers differ), as a new object; if there is none, StopIteration is reported and nothing changes.", "quantifier": "all states of the shell, all orders of sets", "why_tests_cant": "All sudokus.", "anchors": ["sudokutools/shell.py:Shell.solve_command", "sudokutools/shell.py:Shell.execute"]}
{"id": "C94", "title": "The commands generate and generate_from_template", "statement": "generate replaces the current sudoku by a puzzle with exactly one solution, the requested box size and symmetry and at least min_count numbers; too large a min_count or an unknown symmetry reports ValueError. generate_from_template replaces it by a puzzle with exactly one solution and the same pattern of filled fields, or reports RuntimeError if none of the attempts has exactly one solution. Nothing else changes.", "quantifier": "all states of the shell, all random decisions", "why_tests_cant": "All random decisions.", "anchors": ["sudokutools/generate.py:generate", "sudokutools/generate.py:generate_from_template", "sudokutools/shell.py:Shell.execute"]}
{"id": "C95", "title": "The other commands behave like the library functions", "statement": "set, set_candidates, remove_candidates and init_candidates change the current sudoku as the library function does and nothing else; print, encode and view print the text it returns; get and get_candidates report TypeError (see C67); new and decode replace the current sudoku by the one it returns; an exception is reported and nothing changes.", "quantifier": "all states of the shell, all arguments of the expected types", "why_tests_cant": "All states.", "anchors": ["sudokutools/shell.py:Shell.execute", "sudokutools/shell.py:COMMANDS"]}
{"id": "C96", "title": "The program and its exit status", "statement": "A non-empty file name makes the program execute that file (-c and stdin are ignored; status 1 and a message if it cannot be opened), otherwise a non-empty -c that line, otherwise stdin. The exit status is 0 or 1; unless the shell is interactive it is 0 exactly if nothing was written to stderr, and there is at most one message; an interactive shell exits with 0. (Provided that literal_eval raises nothing but SyntaxError and ValueError.)", "quantifier": "all files, lines and command line arguments", "why_tests_cant": "All scripts.", "anchors": ["sudokutools/__main__.py:main"]}
{"id": "C97", "title": "-c executes a line like a script", "statement": "For a line that is not blank, has no # or newline and does not end in a backslash, -c does exactly the same as a file with that line; blanks around the line and its commands do not matter.", "quantifier": "all lines", "why_tests_cant": "All lines.", "anchors": ["sudokutools/__main__.py:main", "sudokutools/shell.py:Shell.execute_line", "sudokutools/shell.py:Shell.run"]}
{"id": "C98", "title": "Which puzzles generate can return", "statement": "Given the solution that was created, the order in which the fields are tried is the only random decision left. The possible results are exactly the puzzles that are part of the solution, have the requested symmetry, are uniquely solvable, have at least min_count numbers and are stuck: either no symmetry class of numbers can be removed without losing uniqueness, or some class is so large that removing it would leave fewer than min_count numbers. So every minimal puzzle of a solution is a possible result, and with min_count = all fields the result is the solution itself.", "quantifier": "all box sizes, symmetries, values of min_count, created solutions, orders of the fields, puzzles", "why_tests_cant": "A test sees one result; which results are possible at all can not be observed by sampling.", "anchors": ["sudokutools/generate.py:generate"]}
{"id": "C99", "title": "Equivalent sudokus", "statement": "Renaming the numbers, exchanging rows and columns (with width and height of the boxes), or permuting rows and columns such that boxes stay together changes nothing essential: solutions, calculated candidates and conflicts correspond field by field, dlx yields the same number of solutions, is_unique and is_solved give the same answer.", "quantifier": "all box sizes, sudokus (also with conflicts or out of range numbers), renamings and moves of the fields, orders of the sets", "why_tests_cant": "There are millions of sudokus equivalent to a given one, for every sudoku.", "anchors": ["sudokutools/solve.py:dlx", "sudokutools/solve.py:calc_candidates", "sudokutools/analyze.py:is_unique", "sudokutools/analyze.py:is_solved", "sudokutools/analyze.py:find_conflicts"]}
{"id": "C100", "title": "Equality with any object", "statement": "s == other is True exactly if other[row, col] is the number in s for each field of s. It raises exactly if reading a field of other raises something else than IndexError, KeyError and TypeError and all fields before it are equal. For two sudokus it is True exactly if the first is the upper left corner of the second; so it is reflexive and transitive.", "quantifier": "all sudokus and all objects, given by the result or exception of other[row, col]", "why_tests_cant": "Any object can be compared with a sudoku.", "anchors": ["sudokutools/sudoku.py:Sudoku.__eq__"]}
{"id": "C101", "title": "Sudokus without fields", "statement": "A sudoku whose box width times box height is at most 0 has no fields: every access raises IndexError, encode gives an empty text, view raises ValueError, it is solved and unique and dlx and bruteforce yield it as the only solution. decode makes one of a blank text.", "quantifier": "all box sizes with a product of at most 0, all arguments of encode and view, all blank texts", "why_tests_cant": "Infinitely many box sizes; an edge case between valid sizes and errors.", "anchors": ["sudokutools/sudoku.py:Sudoku", "sudokutools/sudoku.py:view", "sudokutools/sudoku.py:Sudoku.decode", "sudokutools/solve.py:dlx", "sudokutools/solve.py:bruteforce"]}
{"id": "C102", "title": "The exact text of view", "statement": "view(s, include_candidates, number_sep, candidate_prefix, align_right) is exactly: the fields, each filled up to the common width, with blanks between the fields of a box, ' | ' between boxes and a rule between rows of boxes. The width is the longest text of the numbers 1..N and, with candidates, of the candidates of any field. str(s) is the same without candidates.", "quantifier": "all sudokus of all box sizes with any numbers and candidates, all arguments", "why_tests_cant": "All sudokus; a test compares a few pictures.", "anchors": ["sudokutools/sudoku.py:view", "sudokutools/sudoku.py:Sudoku.__str__"]}
{"id": "C103", "title": "How the text of a command is read", "statement": "The items of a text are what is between single blanks; the first one is the name of the command, the others are name=literal (at the first =; a repeated name gets the last value), command names, the keyword end, or literals. The text is read as a call exactly if every argument can be read and the name is known; otherwise the exception is that of the first argument that cannot be read, or KeyError. If literal_eval understands decimal numbers, the lines 'set r c v', 'print', 'pop k' and 'loop n ... loop end' have exactly the effect of the calls with these numbers.", "quantifier": "all texts, all behaviours of literal_eval, all states of the shell, all numbers", "why_tests_cant": "All texts; the behaviour for repeated names, empty items and the order of errors is not covered by examples.", "anchors": ["sudokutools/shell.py:parse", "sudokutools/shell.py:Shell.execute_line", "sudokutools/shell.py:Shell.execute"]}
{"id": "C104", "title": "Settings of the game", "statement": "A new game has autocandidates, autoconflicts and autoremove on, autocheck and autoset off, dim (3, 3) and rating (1, 10). get_setting gives the first element of a pair and raises TypeError for a bool, KeyError for another name. The command settings shows the pairs by name and raises TypeError at the first bool. The settings autocheck, autoconflicts, dim and rating have no effect: games with the same values of the other three are the same, as long as the command settings is not entered.", "quantifier": "all settings, states of the game, lines, random decisions and orders of sets", "why_tests_cant": "That a setting has no effect can not be seen in examples.", "anchors": ["sudokutools/shell.py:GameShell.__init__", "sudokutools/shell.py:GameShell.get_setting", "sudokutools/shell.py:GameShell.run", "sudokutools/shell.py:GameShell.autofill"]}
{"id": "C105", "title": "How a text of fields is read", "statement": "notation.decode(s, w, h, sep, number_sep) is exactly: without the run of string.whitespace (if no separator has blanks), the text is cut at each separator that is followed by a letter, in exactly one way. Each group consists of sections, a letter and its numbers; only the last one may have no numbers, and a letter may occur again only directly after itself. The numbers of its last section count; the fields are those for which each letter has a number that fits. The result is the union in row-major order. If the first group that is not accepted is a letter alone, or letter, digits, the same letter, it raises TypeError, otherwise ValueError.", "quantifier": "all texts, box sizes and separators without letters and digits (and number separators without blanks, + - _ and digits of other scripts)", "why_tests_cant": "Infinitely many texts; repeated letters and missing numbers are edge cases of a loop with four variables.", "anchors": ["sudokutools/notation.py:decode", "sudokutools/notation.py:_decode_single"]}
{"id": "C106", "title": "How an action is read", "statement": "decode_action(s, w, h) gives an action exactly if the text without blanks around it does not begin with a minus sign and is fields<>digits (cut at the first <>) or, if it has no <>, fields=integer (cut at the first =), where the fields can be read. It raises TypeError exactly if such a line (or a line with a minus sign, after the first blank) has fields that raise it, otherwise ValueError. So the lines on which the game ends with TypeError are known by their text.", "quantifier": "all texts and box sizes; all states of the game", "why_tests_cant": "All texts; the order of the two readings decides about the exception.", "anchors": ["sudokutools/notation.py:decode_action", "sudokutools/shell.py:GameShell.run"]}
{"id": "C107", "title": "How a sudoku is read from a text", "statement": "Sudoku.decode gives a sudoku exactly if the text stands for it: blanks around it are dropped and other blanks without a meaning become number separators; the part before the first sudoku_sep has the numbers, row by row, where the sign for empty fields stands for 0 and other items must be integers; fields without an item are 0, further items are ignored; the part after it has the candidates of the fields, separated by candidate_sep. Without box_size the number of items must be k*k: boxes are square if k is a square, else their width is the least divisor of k above 1, and k must not be prime. A text with candidates but no fields raises IndexError, every other text ValueError. A text stands for at most one sudoku.", "quantifier": "all texts, all signs and separators, all box sizes of at least 1x1 and none", "why_tests_cant": "Infinitely many texts and separators; separators may overlap, contain blanks or be part of numbers.", "anchors": ["sudokutools/sudoku.py:Sudoku.decode"]}
{"id": "C108", "title": "Depth of the recursion of bruteforce and dlx", "statement": "bruteforce and dlx nest at most one call of their recursive function more than the sudoku has empty fields. With room for that many calls the result is that without a limit. With less room nothing is yielded, and RecursionError is raised if the sudoku can be completed. An empty sudoku with rows of length n therefore needs room for n*n+1 calls; the documented condition (RecursionError if n is at least the recursion limit) is refuted: n = 36 and room for 1000 calls is too much.", "quantifier": "all valid sudokus, all sizes of the stack, all orders of sets", "why_tests_cant": "The depth matters for large sudokus only, where searches take too long for tests.", "anchors": ["sudokutools/solve.py:bruteforce", "sudokutools/solve.py:_do_bruteforce", "sudokutools/solve.py:dlx", "sudokutools/dlx.py:solve"]}
{"id": "C109", "title": "What applying a solve step does", "statement": "Applying a new step, found or made by hand, changes exactly what it says: CalculateCandidates replaces the candidates of its first clue by its values; singles and Bruteforce write the number, leave it as the only candidate and take it from the candidates of all peers; naked and pointing tuples and fish take their values from the affected fields; hidden tuples take all other candidates from them. Nothing else changes. Applying it again repeats the actions chosen the first time, so a second application changes nothing, a step may be tried on a copy first, and for naked and hidden tuples and singles a use on another sudoku may spoil it. apply_all of CalculateCandidates is init_candidates() on a sudoku without candidates.", "quantifier": "all steps of all classes on all sudokus whose fields they mention", "why_tests_cant": "All steps and sudokus, including steps no solver finds; the effect of reuse depends on two sudokus.", "anchors": ["sudokutools/solvers.py:SolveStep.apply", "sudokutools/solvers.py:SolveStep.build_actions", "sudokutools/solvers.py:CalculateCandidates", "sudokutools/solvers.py:_SingleFieldStep.build_actions", "sudokutools/solvers.py:NakedTuple.build_actions", "sudokutools/solvers.py:HiddenTuple.build_actions", "sudokutools/solvers.py:PointingTuple.build_actions", "sudokutools/solvers.py:BasicFish.build_actions"]}
{"id": "C110", "title": "The order of sets does not matter", "statement": "Whatever order sets are iterated in: for a sudoku with a unique solution solve() reports the same steps and gives the same sudoku; for any sudoku with a solution the steps agree until Bruteforce fills the rest, with the same number of Bruteforce steps, so rate() and score() give the same number. While the candidates contain a solution, every class but Bruteforce finds the same steps and apply_all does the same, and hints() is the same. With two solutions the solution found, and without candidates the hints, do depend on the order.", "quantifier": "all valid sudokus with a solution, all orders of all sets, all lengths of the run", "why_tests_cant": "The order of a set is fixed in one interpreter, so tests see one of them only.", "anchors": ["sudokutools/solvers.py:solve", "sudokutools/solvers.py:hints", "sudokutools/solvers.py:HiddenSingle", "sudokutools/solvers.py:Bruteforce", "sudokutools/analyze.py:rate", "sudokutools/analyze.py:score"]}
{"id": "C111", "title": "A consumer cannot disturb a search", "statement": "bruteforce and dlx start when next() is called for the first time and solve what the sudoku contains then. Whatever the consumer does between the calls of next() (change the argument, change solutions it was given, copy them, create others), the solutions delivered contain, one after the other, exactly what the search delivers without any interference. The search changes no object the consumer knows: neither the argument nor a solution already delivered. No object is delivered twice.", "quantifier": "all programs before the first call, all statements between the calls, all sudokus, all orders of sets", "why_tests_cant": "All interleavings of a program with the search; sharing of the working copy would show in few of them.", "anchors": ["sudokutools/solve.py:bruteforce", "sudokutools/solve.py:_do_bruteforce", "sudokutools/solve.py:dlx", "sudokutools/dlx.py:do_dlx", "sudokutools/sudoku.py:Sudoku.copy"]}
{"id": "C112", "title": "Arguments of Sudoku()", "statement": "Sudoku(box_size) with a tuple or list of two ints (or bools) gives the empty sudoku with boxes of that size. Apart from these only dicts with two entries are accepted, if they have int values for 0 and 1. Every other argument raises ValueError or TypeError: ValueError exactly for collections that do not have two elements and for dicts with two entries that lack 0 or 1. That an accepted argument gives a sudoku with box_width * box_height rows is refuted for dicts ({0: 3, 1: 3} gives 9 rows and boxes of width 0).", "quantifier": "all values built from None, ints, bools, floats, strings, tuples, lists, sets and dicts", "why_tests_cant": "Infinitely many arguments of any shape; the error handler covers two exceptions only.", "anchors": ["sudokutools/sudoku.py:Sudoku.__init__"]}
{"id": "C113", "title": "Floats as width and height of the notation", "statement": "encode and decode check width and height with int(x) != x, so round floats pass. A float that is not round raises ValueError. With a round float encode writes rows and columns as with ints and boxes and parts like 1.0, and chooses the shorter text. decode never returns: for every text that can be read with ints it raises TypeError, otherwise TypeError or ValueError. the_row, the_column, the_box and the_part raise TypeError, and ValueError only for a number out of range with an int as height. That decode reads what encode writes is refuted for round floats, also if it is read with ints.", "quantifier": "all finite floats and ints as width and height, all coordinates, all texts, all separators", "why_tests_cant": "The tests use ints only, although the documentation says number and the check is made for floats.", "anchors": ["sudokutools/notation.py:encode", "sudokutools/notation.py:decode", "sudokutools/coordinates.py:the_row", "sudokutools/coordinates.py:the_column", "sudokutools/coordinates.py:the_box", "sudokutools/coordinates.py:the_part"]}
{"id": "C114", "title": "Ctrl-C", "statement": "KeyboardInterrupt while the shell waits for a line or executes a library function: an interactive shell never ends by it, whatever is interrupted and however often; otherwise the program ends with status 2 and without a message. The sudokus on the stack are not changed. Ctrl-C at the prompt prints a hint and does nothing else unless a line is being continued; then the part entered so far is executed. After an interrupted command its text is put in front of the next line, so an empty line executes it again. An interrupted loop stays defined. Refuted: that the line entered after an interrupted command is executed as entered; that Ctrl-C discards a line being continued; that the prompt shows whether a loop is being defined.", "quantifier": "all states of the shell, all inputs, all interrupts while reading a line or in a library function, all states such a function leaves the sudoku in", "why_tests_cant": "Interrupts can arrive at any time and in any number; tests do not interrupt the shell at all.", "anchors": ["sudokutools/shell.py:Shell.run", "sudokutools/shell.py:Shell.execute", "sudokutools/shell.py:Shell.execute_line", "sudokutools/shell.py:Shell.loop_command"]}
{"id": "C115", "title": "Box sizes that are not positive", "statement": "Sudoku() accepts any two ints. If the width or height of a box is not positive, create_solution, generate and generate_from_template raise IndexError for all random decisions (ValueError for a wrong min_count or symmetry, RuntimeError for 0 tries). If both are negative the sudoku has fields but no boxes: box_of is empty or raises ValueError, find_conflicts and is_solved look at rows and columns only, bruteforce yields exactly the Latin squares that complete the sudoku, each once, but dlx and is_unique raise KeyError. init_candidates never raises. In the shell, solve and generate behave accordingly.", "quantifier": "all box sizes with a number <= 0, all sudokus, all random decisions, all orders of sets", "why_tests_cant": "Negative sizes are accepted silently and half of the library works with them; tests use positive sizes only.", "anchors": ["sudokutools/sudoku.py:Sudoku.__init__", "sudokutools/sudoku.py:Sudoku.box_of", "sudokutools/sudoku.py:Sudoku.surrounding_of", "sudokutools/generate.py:create_solution", "sudokutools/generate.py:generate", "sudokutools/generate.py:generate_from_template", "sudokutools/solve.py:bruteforce", "sudokutools/solve.py:dlx", "sudokutools/dlx.py:do_dlx", "sudokutools/analyze.py:is_unique", "sudokutools/analyze.py:is_solved", "sudokutools/analyze.py:find_conflicts"]}
{"id": "C116", "title": "Naked and hidden tuples are complements", "statement": "In a unit where the only candidate of a field is no candidate of another field, every hidden tuple of n numbers reported by HiddenTuple is the complement of a naked tuple of m >= 2 fields, n + m <= N, with the same affected fields, and applying either step leaves the same sudoku. The converse holds if no field with several candidates is the only place of a number. Both conditions are needed (refuted without them). Consequently, for a sudoku with a solution, every NakedTuple step of solve() has at most N/2 and every HiddenTuple step less than N/2 numbers: NakedTuple5 and HiddenTuple5 are never used for N <= 9, HiddenTuple2 never for 4x4, HiddenTuple3 never for 6x6 sudokus. Both bounds are reached.", "quantifier": "all sudokus with a solution, all units, all sizes of tuples and boxes, all orders of sets", "why_tests_cant": "A statement about all states solve() can reach on all sudokus; tests only run a few examples and cannot show that a class is never used.", "anchors": ["sudokutools/solvers.py:NakedTuple", "sudokutools/solvers.py:HiddenTuple", "sudokutools/solvers.py:NakedSingle", "sudokutools/solvers.py:HiddenSingle", "sudokutools/solvers.py:SOLVERS", "sudokutools/solvers.py:solve"]}
{"id": "C117", "title": "The rating is the level of hints needed", "statement": "For a sudoku with a solution, rate() is the smallest r such that, starting with all candidates calculated, the sudoku can be completed by applying hints one after the other, chosen freely among all steps found by classes rated at most r. So no cleverer choice among the classes solves a sudoku with hints below its rating, and the order in which solve() uses the classes and exhausts them does not matter for the rating. In particular it does not depend on the order of Python's sets.", "quantifier": "all sudokus with a solution, all box sizes, all choices of hints, all orders of sets", "why_tests_cant": "Quantifies over all sequences of hints a player could use; a run of rate() only sees one of them.", "anchors": ["sudokutools/analyze.py:rate", "sudokutools/analyze.py:RATINGS", "sudokutools/solvers.py:solve", "sudokutools/solvers.py:SOLVERS", "sudokutools/solvers.py:SolveStep.apply"]}
{"id": "C118", "title": "Hints commute", "statement": "For a sudoku with a solution and a level below that of Bruteforce: whatever hints up to this level are applied, and in whatever order, the play ends after finitely many hints, always in the same sudoku (same numbers, same candidates); every play can be continued to this end; and the end is the solution exactly if these hints can solve the sudoku at all. With Bruteforce this is refuted: two plays may end in different solutions.", "quantifier": "all sudokus with a solution, all levels, all plays, all orders of sets", "why_tests_cant": "A confluence property over all interleavings of steps of all classes.", "anchors": ["sudokutools/solvers.py:SOLVERS", "sudokutools/solvers.py:SolveStep.apply", "sudokutools/solvers.py:NakedTuple", "sudokutools/solvers.py:HiddenTuple", "sudokutools/solvers.py:PointingTuple", "sudokutools/solvers.py:BasicFish"]}
{"id": "C119", "title": "More numbers do not make a sudoku harder", "statement": "If numbers are filled in and the sudoku still has a solution, rate() does not rise.", "quantifier": "all sudokus s and s' such that s' has the numbers of s and possibly more, and a solution; all orders of sets", "why_tests_cant": "A relation between the runs on two sudokus, which use different steps in a different order.", "anchors": ["sudokutools/analyze.py:rate", "sudokutools/solvers.py:solve"]}
{"id": "C120", "title": "Sudokus that look alike are rated alike", "statement": "If the fields of a sudoku with a solution are moved so that rows become rows and columns columns (or the other way round) and boxes boxes, and the numbers are renamed, rate() gives the same result: for renamed numbers, exchanged rows and columns (with width and height of the boxes exchanged), and rows, columns, bands and stacks permuted. For score() this is refuted.", "quantifier": "all sudokus with a solution, all such moves and renamings, all orders of sets", "why_tests_cant": "A relation between two runs whose steps do not correspond one by one, because classes scan fields in a fixed order.", "anchors": ["sudokutools/analyze.py:rate", "sudokutools/analyze.py:score", "sudokutools/solvers.py:solve", "sudokutools/solvers.py:SOLVERS"]}
{"id": "C121", "title": "Sizes of steps and possible ratings", "statement": "For a sudoku with a solution and N = width * height: every BasicFish step of solve() has at most N/2 lines, every PointingTuple step at most max(width, height) clues and it occurs only if boxes are not lines (width and height at least 2), NakedTuple steps have at most N/2 and HiddenTuple steps less than N/2 numbers. rate() is the highest rating of a step of solve() and score() the sum of the ratings, with the table of ratings spelled out. Hence rate() is one of 0-7 or 10; 2 and 5 need N >= 4, 6 needs N >= 6, 3 and 7 need N >= 8, 4 needs boxes that are not lines.", "quantifier": "all sudokus with a solution, all box sizes, all orders of sets", "why_tests_cant": "States that a class is never used in any run on any sudoku of a size; tests can only show that it is used.", "anchors": ["sudokutools/analyze.py:rate", "sudokutools/analyze.py:score", "sudokutools/analyze.py:RATINGS", "sudokutools/solvers.py:BasicFish", "sudokutools/solvers.py:PointingTuple", "sudokutools/solvers.py:solve"]}
{"id": "C122", "title": "A rating below 10 certifies a unique solution", "statement": "If a sudoku has a solution and rate() is below 10 (Bruteforce was not needed), the solution is unique, and is_unique() returns True; a sudoku with several solutions is rated 10. Hints below Bruteforce, applied in any order, keep every solution. The converse is refuted (a 5x5 sudoku with a unique solution for which no hint exists), and so is the claim for sudokus without solution (a full sudoku with conflicts is rated 0).", "quantifier": "all sudokus, all box sizes, all orders of sets (independently for rate and is_unique)", "why_tests_cant": "Relates the result of one algorithm to the number of solutions, that is to all possible fillings.", "anchors": ["sudokutools/analyze.py:rate", "sudokutools/analyze.py:is_unique", "sudokutools/solvers.py:solve", "sudokutools/solvers.py:SOLVERS"]}
{"id": "C123", "title": "With at most four rows the rating tells whether the solution is unique", "statement": "A sudoku with at most four rows (box sizes 1x1 to 4x1, 1x2 to 1x4, 2x2) and a unique solution is solved by naked and hidden singles alone. So for a sudoku of this size with a solution, rate() is 0, 1 or 10, it is at most 1 exactly if the solution is unique, and is_unique() agrees. For five rows this is refuted.", "quantifier": "all sudokus with at most four rows and a solution, all orders of sets", "why_tests_cant": "Holds for every set of clues and every candidate state reached; the number of cases is large and the claim concerns all fillings of each.", "anchors": ["sudokutools/analyze.py:rate", "sudokutools/analyze.py:is_unique", "sudokutools/solvers.py:NakedSingle", "sudokutools/solvers.py:HiddenSingle", "sudokutools/solvers.py:solve"]}
{"id": "C124", "title": "solve() fills every empty field once", "statement": "For a sudoku with a solution, solve() returns for every empty field exactly one NakedSingle, HiddenSingle or Bruteforce step, which fills in the number the field has in the end, and no other step of these classes. Hence score() is at least the number n of empty fields, and equal to it exactly if rate() is at most 1; if there is an empty field, score() is at least n + rate() - 1; and it is at most n * (rate() + min(rate(), 7) * (N - 1)) with N = width * height. That score() does not rise if a number is filled in (as rate(), see C119) is refuted, even for unique solutions.", "quantifier": "all sudokus with a solution, all box sizes, all orders of sets", "why_tests_cant": "The number of steps of every kind of run is bounded; runs differ in order and kind of steps.", "anchors": ["sudokutools/analyze.py:score", "sudokutools/analyze.py:rate", "sudokutools/solvers.py:solve", "sudokutools/solvers.py:NakedSingle", "sudokutools/solvers.py:HiddenSingle", "sudokutools/solvers.py:Bruteforce"]}
{"id": "C125", "title": "Solving with hints()", "statement": "hints() gives the steps of all classes but Bruteforce, one class after the other. For a sudoku with a solution and all candidates calculated: asking for hints, applying any one of them and asking again ends after finitely many hints, always in the same sudoku; it is full exactly if rate() is below 10, and then the solution is unique. For such a sudoku without candidates, as decode() returns it, always applying the first hint leads to the same end. That any hint for a sudoku without candidates can be applied is refuted: HiddenSingle then offers numbers that contradict the only solution.", "quantifier": "all sudokus with a solution, all box sizes, all choices among the hints, all orders of sets each time hints() is asked", "why_tests_cant": "Quantifies over all ways of choosing among hints at every point of the play.", "anchors": ["sudokutools/solvers.py:hints", "sudokutools/solvers.py:SolveStep.apply", "sudokutools/analyze.py:rate", "sudokutools/solvers.py:HiddenSingle", "sudokutools/solvers.py:CalculateCandidates"]}
{"id": "C126", "title": "Algorithm X solves every exact cover problem", "statement": "For any list of constraints and any dict of rows whose lists of constraints have no repetition and only listed constraints: exact_cover() followed by solve(X, Y, []) yields every exact cover (by rows that satisfy something) exactly once up to order, raises nothing and leaves X as it was; after any calls of select() and deselect(), select() of any row either raises KeyError or is undone by deselect(). exact_cover() raises KeyError if a row has a constraint that is not listed. Without the condition on repetition this is refuted.", "quantifier": "all exact cover problems, all orders of sets, all sequences of select and deselect", "why_tests_cant": "All matrices of all sizes, not only those of sudokus; and all covers of each.", "anchors": ["sudokutools/dlx.py:exact_cover", "sudokutools/dlx.py:solve", "sudokutools/dlx.py:select", "sudokutools/dlx.py:deselect"]}
{"id": "C127", "title": "A puzzle that is too poor in numbers is never unique", "statement": "If a sudoku of size N has a unique solution, every symmetry of the puzzle (renaming of numbers, permutation of lines, transposition that maps the puzzle to itself) is a symmetry of its solution. Hence at most one of the numbers 1..N may be absent, count() is at least N-1, and there are no two empty rows in a band, no two empty columns in a stack, no two empty bands and no two empty stacks. is_unique() returns False for every sudoku violating one of these, generate() never returns one, and generate_from_template() with such a template raises RuntimeError for every non-negative number of tries and does not end for a negative one.", "quantifier": "for all box sizes, all sudokus, all symmetries, all templates, all random choices, all set orders, all numbers of tries", "why_tests_cant": "There are infinitely many sudokus and templates; that a random search never succeeds, whatever the random numbers, cannot be observed by running it.", "anchors": ["sudokutools/analyze.py:is_unique", "sudokutools/generate.py:generate", "sudokutools/generate.py:generate_from_template"]}
{"id": "C128", "title": "Every number of a generated puzzle is needed", "statement": "generate(min_count=m) without symmetry returns a sudoku with exactly m numbers or one in which every number is needed. If every number is needed (the solution is unique and no longer so when any one field is emptied) then: an emptied field has at least two candidates according to calc_candidates(); in each of its row, column and box there is another empty field with its number among the candidates; no row, column or box is full; no number occurs in all rows; count() is at most N(N-1). Hence the count of the result of generate(m) is between m and max(m, N(N-1)). (With a symmetry single numbers may be superfluous: witness.)", "quantifier": "for all box sizes, all min_counts, all random choices, all set orders, all sudokus in which every number is needed", "why_tests_cant": "Ranges over all puzzles of all sizes and over all random choices; tests only look at some generated puzzles.", "anchors": ["sudokutools/generate.py:generate", "sudokutools/solve.py:calc_candidates", "sudokutools/analyze.py:is_unique"]}
{"id": "C129", "title": "How many fields of a symmetric puzzle are filled", "statement": "If the filled fields of a sudoku have one of the symmetries of generate(), count() is the number of filled fields on the axes (middle row, middle column, middle field) plus a multiple of the class size (4 for rotate-90 and mirror-xy, 2 for the others); with an even number of rows it is a multiple of the class size. generate(min_count=m) returns a sudoku with less than m + class size numbers, or one in which emptying any class of filled fields loses uniqueness.", "quantifier": "for all box sizes, all symmetries, all min_counts, all random choices, all set orders, all sudokus with a symmetric pattern", "why_tests_cant": "Ranges over all patterns of all sizes and over all random choices.", "anchors": ["sudokutools/generate.py:generate", "sudokutools/generate.py:SYMMETRY", "sudokutools/sudoku.py:Sudoku.count"]}
{"id": "C130", "title": "Symmetries of a puzzle divide the number of its solutions", "statement": "If a sudoku is too poor for a unique solution in the sense of C127 (fewer than N-1 numbers, two empty rows in a band, two empty columns in a stack, two empty bands or stacks), dlx() yields an even number of solutions. If k of the numbers 1..N do not occur in the sudoku, dlx() yields a multiple of k! solutions; in particular a multiple of N! for the empty sudoku. The same holds for bruteforce() if all numbers are in range.", "quantifier": "for all box sizes, all sudokus, all sets of absent numbers, all orders of Python's sets", "why_tests_cant": "The number of solutions of an empty 9x9 sudoku is about 6.7e21: it cannot be counted by running the code.", "anchors": ["sudokutools/solve.py:dlx", "sudokutools/solve.py:bruteforce", "sudokutools/dlx.py:solve"]}
{"id": "C131", "title": "With the same random decisions, more numbers asked for means more numbers", "statement": "If two calls of generate() with the same symmetry and box size make the same random decisions (created solution and shuffled fields), the one with the larger min_count returns a sudoku that contains every number of the other, so its count() is at least as large; the orders in which the uniqueness checks search have no influence on the result. If generate_from_template() succeeds with a template, it succeeds with every template that has numbers at least there, and, with the same random decisions, not in a later attempt.", "quantifier": "for all box sizes, all symmetries, all pairs of min_counts, all random choices, all set orders, all pairs of templates, all numbers of tries", "why_tests_cant": "It compares two executions for all random decisions and all parameters.", "anchors": ["sudokutools/generate.py:generate", "sudokutools/generate.py:generate_from_template"]}
{"id": "C132", "title": "Solutions split by the number of one field", "statement": "For an empty field, the number of solutions yielded by dlx() is the sum, over the numbers of calc_candidates() of that field, of the number of solutions of the sudoku with that number written into the field; the same holds for bruteforce(), even with arbitrary numbers in the filled fields. With any other number in the field dlx() yields nothing; so writing a number into an empty field never adds solutions. is_unique() is True for a sudoku with an empty field exactly if for every empty field there is exactly one number with which dlx() still yields a solution.", "quantifier": "for all box sizes, all sudokus, all empty fields, all orders of Python's sets", "why_tests_cant": "Relates the searches of infinitely many pairs of sudokus; numbers of solutions may be astronomically large.", "anchors": ["sudokutools/solve.py:dlx", "sudokutools/solve.py:bruteforce", "sudokutools/solve.py:calc_candidates", "sudokutools/analyze.py:is_unique"]}
{"id": "C133", "title": "Fields that hold other objects than ints", "statement": "A Sudoku accepts any object as content of a field. empty() and filled() split the fields by the truth of the object, count() is the number of the latter; diff() yields the fields with objects that are !=, and == is True iff there are none (and, for another box size, False if the other sudoku lacks a field), so a sudoku is unequal to its own copy iff it holds an object that is unequal to itself (NaN); find_conflicts() yields the pairs of peers with equal true objects. If a sudoku of ints stands for the sudoku (same truth, same equality, and the int under which an object is found in a dict is its number or none of 1..N), find_conflicts, is_solved, calc_candidates, dlx and is_unique behave as for that sudoku; dlx keeps the given objects (1.0 stays 1.0) and writes ints into the empty fields. bruteforce does the same for the completions: objects equal to no number stay where they are and do not hinder it (dlx yields nothing then). If the first true object is not hashable, dlx and is_unique raise TypeError; bruteforce does if any is and there is no conflict.", "quantifier": "for all box sizes, all sudokus, all objects given by their truth, equality and hash", "why_tests_cant": "Ranges over all objects, including those of classes written by the user.", "anchors": ["sudokutools/sudoku.py:Sudoku.empty", "sudokutools/sudoku.py:Sudoku.filled", "sudokutools/sudoku.py:Sudoku.diff", "sudokutools/sudoku.py:Sudoku.__eq__", "sudokutools/analyze.py:find_conflicts", "sudokutools/solve.py:calc_candidates", "sudokutools/solve.py:dlx", "sudokutools/analyze.py:is_unique"]}
{"id": "C134", "title": "The callback of solve()", "statement": "solve(sudoku, report) calls report with every step, in order, before the step is applied. With a callback that leaves the steps alone the result of solve() is the same as without it, whatever solve() does, and an exception of the callback ends solve(). Step.apply keeps the actions it has built, so a callback may change what solve() does: if it applies every step to another sudoku with the same numbers and arbitrary candidates (for instance to the sudoku that is being solved), solve() returns the same result for every solvable sudoku, and the other sudoku ends with the numbers of that solution. But with a callback that applies every step to a fresh copy of the sudoku, solve() never returns for some solvable sudoku.", "quantifier": "for all box sizes, all sudokus, all callbacks that do not change the step, all orders of Python's sets", "why_tests_cant": "Ranges over all callbacks and their states; the last part is about an execution that does not end.", "anchors": ["sudokutools/solvers.py:solve", "sudokutools/solvers.py:SolveStep.apply"]}
{"id": "C135", "title": "Texts of sudokus with other objects than ints", "statement": "encode() joins str() of the objects of every row with col_sep and the rows with row_sep, whatever the objects are. So it equals the encoding of any sudoku of ints with the same texts and candidates: if every text is one digit (such as the string '5'), decode() of it is the sudoku of the ints, and with a separator the same holds for the texts of any ints. view() and str() show str() of the true objects; the others are shown as empty fields (with their candidates, if wanted). The width of the fields is that of the numbers 1..N and the candidates; longer texts stay as they are and shift the rest of the line.", "quantifier": "for all box sizes, all sudokus, all objects given by their truth and text, all separators, prefixes and alignments", "why_tests_cant": "Ranges over all objects, including those of classes written by the user.", "anchors": ["sudokutools/sudoku.py:Sudoku.encode", "sudokutools/sudoku.py:view", "sudokutools/sudoku.py:Sudoku.__str__", "sudokutools/sudoku.py:Sudoku.decode"]}
{"id": "C136", "title": "The shell under python -O (assert statements are not executed)", "statement": "The two assert statements of the shell (loop n > 0, pop 0 <= position < len) only matter for input that is refused: a line that writes no error message has exactly the same effect without them. Without them, loop accepts every int: after loop 0 the following commands are executed at once and loop end reports that no loop is defined; with a negative number the commands up to loop end are discarded and nothing changes. pop accepts the positions of list.pop (-1 is the last sudoku); any other position is reported as IndexError and changes nothing.", "quantifier": "for all shells, lines, commands, ints, behaviours of the library functions", "why_tests_cant": "Ranges over all lines and states; tests run with assert statements.", "anchors": ["sudokutools/shell.py:Shell.loop_command", "sudokutools/shell.py:Shell.pop_command", "sudokutools/shell.py:Shell.execute_line"]}
{"id": "C137", "title": "Coordinates that count from the end", "statement": "Sudoku accepts negative indices like Python's lists, and reading and writing with them is reading and writing the field they denote; calc_candidates gives the candidates of that field (IndexError exactly for indices outside -N..N-1). row_of, column_of and box_of list the same fields in the same order as for the usual coordinates, but with include=False a negative column leaves the field itself in the row and a negative row leaves it in the column, so surrounding_of(include=False) contains the field itself; surrounding_of(include=True) raises ValueError if both are negative. box_at is lower by the number of boxes for a negative row, but only by box_height for a negative column. So find_conflicts(s, p) for such coordinates p of a filled field always reports that the field conflicts with itself, even in a solved sudoku. Conflicts are reported coordinate by coordinate, and an index out of range raises IndexError after the conflicts of the coordinates before.", "quantifier": "every sudoku, all pairs of ints", "why_tests_cant": "All indices and sizes.", "anchors": ["sudokutools/sudoku.py:Sudoku.__getitem__", "sudokutools/sudoku.py:Sudoku.surrounding_of", "sudokutools/sudoku.py:Sudoku.box_at", "sudokutools/analyze.py:find_conflicts", "sudokutools/solve.py:calc_candidates"]}
{"id": "C138", "title": "Digits and blanks of other scripts", "statement": "Sudoku.decode gives the same result (or exception) for two texts that differ only in the script of their decimal digits (Arabic, Devanagari, fullwidth, ... , also mixed), if no separator contains a digit and the sign for empty fields is not a digit other than 0. decode_action gives the same for such numbers after = and such candidates after <>. Fields, however, can be named with ASCII digits only: notation.decode accepts no text with characters other than r, c, b, p, 0-9, commas and ASCII blanks. Blanks of any script around the text change nothing.", "quantifier": "all texts, separators, signs and box sizes", "why_tests_cant": "All texts in 66 scripts; int() and str.strip() know Unicode, string.digits and string.whitespace do not.", "anchors": ["sudokutools/sudoku.py:Sudoku.decode", "sudokutools/notation.py:decode_action", "sudokutools/notation.py:decode"]}
{"id": "C139", "title": "Several searches at the same time", "statement": "A program may call bruteforce() and dlx() any number of times, also on the same sudoku or on a solution it was given, and call next() on the generators in any order, changing, copying and creating sudokus in between. Each generator delivers exactly what it would deliver alone for what its argument contained at its first next(): one solution per call, every solution exactly once if it is asked often enough. No generator changes a sudoku the program knows or disturbs another generator, and no object is handed over twice.", "quantifier": "for all programs (any number of sudokus and searches, any interleaving), all box sizes, all contents, all orders of sets", "why_tests_cant": "Tests consume one generator at a time; shared working copies or shared candidate sets only show when two searches are suspended at the same time and the caller writes to the objects in between.", "anchors": ["sudokutools/solve.py:bruteforce", "sudokutools/solve.py:dlx", "sudokutools/solve.py:_do_bruteforce", "sudokutools/dlx.py:do_dlx", "sudokutools/sudoku.py:Sudoku.copy"]}
{"id": "C140", "title": "Changing a sudoku while iterating over it", "statement": "A loop over s.empty(), s.filled() or s.diff(other) may change the numbers of s: it ends, raises nothing, visits fields in row-major order, none twice, and every field it visits is empty (filled, different) at that moment. If the body changes no later field, the loop visits exactly the fields that were empty (filled, different) before it. A body that fills (clears, copies) its field and spoils no other leaves s full (blank, equal to other). A loop over find_conflicts(s) that clears one or both fields of each conflict it is given leaves s without conflicts, having cleared only fields that were in conflict; what it is given was a conflict before the loop, and the second field still has the number at that moment.", "quantifier": "for all box sizes, all contents, all loop bodies that keep the size (for conflicts: that clear one or both of the two fields)", "why_tests_cant": "Tests collect the generators into lists; what a lazy generator sees after the caller has written to the sudoku depends on the contents and on what each body does, so any number of cases leaves others open.", "anchors": ["sudokutools/sudoku.py:Sudoku.empty", "sudokutools/sudoku.py:Sudoku.filled", "sudokutools/sudoku.py:Sudoku.diff", "sudokutools/analyze.py:find_conflicts"]}
{"id": "C141", "title": "Clearing conflicts", "statement": "for a, b, v in find_conflicts(s): s[b] = 0 leaves a sudoku without conflicts that keeps a number exactly if no earlier peer (row-major) keeps the same one; so no cleared number can be put back without a conflict, and the result is determined by the numbers before. With s[a] = 0 the result has no conflicts either and keeps a number exactly if no later peer had the same one; there cleared numbers can sometimes be put back.", "quantifier": "for all box sizes, all contents, all loop bodies that clear the second (first) field and leave the other numbers alone", "why_tests_cant": "The generator reads the number of the first field once and that of the others as it goes, while the loop writes to both; which fields survive depends on chains of conflicts of any length.", "anchors": ["sudokutools/analyze.py:find_conflicts", "sudokutools/sudoku.py:Sudoku.surrounding_of"]}
{"id": "C142", "title": "Filling a sudoku with candidates", "statement": "for r, c in s.empty(): set s[r, c] to any element of calc_candidates(s, r, c), or leave it if there is none. If s has no conflicts before the loop, it has none afterwards; no number that was there is changed; a field stays empty only if calc_candidates gives the empty set for it also after the loop; and if no field stays empty and the numbers of s were in range, the result is a solution of s.", "quantifier": "for all box sizes, all sudokus without conflicts, all ways to choose a candidate", "why_tests_cant": "What calc_candidates returns depends on what the loop has written so far; which fields stay empty depends on the order and on every choice, so tests see single paths.", "anchors": ["sudokutools/solve.py:calc_candidates", "sudokutools/sudoku.py:Sudoku.empty"]}
{"id": "C143", "title": "Filling the forced fields", "statement": "for r, c in s.empty(): set s[r, c] if calc_candidates(s, r, c) has exactly one element at that moment. The loop keeps every number that was there, and the sudoku has exactly the same solutions before and after it; so does any number of such loops one after another, and if they leave no field empty, the sudoku has no solution other than the result.", "quantifier": "for all box sizes, all contents (also with conflicts or numbers out of range), any number of loops", "why_tests_cant": "Each number the loop writes changes what calc_candidates returns for the fields after it; that no chain of such writes loses or adds a solution is a statement about all sudokus and all their solutions.", "anchors": ["sudokutools/solve.py:calc_candidates", "sudokutools/sudoku.py:Sudoku.empty"]}
